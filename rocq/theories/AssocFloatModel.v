(** * The correspondence graph in float arithmetic (geometry/src/correspondence_graph_association.cpp 27-30, 52-97).

    rofl::Scalar is float (geometry/include/rofl/geometry/types.h 39).  The distances returned by the functor, the tolerance and the minimal
    distance are finite floats, given by their real values; the sum and the difference with the tolerance are rounded to nearest ([single] of
    SingleModel.v).  A sum beyond the largest float becomes an infinity in C++ and a number above every float here: the comparisons with
    floats agree.  NaN is not modelled.  The rest is AssocModel.v. *)
From Coq Require Import List ZArith Bool Reals.
From Verif Require Import Base LabelSetModel AssocModel SingleModel.
Import ListNotations.
Open Scope Z_scope.
Open Scope outcome_scope.

(** Constructor, cpp 27-30: the tolerance is the float nearest to the literal 0.1. *)
Definition cga_newf : cga := mkC [] [] [] 0 0 (single (1 / 10)) 0.

(** distLower and distUpper, cpp 72-73. *)
Definition dist_lower (s : pdist) (t : R) : R := single (pdd s - t).
Definition dist_upper (s : pdist) (t : R) : R := single (pdd s + t).

(** Outer loop, cpp 71-97. *)
Fixpoint link_srcf (nd : Z) (t : R) (ds : list pdist) (ss : list pdist) (l : list node) : outcome (list node) :=
  match ss with
  | [] => Ret l
  | s :: r =>
    let! l1 := link_dst nd s (take_below (dist_upper s t) (upper_from (dist_lower s t) ds)) l in
    link_srcf nd t ds r l1
  end.
(** The graph built by associate, cpp 52-97. *)
Definition buildf (c : cga) : outcome (list node) :=
  link_srcf (ndst c) (tol c) (ddst c) (upper_from (dmin c) (dsrc c)) (nodes c ++ new_nodes (nsrc c) (ndst c)).
