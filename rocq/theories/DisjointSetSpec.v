(** * What a user expects of a disjoint-set structure, without looking at the code. *)
From Coq Require Import List ZArith Bool Relations.
From Verif Require Import DisjointSetModel.
Import ListNotations.
Open Scope Z_scope.

(** Ids that denote elements when there are [n] of them. *)
Definition in_range (n a : Z) : bool := (0 <=? a) && (a <? n).

(** Number of elements after a history of calls that started with [n] elements. *)
Fixpoint elements (n : Z) (h : list op) : Z :=
  match h with
  | [] => n
  | OMake :: t => elements (n + 1) t
  | _ :: t => elements n t
  end.

(** Pairs of elements that the history joined. *)
Fixpoint links (n : Z) (h : list op) : list (Z * Z) :=
  match h with
  | [] => []
  | OJoin a b :: t => if in_range n a && in_range n b then (a, b) :: links n t else links n t
  | OMake :: t => links (n + 1) t
  | _ :: t => links n t
  end.

(** Connectivity: the equivalence closure of the joined pairs. *)
Definition connected (n : Z) (h : list op) : Z -> Z -> Prop :=
  clos_refl_sym_trans Z (fun a b => In (a, b) (links n h)).

(** A legal client: size() is asked only for elements; join gets two elements or two non-elements. *)
Fixpoint legal (n : Z) (h : list op) : bool :=
  match h with
  | [] => true
  | OJoin a b :: t => Bool.eqb (in_range n a) (in_range n b) && legal n t
  | OSize a :: t => in_range n a && legal n t
  | OMake :: t => legal (n + 1) t
  | _ :: t => legal n t
  end.

(** [OMake] does not occur. *)
Fixpoint no_make (h : list op) : bool :=
  match h with
  | [] => true
  | OMake :: _ => false
  | _ :: t => no_make t
  end.

(** [l] lists exactly one element of each class of [R] among the elements [0..n-1]. *)
Definition transversal (n : Z) (R : Z -> Z -> Prop) (l : list Z) : Prop :=
  NoDup l /\
  (forall r, In r l -> 0 <= r < n) /\
  (forall a, 0 <= a < n -> exists r, In r l /\ R a r) /\
  (forall r r', In r l -> In r' l -> R r r' -> r = r').

(** [l] lists exactly the elements connected to [a]. *)
Definition class_of (n : Z) (R : Z -> Z -> Prop) (a : Z) (l : list Z) : Prop :=
  NoDup l /\ forall b, In b l <-> (0 <= b < n /\ R a b).
