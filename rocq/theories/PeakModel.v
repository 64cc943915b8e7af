(** * PeakFinderD::detect (common/include/rofl/common/peak_finder_d.h 124-214).

    Built on the models of IntervalIndices and MinMaxHeap.  The histogram is a function from cells to values, [comp] the
    comparator comp_.  Cells are lists of integers (int; overflow of sums of coordinates is not modelled).  The domain is walked by
    the iterator model [iterate_boustrophedon], whose result does not depend on the loop body; the range loops use [iterate_raster].
    The result is the list of cells assigned to the inserter, in order.  DIM is at least 1. *)
From Coq Require Import List ZArith Bool.
From Verif Require Import Base IntervalModel MinMaxHeapModel.
Import ListNotations.
Open Scope Z_scope.
Open Scope outcome_scope.

(** findIncrement 203-214: the first coordinate of largest change, and the change. *)
Fixpoint incr_loop (d : nat) (prev curr : list Z) (dimMax : nat) (incrMax : Z) : nat * Z :=
  match prev, curr with
  | p :: ps, c :: cs =>
    let incr := c - p in
    if Z.abs incrMax <? Z.abs incr then incr_loop (S d) ps cs d incr else incr_loop (S d) ps cs dimMax incrMax
  | _, _ => (dimMax, incrMax)
  end.
Definition findIncrement (prev curr : list Z) : nat * Z := incr_loop 0 prev curr 0%nat 0.

Section Detect.
Context {V : Type}.
Variable comp : V -> V -> bool.
Variable val : list Z -> V.

(** indicesCmp 130-132. *)
Definition icmp (a b : list Z) : bool := comp (val a) (val b).

(** The range loops 146-148 and 160-162. *)
Fixpoint push_all (h : list (list Z)) (l : list (list Z)) : outcome (list (list Z)) :=
  match l with
  | [] => Ret h
  | x :: r => let! h1 := push icmp h x in push_all h1 r
  end.

(** 167-169. *)
Fixpoint purge (fuel : nat) (win : interval) (h : list (list Z)) : outcome (list (list Z)) :=
  match fuel with
  | O => Stuck
  | S f =>
    match h with
    | [] => Ret h
    | _ =>
      let! t := top h in
      if inside win t then Ret h else let! h1 := popTop icmp h in purge f win h1
    end
  end.

(** 174-186: does the current cell go to maxima? *)
Definition is_peak (filterMin : option V) (h : list (list Z)) (cur : list Z) : outcome bool :=
  if match filterMin with None => true | Some vmin => comp (val cur) vmin end then
    match h with
    | [] => Ret false
    | _ =>
      let! t := top h in
      if comp (val t) (val cur) then Ret false
      else let! nt := nextTop icmp h in Ret (comp (val cur) (val nt))
    end
  else Ret false.

(** Loop 154-188 over the remaining cells of the domain; returns maxima. *)
Fixpoint scan (domain : interval) (filterMin : option V) (cells : list (list Z)) (prev : list Z) (win : interval)
    (items maxima : list (list Z)) : outcome (list (list Z)) :=
  match cells with
  | [] => Ret maxima
  | cur :: rest =>
    let '(dimMax, incrMax) := findIncrement prev cur in
    let! st := stacked win dimMax incrMax in
    let! l := iterate_raster (intersect st domain) in
    let! items := push_all items l in
    let! win := translate win dimMax incrMax in
    let! items := purge (S (length items)) win items in
    let! b := is_peak filterMin items cur in
    let! maxima := (if b : bool then push icmp maxima cur else Ret maxima) in
    scan domain filterMin rest cur win items maxima
  end.

(** 190-193. *)
Fixpoint drain (fuel : nat) (h : list (list Z)) : outcome (list (list Z)) :=
  match h with
  | [] => Ret []
  | _ =>
    match fuel with
    | O => Stuck
    | S f => let! t := top h in let! h1 := popTop icmp h in let! r := drain f h1 in Ret (t :: r)
    end
  end.

(** detect 125-194; [filterMin] is valueMin_ when enableFilterMinValue_ is set. *)
Definition detect (domain : interval) (iwin : list Z) (filterMin : option V) : outcome (list (list Z)) :=
  let! cells := iterate_boustrophedon domain in
  match cells with
  | [] => Exit
  | c0 :: rest =>
    let win := initCentered c0 iwin in
    let! l := iterate_raster (intersect win domain) in
    let! items := push_all [] l in
    let! maxima := scan domain filterMin rest c0 win items [] in
    drain (length maxima) maxima
  end.
End Detect.
