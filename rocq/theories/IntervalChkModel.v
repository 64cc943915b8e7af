(** * The operations of rofl::IntervalIndices with every signed operation checked
      (common/include/rofl/common/interval_indices.h), and PeakFinderD::detect built on them
      (common/include/rofl/common/peak_finder_d.h).

    IntervalModel.v and PeakModel.v compute with exact integers.  Here Index = int and a sum, difference or product out of the
    range of int is [UB], operation by operation and with the short-circuit of || as written.
    Simplification: in a loop over the coordinates that computes two arrays, the first array is computed before the second (an
    overflow in either is [UB]); the conversions of the iterators are those of IntervalModel.v (coordinates of cells of the box). *)
From Coq Require Import List ZArith Bool.
From Verif Require Import Base IntervalModel MinMaxHeapModel PeakModel.
Import ListNotations.
Open Scope outcome_scope.
Open Scope Z_scope.

Fixpoint map2M (f : Z -> Z -> outcome Z) (a b : list Z) : outcome (list Z) :=
  match a, b with
  | x :: a', y :: b' => let! z := f x y in let! t := map2M f a' b' in Ret (z :: t)
  | _, _ => Ret []
  end.

(** initCentered 257-262: winCenter - winSize, 2 * winSize + 1. *)
Definition initCentered_chk (c w : list Z) : outcome interval :=
  let! mn := map2M (fun x y => chk (x - y)) c w in
  let! dm := map2M (fun _ y => let! t := chk (2 * y) in chk (t + 1)) c w in
  Ret (mkI mn dm).
(** initMinMax 272-277: max - min + 1. *)
Definition initMinMax_chk (mn mx : list Z) : outcome interval :=
  let! dm := map2M (fun a b => let! t := chk (b - a) in chk (t + 1)) mn mx in
  Ret (mkI mn dm).
(** max 310-316: min_ + dimensions_ - 1. *)
Definition imax_chk (a : interval) : outcome (list Z) :=
  map2M (fun m d => let! t := chk (m + d) in chk (t - 1)) (imin a) (idim a).
(** last 330-336: min_ + dimensions_. *)
Definition ilast_chk (a : interval) : outcome (list Z) := map2M (fun m d => chk (m + d)) (imin a) (idim a).
(** inside 364-371: the sum is only computed when indices[d] >= min_[d]. *)
Fixpoint inside_loop_chk (mn dm ix : list Z) : outcome bool :=
  match mn, dm, ix with
  | m :: mn', d :: dm', i :: ix' =>
    if i <? m then Ret false
    else let! e := chk (m + d) in if e <=? i then Ret false else inside_loop_chk mn' dm' ix'
  | _, _, _ => Ret true
  end.
Definition inside_chk (a : interval) (ix : list Z) : outcome bool := inside_loop_chk (imin a) (idim a) ix.
(** The second clamp 389-393. *)
Definition clamp (i : interval) : interval := mkI (imin i) (map (fun d => if d <? 0 then 0 else d) (idim i)).
(** intersect 376-395: std::min of the two sums, minus 1, then initMinMax. *)
Fixpoint inters_max (am ad bm bd : list Z) : outcome (list Z) :=
  match am, ad, bm, bd with
  | m :: am', d :: ad', n :: bm', e :: bd' =>
    let! x := chk (m + d) in
    let! y := chk (n + e) in
    let! z := chk (Z.min x y - 1) in
    let! t := inters_max am' ad' bm' bd' in
    Ret (z :: t)
  | _, _, _, _ => Ret []
  end.
Definition intersect_chk (a b : interval) : outcome interval :=
  if empty a then Ret a
  else if empty b then Ret b
  else
    let! mx := inters_max (imin a) (idim a) (imin b) (idim b) in
    let! i := initMinMax_chk (map2 Z.max (imin a) (imin b)) mx in
    Ret (clamp i).
(** stacked 405-419. *)
Definition stacked_chk (a : interval) (d : nat) (incr : Z) : outcome interval :=
  if (d <? length (imin a))%nat then
    let! m := vread (imin a) d in
    let! e := vread (idim a) d in
    if 0 <=? incr then let! s := chk (m + e) in Ret (mkI (lset (imin a) d s) (lset (idim a) d incr))
    else let! s := chk (m + incr) in let! n := chk (- incr) in Ret (mkI (lset (imin a) d s) (lset (idim a) d n))
  else Exit.
(** translate 426-429, 435-439. *)
Definition translate_chk (a : interval) (d : nat) (incr : Z) : outcome interval :=
  if (d <? length (imin a))%nat then
    let! m := vread (imin a) d in let! s := chk (m + incr) in Ret (mkI (lset (imin a) d s) (idim a))
  else Exit.
Definition translateV_chk (a : interval) (t : list Z) : outcome interval :=
  let! mn := map2M (fun x y => chk (x + y)) (imin a) t in Ret (mkI mn (idim a)).

(** findIncrement, peak_finder_d.h 203-214: the difference, and std::abs of an int (INT_MIN has none). *)
Fixpoint incr_loop_chk (d : nat) (prev curr : list Z) (dimMax : nat) (incrMax : Z) : outcome (nat * Z) :=
  match prev, curr with
  | p :: ps, c :: cs =>
    let! incr := chk (c - p) in
    let! a := chk (Z.abs incr) in
    let! b := chk (Z.abs incrMax) in
    if b <? a then incr_loop_chk (S d) ps cs d incr else incr_loop_chk (S d) ps cs dimMax incrMax
  | _, _ => Ret (dimMax, incrMax)
  end.
Definition findIncrement_chk (prev curr : list Z) : outcome (nat * Z) := incr_loop_chk 0 prev curr 0%nat 0.

Section Detect.
Context {V : Type}.
Variable comp : V -> V -> bool.
Variable val : list Z -> V.

(** peak_finder_d.h 167-169. *)
Fixpoint purge_chk (fuel : nat) (win : interval) (h : list (list Z)) : outcome (list (list Z)) :=
  match fuel with
  | O => Stuck
  | S f =>
    match h with
    | [] => Ret h
    | _ =>
      let! t := top h in
      let! b := inside_chk win t in
      if b : bool then Ret h else let! h1 := popTop (icmp comp val) h in purge_chk f win h1
    end
  end.

(** Loop 154-188. *)
Fixpoint scan_chk (domain : interval) (filterMin : option V) (cells : list (list Z)) (prev : list Z) (win : interval)
    (items maxima : list (list Z)) : outcome (list (list Z)) :=
  match cells with
  | [] => Ret maxima
  | cur :: rest =>
    let! (dimMax, incrMax) := findIncrement_chk prev cur in
    let! st := stacked_chk win dimMax incrMax in
    let! novel := intersect_chk st domain in
    let! l := iterate_raster novel in
    let! items := push_all comp val items l in
    let! win := translate_chk win dimMax incrMax in
    let! items := purge_chk (S (length items)) win items in
    let! b := is_peak comp val filterMin items cur in
    let! maxima := (if b : bool then push (icmp comp val) maxima cur else Ret maxima) in
    scan_chk domain filterMin rest cur win items maxima
  end.

(** detect 125-194. *)
Definition detect_chk (domain : interval) (iwin : list Z) (filterMin : option V) : outcome (list (list Z)) :=
  let! cells := iterate_boustrophedon domain in
  match cells with
  | [] => Exit
  | c0 :: rest =>
    let! win := initCentered_chk c0 iwin in
    let! novel := intersect_chk win domain in
    let! l := iterate_raster novel in
    let! items := push_all comp val [] l in
    let! maxima := scan_chk domain filterMin rest c0 win items [] in
    drain comp val (length maxima) maxima
  end.
End Detect.
