(** * Model of rofl::MinMaxHeap (common/include/rofl/common/min_max_heap.h).

    [data_] (a std::vector) is a list; every unchecked subscript that is out of range is [UB];
    ROFL_ASSERT failures are [Exit]; while loops get fuel and yield [Stuck] when it is exhausted.
    Simplifications: indices are [nat] (no size_t overflow: a heap has fewer than 2^62 items), and the
    conversions size_t -> int of the arguments of heapUp/heapDown are not modelled (heaps below 2^31 items). *)
From Coq Require Import List Arith Bool.
From Verif Require Import Base.
Import ListNotations.
Open Scope outcome_scope.

Section Heap.
Context {A : Type}.
Variable cmp : A -> A -> bool.   (* the Comparator functor cmp_, min_max_heap.h 177 *)

(** parent, 188-190 (only called with c > 0). *)
Definition hparent (c : nat) : nat := (c - 1) / 2.
(** grandparent, 204-206 (only called with c > 2). *)
Definition grandparent (c : nat) : nat := (c - 3) / 4.
(** childLeft, 196-198. *)
Definition childLeft (p : nat) : nat := 2 * p + 1.
(** grandchild, 208-210. *)
Definition grandchild (p pos : nat) : nat := 4 * p + 3 + pos.
(** hasParent 228-230, hasGrandparent 232-234. *)
Definition hasParent (i : nat) : bool := 0 <? i.
Definition hasGrandparent (i : nat) : bool := 2 <? i.

(** level, 179-186: the loop runs at most [i] times. *)
Fixpoint level_loop (fuel i n : nat) : nat :=
  match fuel with
  | O => n
  | S f => if 0 <? i then level_loop f (hparent i) (S n) else n
  end.
Definition level (i : nat) : nat := level_loop i i 0.

(** cmp_(data_[i], data_[j]). *)
Definition cmp_at (d : list A) (i j : nat) : outcome bool :=
  let! a := vread d i in
  let! b := vread d j in
  Ret (cmp a b).

(** std::swap(data_[i], data_[j]). *)
Definition vswap (d : list A) (i j : nat) : outcome (list A) :=
  let! a := vread d i in
  let! b := vread d j in
  Ret (lset (lset d i b) j a).

(** childMin, 248-255. *)
Definition childMin (d : list A) (i : nat) : outcome nat :=
  let imin := childLeft i in
  let ichild := imin + 1 in
  if ichild <? length d then
    let! c := cmp_at d ichild imin in Ret (if c : bool then ichild else imin)
  else Ret imin.

(** childMax, 261-268. *)
Definition childMax (d : list A) (i : nat) : outcome nat :=
  let imax := childLeft i in
  let ichild := imax + 1 in
  if ichild <? length d then
    let! c := cmp_at d imax ichild in Ret (if c : bool then ichild else imax)
  else Ret imax.

(** Loop of grandchildMin, 277-281: [k] iterations left, current [j], best so far [imin]. *)
Fixpoint gmin_loop (d : list A) (k j imin : nat) : outcome nat :=
  match k with
  | O => Ret imin
  | S k' =>
    if j <? length d then
      let! c := cmp_at d j imin in gmin_loop d k' (S j) (if c : bool then j else imin)
    else Ret imin
  end.
(** grandchildMin, 274-283. *)
Definition grandchildMin (d : list A) (i : nat) : outcome nat :=
  let igch := grandchild i 0 in gmin_loop d 3 (igch + 1) igch.

(** Loop of grandchildMax, 293-298. *)
Fixpoint gmax_loop (d : list A) (k j imax : nat) : outcome nat :=
  match k with
  | O => Ret imax
  | S k' =>
    if j <? length d then
      let! c := cmp_at d imax j in gmax_loop d k' (S j) (if c : bool then j else imax)
    else Ret imax
  end.
(** grandchildMax, 289-301. *)
Definition grandchildMax (d : list A) (i : nat) : outcome nat :=
  let igch := grandchild i 0 in gmax_loop d 3 (igch + 1) igch.

(** First while loop of heapUp, 333-341: returns the array and the position of the moved item. *)
Fixpoint up_min (fuel : nat) (d : list A) (i imin : nat) : outcome (list A * nat) :=
  match fuel with
  | O => Stuck
  | S f =>
    if imin <? length d then
      let! c := cmp_at d i imin in
      if c : bool then
        let! d' := vswap d i imin in
        up_min f d' imin (if hasGrandparent imin then grandparent imin else length d)
      else Ret (d, i)
    else Ret (d, i)
  end.

(** Second while loop of heapUp, 343-351. *)
Fixpoint up_max (fuel : nat) (d : list A) (i imax : nat) : outcome (list A * nat) :=
  match fuel with
  | O => Stuck
  | S f =>
    if imax <? length d then
      let! c := cmp_at d i imax in
      if negb c then
        let! d' := vswap d i imax in
        up_max f d' imax (if hasGrandparent imax then grandparent imax else length d)
      else Ret (d, i)
    else Ret (d, i)
  end.

(** heapUp, 312-352. *)
Definition heapUp (d : list A) (i : nat) : outcome (list A) :=
  let n := length d in
  let onLevelMin := level i mod 2 =? 0 in
  let imin := if onLevelMin then (if hasGrandparent i then grandparent i else n)
              else (if hasParent i then hparent i else n) in
  let imax := if onLevelMin then (if hasParent i then hparent i else n)
              else (if hasGrandparent i then grandparent i else n) in
  let! (d1, i1) := up_min (S n) d i imin in
  let! (d2, _) := up_max (S n) d1 i1 imax in
  Ret d2.

(** while loop of heapDownMin, 357-375. *)
Fixpoint down_min (fuel : nat) (d : list A) (icurr : nat) : outcome (list A) :=
  match fuel with
  | O => Stuck
  | S f =>
    if icurr <? length d then
      let! ichild := childMin d icurr in
      let! igrand := grandchildMin d icurr in
      let! c := (if igrand <? length d then
                   let! c1 := cmp_at d igrand icurr in
                   if c1 : bool then cmp_at d igrand ichild else Ret false
                 else Ret false) in
      if c : bool then
        let! d1 := vswap d icurr igrand in
        let! c2 := cmp_at d1 (hparent igrand) igrand in
        let! d2 := (if c2 : bool then vswap d1 (hparent igrand) igrand else Ret d1) in
        down_min f d2 igrand
      else
        let! c3 := (if ichild <? length d then cmp_at d ichild icurr else Ret false) in
        if c3 : bool then
          let! d1 := vswap d icurr ichild in
          down_min f d1 ichild
        else Ret d
    else Ret d
  end.
(** heapDownMin, 354-376. *)
Definition heapDownMin (d : list A) (i : nat) : outcome (list A) := down_min (S (length d)) d i.

(** while loop of heapDownMax, 381-402: the child branch ends the loop. *)
Fixpoint down_max (fuel : nat) (d : list A) (icurr : nat) : outcome (list A) :=
  match fuel with
  | O => Stuck
  | S f =>
    if icurr <? length d then
      let! ichild := childMax d icurr in
      let! igrand := grandchildMax d icurr in
      let! c := (if igrand <? length d then
                   let! c1 := cmp_at d icurr igrand in
                   if c1 : bool then cmp_at d ichild igrand else Ret false
                 else Ret false) in
      if c : bool then
        let! d1 := vswap d icurr igrand in
        let! c2 := cmp_at d1 igrand (hparent igrand) in
        let! d2 := (if c2 : bool then vswap d1 (hparent igrand) igrand else Ret d1) in
        down_max f d2 igrand
      else
        let! c3 := (if ichild <? length d then cmp_at d icurr ichild else Ret false) in
        if c3 : bool then vswap d icurr ichild else Ret d
    else Ret d
  end.
(** heapDownMax, 378-403. *)
Definition heapDownMax (d : list A) (i : nat) : outcome (list A) := down_max (S (length d)) d i.

(** push, 81-84. *)
Definition push (d : list A) (t : A) : outcome (list A) :=
  heapUp (d ++ [t]) (length d).

(** popTop, 88-93 (swap with the last item, drop it, restore). *)
Definition popTop (d : list A) : outcome (list A) :=
  match d with
  | [] => Exit
  | _ =>
    let! d1 := vswap d 0 (length d - 1) in
    heapDownMin (removelast d1) 0
  end.

(** popBottom, 97-107. *)
Definition popBottom (d : list A) : outcome (list A) :=
  match d with
  | [] => Exit
  | [_] => Ret []
  | _ =>
    let! imax := childMax d 0 in
    let! d1 := vswap d imax (length d - 1) in
    heapDownMax (removelast d1) imax
  end.

(** top, 111-114. *)
Definition top (d : list A) : outcome A :=
  match d with
  | [] => Exit
  | _ => vread d 0
  end.

(** bottom, 118-125. *)
Definition bottom (d : list A) : outcome A :=
  match d with
  | [] => Exit
  | [_] => vread d 0
  | _ => let! i := childMax d 0 in vread d i
  end.

(** nextTop, 129-138. *)
Definition nextTop (d : list A) : outcome A :=
  match d with
  | [] => Exit
  | [_] => vread d 0
  | _ =>
    if length d <? 4 then let! i := childMin d 0 in vread d i
    else let! i := grandchildMin d 0 in vread d i
  end.

(** nextBottom, 142-149. *)
Definition nextBottom (d : list A) : outcome A :=
  match d with
  | [] => Exit
  | _ =>
    if length d <? 3 then vread d 0
    else let! i := childMin d 0 in vread d i
  end.

(** A client's calls; pops are preceded by a look at the item that should go. *)
Inductive hop :=
| HPush (x : A)
| HPopTop
| HPopBottom.

Inductive hev :=
| EvPush (x : A)
| EvPopTop (x : A)
| EvPopBottom (x : A).

Definition hstep (d : list A) (o : hop) : outcome (list A * hev) :=
  match o with
  | HPush x => let! d' := push d x in Ret (d', EvPush x)
  | HPopTop => let! t := top d in let! d' := popTop d in Ret (d', EvPopTop t)
  | HPopBottom => let! t := bottom d in let! d' := popBottom d in Ret (d', EvPopBottom t)
  end.

Fixpoint hrun (d : list A) (h : list hop) : outcome (list A * list hev) :=
  match h with
  | [] => Ret (d, [])
  | o :: t =>
    let! (d1, e) := hstep d o in
    let! (d2, es) := hrun d1 t in
    Ret (d2, e :: es)
  end.

End Heap.
Arguments hop : clear implicits.
Arguments hev : clear implicits.
