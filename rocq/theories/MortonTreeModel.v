(** * MortonTree: common/include/rofl/common/morton_tree.h.

    Simplifications: an iterator is an index into items_; text output is dropped, but every iterator dereference and every
    comparison in the output statements is kept.  std::sort is a parameter (its result is not determined by the standard when items are
    equivalent); std::lower_bound / std::upper_bound are the usual halving loops.  Memory exhaustion is not modelled. *)
From Coq Require Import List ZArith Bool.
From Verif Require Import Base BitsModel MortonModel MortonFloatModel.
Import ListNotations.
Open Scope Z_scope.
Open Scope outcome_scope.

(** Item 41-70. *)
Record item := mkItem { values : list Z; id : Z }.
(** items_, ordered_ 330-331. *)
Record tree := mkTree { items : list item; ordered : bool }.
(** Constructor 81. *)
Definition empty_tree : tree := mkTree [] true.

(** MortonTraits (morton_sort.h 458-517). *)
Record traits := mkTraits {
  compare : list Z -> list Z -> outcome bool;
  distance : list Z -> list Z -> outcome Z;
  split : list Z -> list Z -> outcome (list Z * list Z * list Z) }.
Definition int_traits (t : ity) : traits := mkTraits (mortonCmpInt t) (fun a b => Ret (mortonDistanceInt t a b)) (mortonSplitInt t).
Definition float_traits (f : fty) : traits := mkTraits (mortonCmpFloat f) (mortonDistanceFloat f) (mortonSplitFloat f).

Section Tree.
Variable T : traits.
(** std::sort with a given comparison. *)
Variable sorter : (item -> item -> outcome bool) -> list item -> outcome (list item).

(** compareItems 333-335. *)
Definition compareItems (a b : item) : outcome bool := compare T (values a) (values b).

(** Halving search shared by std::lower_bound and std::upper_bound; [right] tells whether to continue after the middle. *)
Fixpoint bisect (fuel : nat) (right : item -> outcome bool) (l : list item) (first len : nat) : outcome nat :=
  match len with
  | O => Ret first
  | _ =>
    match fuel with
    | O => Stuck
    | S f =>
      let half := Nat.div2 len in
      let! m := vread l (first + half) in
      let! r := right m in
      if r then bisect f right l (first + half + 1) (len - half - 1) else bisect f right l first half
    end
  end.
Definition lower_bound (l : list item) (q : item) : outcome nat := bisect (length l) (fun m => compareItems m q) l 0 (length l).
Definition upper_bound (l : list item) (q : item) : outcome nat :=
  bisect (length l) (fun m => let! b := compareItems q m in Ret (negb b)) l 0 (length l).

(** sort 248-255. *)
Definition sort (t : tree) : outcome tree := let! l := sorter compareItems (items t) in Ret (mkTree l true).
Definition ensure (t : tree) : outcome tree := if ordered t then Ret t else sort t.

(** Conversion of a size_t to int. *)
Definition to_int (n : Z) : Z := let m := n mod 2 ^ 32 in if 2 ^ 31 <=? m then m - 2 ^ 32 else m.

(** insert 175-183: the copy starts with id -1 (Item() 45-48). *)
Definition insert (t : tree) (x : item) (resetId : bool) : tree :=
  mkTree (items t ++ [mkItem (values x) (if resetId then to_int (Z.of_nat (length (items t))) else -1)]) false.

(** Range insert 194-209: also rewrites the ids of the source items, which are the second result. *)
Fixpoint insert_loop (t : tree) (l : list item) (i : Z) (resetId : bool) : outcome (tree * list item) :=
  match l with
  | [] => Ret (t, [])
  | x :: r =>
    let x' := if resetId then mkItem (values x) i else x in
    let! i' := sadd 32 i 1 in
    let! r1 := insert_loop (insert t x' resetId) r i' resetId in
    Ret (fst r1, x' :: snd r1)
  end.
Definition insert_range (t : tree) (l : list item) (resetId : bool) : outcome (tree * list item) :=
  let! r := insert_loop t l (to_int (Z.of_nat (length (items t)))) resetId in
  Ret (mkTree (items (fst r)) false, snd r).

(** Insert with a converter 227-243; the argument is the list of converted items. *)
Fixpoint conv_loop (its : list item) (l : list item) (resetId : bool) : list item :=
  match l with
  | [] => its
  | x :: r => conv_loop (its ++ [if resetId then mkItem (values x) (to_int (Z.of_nat (length its))) else x]) r resetId
  end.
Definition insert_conv (t : tree) (l : list item) (resetId : bool) : tree := mkTree (conv_loop (items t) l resetId) false.

(** findItem 131-141. *)
Definition findItem (t : tree) (q : item) : outcome (tree * nat) :=
  let! t1 := ensure t in
  let! k := lower_bound (items t1) q in
  Ret (t1, k).

(** computeLevel 151-164. *)
Definition computeLevel (t : tree) (first last : nat) : outcome (tree * Z) :=
  let! t1 := ensure t in
  let last' := if (last =? first)%nat then last else Nat.pred last in
  let! a := vread (items t1) first in
  let! b := vread (items t1) last' in
  let! d := distance T (values a) (values b) in
  Ret (t1, d).

(** findTreeBucket 337-353; the dereferences of 341 and 349 are kept. *)
Definition findTreeBucket (l : list item) (first last : nat) : outcome (nat * nat * nat) :=
  let! a := vread l first in
  let! b := vread l last in
  let! s := split T (values a) (values b) in
  let '(bl, bm, bu) := s in
  let! low := lower_bound l (mkItem bl (-1)) in
  let! mid := lower_bound l (mkItem bm (-1)) in
  let! upp := upper_bound l (mkItem bu (-1)) in
  let! _ := vread l low in
  let! _ := vread l mid in
  let! _ := vread l upp in
  Ret (low, mid, upp).

(** The comparisons printed in 269-271. *)
Fixpoint print_loop (l : list item) (bmin bmax : item) : outcome unit :=
  match l with
  | [] => Ret tt
  | x :: r => let! _ := compareItems x bmin in let! _ := compareItems x bmax in print_loop r bmin bmax
  end.

(** Main loop of searchInBox 278-312; the queue is used as a stack (back, pop_back, push_back) and [fuel] is 10 - count.
    Advancing an iterator from low until it equals upp (289) is undefined when low is behind upp. *)
Fixpoint search_loop (fuel : nat) (l : list item) (queue : list (nat * nat)) (out : list nat) : outcome (list nat) :=
  match fuel, queue with
  | O, _ | _, [] => Ret out
  | S f, (c1, c2) :: q =>
    let! b := findTreeBucket l c1 c2 in
    let '(low, mid, upp) := b in
    if ((c1 =? low) && (c2 =? upp))%nat then
      if (upp <? low)%nat then UB else search_loop f l q (out ++ seq low (upp - low))
    else
      let q1 := if (c1 =? mid)%nat then q else (c1, mid) :: q in
      let q2 := if (mid =? c2)%nat then q1 else (mid, c2) :: q1 in
      search_loop f l q2 out
  end.
(** searchInBox 257-313: items found are appended to [out]. *)
Definition searchInBox (t : tree) (bmin bmax : item) (out : list nat) : outcome (tree * list nat) :=
  let! t1 := ensure t in
  let l := items t1 in
  let! _ := print_loop l bmin bmax in
  let! c1 := upper_bound l bmin in
  let! c2 := lower_bound l bmax in
  let! _ := vread l c1 in
  let! _ := vread l c2 in
  let! r := search_loop 10 l [(c1, c2)] out in
  Ret (t1, r).

(** Public operations; the tree is the state. *)
Inductive op :=
| OInsert (x : item) (resetId : bool)
| ORange (l : list item) (resetId : bool)
| OConv (l : list item) (resetId : bool)
| OSort
| OFind (q : item)
| OLevel (first last : nat)
| OBox (bmin bmax : item).
Definition step (t : tree) (o : op) : outcome tree :=
  match o with
  | OInsert x b => Ret (insert t x b)
  | ORange l b => let! r := insert_range t l b in Ret (fst r)
  | OConv l b => Ret (insert_conv t l b)
  | OSort => sort t
  | OFind q => let! r := findItem t q in Ret (fst r)
  | OLevel i j => let! r := computeLevel t i j in Ret (fst r)
  | OBox a b => let! r := searchInBox t a b [] in Ret (fst r)
  end.
Fixpoint run (t : tree) (l : list op) : outcome tree :=
  match l with
  | [] => Ret t
  | o :: r => let! t1 := step t o in run t1 r
  end.
End Tree.

(** Centred box 315-322.  int and long: signed overflow is undefined; unsigned types wrap around; narrower types are promoted to
    int and converted back. *)
Definition add_in (t : ity) (x y : Z) : outcome Z :=
  match t with I32 | I64 => sadd (bit_num t) x y | _ => Ret (conv t (x + y)) end.
Fixpoint box_corner (t : ity) (s : Z) (c : list Z) (r : Z) : outcome (list Z) :=
  match c with
  | [] => Ret []
  | x :: l => let! y := add_in t x (s * r) in let! m := box_corner t s l r in Ret (y :: m)
  end.
Definition searchInBoxCentre (t : ity) (sorter : (item -> item -> outcome bool) -> list item -> outcome (list item))
    (tr : tree) (c : item) (r : Z) (out : list nat) : outcome (tree * list nat) :=
  let! lo := box_corner t (-1) (values c) r in
  let! hi := box_corner t 1 (values c) r in
  searchInBox (int_traits t) sorter tr (mkItem lo (-1)) (mkItem hi (-1)) out.
