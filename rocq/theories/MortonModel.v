(** * Model of the integer part of common/include/rofl/common/morton_sort.h.

    A point is a list of [Z] (values of the integer type [t]); Dim is its length. *)
From Coq Require Import List ZArith Bool.
From Verif Require Import Base BitsModel.
Import ListNotations.
Open Scope outcome_scope.
Open Scope Z_scope.

(** msb 57-60. *)
Definition msb (i1 i2 : Z) : bool := (i1 <? i2) && (i1 <? Z.lxor i1 i2).

(** IT::removeSign(x) ^ IT::removeSign(y), as in 113, 323, 325, 342. *)
Definition xorRS (t : ity) (x y : Z) : Z := Z.lxor (removeSign t x) (removeSign t y).

(** mortonCmpInt 317-332: the loop over d = 1 .. Dim-1.  [lastDim] has type UnsignedType, so d is converted. *)
Fixpoint cmp_loop (t : ity) (d : Z) (l : list (Z * Z)) (lastDim lastXor : Z) : Z * Z :=
  match l with
  | [] => (lastDim, lastXor)
  | (x, y) :: r =>
    let currXor := xorRS t x y in
    if msb lastXor currXor then cmp_loop t (d + 1) r (wrap (bit_num t) d) currXor
    else cmp_loop t (d + 1) r lastDim lastXor
  end.
(** Dim = 0 would read v1[0] out of bounds. *)
Definition mortonCmpInt (t : ity) (v1 v2 : list Z) : outcome bool :=
  match combine v1 v2 with
  | [] => UB
  | (x, y) :: r =>
    let (lastDim, _) := cmp_loop t 1 r 0 (xorRS t x y) in
    let! a := vread v1 (Z.to_nat lastDim) in
    let! b := vread v2 (Z.to_nat lastDim) in
    Ret (a <? b)
  end.

(** mortonDistanceInt 334-348. *)
Definition level (t : ity) (x y : Z) : Z := bit_num t - it_nlz t (xorRS t x y).
Definition mortonDistanceInt (t : ity) (v1 v2 : list Z) : Z :=
  fold_left (fun levelMax xy => let l := level t (fst xy) (snd xy) in if levelMax <? l then l else levelMax) (combine v1 v2) 0.

(** numeric_limits<I>::min() and max(). *)
Definition lim_min (t : ity) : Z := if is_signed t then - 2 ^ (bit_num t - 1) else 0.
Definition lim_max (t : ity) : Z := if is_signed t then 2 ^ (bit_num t - 1) - 1 else 2 ^ bit_num t - 1.

(** 1 << s with both operands int (C++17). *)
Definition shl1 (s : Z) : outcome Z :=
  if (s <? 0) || (32 <=? s) then UB else Ret (if s =? 31 then - 2 ^ 31 else 2 ^ s).
(** intervalPow2Int 85-134: level, low, mid, upp.  [1 << level] is an int shift whatever I is; subtracting 1 from
    INT_MIN overflows.  (upp + low) / 2 truncates toward zero. *)
Definition intervalPow2Int (t : ity) (i1 i2 : Z) : outcome (Z * Z * Z * Z) :=
  let lev := level t i1 i2 in
  if lev <? bit_num t then
    let! p := shl1 lev in
    if p =? - 2 ^ 31 then UB
    else
      let intervMask := p - 1 in
      let low := Z.land i1 (Z.lnot intervMask) in
      let upp := Z.lor low intervMask in
      let! h := shl1 (lev - 1) in
      let mid := Z.lor low h in
      Ret (lev, low, mid, upp)
  else
    let low := lim_min t in
    let upp := lim_max t in
    Ret (lev, low, Z.quot (upp + low) 2, upp).

(** mortonSplitInt 350-366: results low, mid, upp.  The loop state is dimSplit, levelSplit and the three arrays filled so far. *)
Fixpoint split_loop (t : ity) (l : list (Z * Z)) (dimSplit : nat) (levelSplit : Z) (low mid upp : list Z)
  : outcome (list Z * list Z * list Z) :=
  match l with
  | [] => Ret (low, mid, upp)
  | (x, y) :: r =>
    let! r1 := intervalPow2Int t x y in
    let '(lev, lo, mi, up) := r1 in
    if levelSplit <? lev then
      let! lds := vread low dimSplit in
      split_loop t r (length low) lev (low ++ [lo]) (lset mid dimSplit lds ++ [mi]) (upp ++ [up])
    else split_loop t r dimSplit levelSplit (low ++ [lo]) (mid ++ [lo]) (upp ++ [up])
  end.
Definition mortonSplitInt (t : ity) (v1 v2 : list Z) : outcome (list Z * list Z * list Z) :=
  match combine v1 v2 with
  | [] => UB
  | (x, y) :: r =>
    let! r1 := intervalPow2Int t x y in
    let '(lev, lo, mi, up) := r1 in
    split_loop t r 0 lev [lo] [mi] [up]
  end.
