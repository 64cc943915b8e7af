(** * The floating point comparison of common/include/rofl/common/morton_sort.h on all bit patterns, NaN included.

    The functions of MortonFloatModel.v with the comparisons of IEEE 754: < and > are false when an operand is NaN. *)
From Coq Require Import List ZArith Bool.
From Verif Require Import Base BitsModel MortonFloatModel.
Import ListNotations.
Open Scope outcome_scope.
Open Scope Z_scope.

(** NaN: exponent field all ones, mantissa field not zero. *)
Definition is_nan (f : fty) (x : Z) : bool :=
  let '(m, e, _) := ft_decompose f x in (e + ft_bias f =? match f with F32 => 255 | F64 => 2047 end) && negb (m =? 0).
(** x < y and fabs(x) > fabs(y). *)
Definition flt (f : fty) (x y : Z) : bool := negb (is_nan f x) && negb (is_nan f y) && (fval f x <? fval f y).
Definition fabs_gt (f : fty) (x y : Z) : bool := negb (is_nan f x) && negb (is_nan f y) && (fmag f y <? fmag f x).

(** xorFloat 136-196. *)
Definition xorFloat_nan (f : fty) (fin1 fin2 : Z) : outcome (Z * Z * Z) :=
  let '(f1, f2) := if fabs_gt f fin1 fin2 then (fin1, fin2) else (fin2, fin1) in
  let '(fm1, fe1, fs1) := ft_decompose f f1 in
  let '(fm2, fe2, fs2) := ft_decompose f f2 in
  if xorb fs1 fs2 then
    let! r := ft_compose f 0 (ft_emax f) false in Ret (r, 0, ft_emax f)
  else
    let fm1 := Z.lor fm1 (ft_implicit f) in
    let! fm2 := if fe1 <? fe2 + ft_bits f
                then if fe1 - fe2 <? 0 then UB else Ret (Z.shiftr (Z.lor fm2 (ft_implicit f)) (fe1 - fe2))
                else Ret 0 in
    let fm1 := if fs1 then - fm1 else fm1 in
    let fm2 := if fs1 then - fm2 else fm2 in
    let mantissaDiff := Z.lxor fm1 fm2 in
    if mantissaDiff =? 0 then
      let! r := ft_compose f mantissaDiff (- ft_bias f) false in Ret (r, mantissaDiff, - ft_bias f)
    else
      let! l := it_log2Mod (ft_ity f) mantissaDiff in
      let msbPos := ft_mbits f - l in
      let exponentDiff := fe1 - msbPos in
      let! sh := shl (ft_bits f) mantissaDiff msbPos in
      let mantissaDiff := Z.land sh (ft_mmask f) in
      let! r := ft_compose f mantissaDiff exponentDiff false in Ret (r, mantissaDiff, exponentDiff).

(** mortonCmpFloat 380-400. *)
Fixpoint fcmp_loop_nan (f : fty) (d : nat) (l : list (Z * Z)) (lastDim : nat) (lastXor lastExponent : Z) : outcome nat :=
  match l with
  | [] => Ret lastDim
  | (x, y) :: r =>
    let! c := xorFloat_nan f x y in
    let '(currXor, _, currExponent) := c in
    if flt f lastXor currXor && (lastExponent <? currExponent)
    then fcmp_loop_nan f (S d) r d currXor currExponent
    else fcmp_loop_nan f (S d) r lastDim lastXor lastExponent
  end.
Definition mortonCmpFloat_nan (f : fty) (v1 v2 : list Z) : outcome bool :=
  match combine v1 v2 with
  | [] => UB
  | (x, y) :: r =>
    let! c := xorFloat_nan f x y in
    let '(lastXor, _, lastExponent) := c in
    let! lastDim := fcmp_loop_nan f 1 r 0 lastXor lastExponent in
    let! a := vread v1 lastDim in
    let! b := vread v2 lastDim in
    Ret (flt f a b)
  end.
