(** * Model of the floating point part of common/include/rofl/common/morton_sort.h.

    A floating point number is its bit pattern (an integer in [0, 2^BIT_NUM)); a point is a list of patterns.  Only finite
    numbers and infinities are ordered correctly by [fval]; NaN patterns are outside the model. *)
From Coq Require Import List ZArith Bool.
From Verif Require Import Base BitsModel.
Import ListNotations.
Open Scope outcome_scope.
Open Scope Z_scope.

(** The number times 2^(BIAS + MANTISSA_BITS - 1): an exact integer, so the C++ comparison of two numbers is the comparison of
    these integers. *)
Definition fmag (f : fty) (x : Z) : Z :=
  let '(m, e, _) := ft_decompose f x in
  if e + ft_bias f =? 0 then m else (2 ^ ft_mbits f + m) * 2 ^ (e + ft_bias f - 1).
Definition fval (f : fty) (x : Z) : Z := let '(_, _, s) := ft_decompose f x in if s then - fmag f x else fmag f x.

(** xorFloat 136-196: result, mantissaDiff, exponentDiff. *)
Definition xorFloat (f : fty) (fin1 fin2 : Z) : outcome (Z * Z * Z) :=
  let '(f1, f2) := if fmag f fin2 <? fmag f fin1 then (fin1, fin2) else (fin2, fin1) in
  let '(fm1, fe1, fs1) := ft_decompose f f1 in
  let '(fm2, fe2, fs2) := ft_decompose f f2 in
  if xorb fs1 fs2 then
    let! r := ft_compose f 0 (ft_emax f) false in Ret (r, 0, ft_emax f)
  else
    let fm1 := Z.lor fm1 (ft_implicit f) in
    let! fm2 := if fe1 <? fe2 + ft_bits f
                then if fe1 - fe2 <? 0 then UB else Ret (Z.shiftr (Z.lor fm2 (ft_implicit f)) (fe1 - fe2))
                else Ret 0 in
    let fm1 := if fs1 then - fm1 else fm1 in
    let fm2 := if fs1 then - fm2 else fm2 in
    let mantissaDiff := Z.lxor fm1 fm2 in
    if mantissaDiff =? 0 then
      let! r := ft_compose f mantissaDiff (- ft_bias f) false in Ret (r, mantissaDiff, - ft_bias f)
    else
      let! l := it_log2Mod (ft_ity f) mantissaDiff in
      let msbPos := ft_mbits f - l in
      let exponentDiff := fe1 - msbPos in
      let! sh := shl (ft_bits f) mantissaDiff msbPos in
      let mantissaDiff := Z.land sh (ft_mmask f) in
      let! r := ft_compose f mantissaDiff exponentDiff false in Ret (r, mantissaDiff, exponentDiff).

(** mortonCmpFloat 380-400: the loop over d = 1 .. Dim-1. *)
Fixpoint fcmp_loop (f : fty) (d : nat) (l : list (Z * Z)) (lastDim : nat) (lastXor lastExponent : Z) : outcome nat :=
  match l with
  | [] => Ret lastDim
  | (x, y) :: r =>
    let! c := xorFloat f x y in
    let '(currXor, _, currExponent) := c in
    if (fval f lastXor <? fval f currXor) && (lastExponent <? currExponent)
    then fcmp_loop f (S d) r d currXor currExponent
    else fcmp_loop f (S d) r lastDim lastXor lastExponent
  end.
Definition mortonCmpFloat (f : fty) (v1 v2 : list Z) : outcome bool :=
  match combine v1 v2 with
  | [] => UB
  | (x, y) :: r =>
    let! c := xorFloat f x y in
    let '(lastXor, _, lastExponent) := c in
    let! lastDim := fcmp_loop f 1 r 0 lastXor lastExponent in
    let! a := vread v1 lastDim in
    let! b := vread v2 lastDim in
    Ret (fval f a <? fval f b)
  end.

(** mortonDistanceFloat 402-416. *)
Fixpoint fdist_loop (f : fty) (l : list (Z * Z)) (exponentMax : Z) : outcome Z :=
  match l with
  | [] => Ret exponentMax
  | (x, y) :: r =>
    let! c := xorFloat f x y in
    let '(_, _, exponent) := c in
    fdist_loop f r (if exponentMax <? exponent then exponent else exponentMax)
  end.
Definition mortonDistanceFloat (f : fty) (v1 v2 : list Z) : outcome Z := fdist_loop f (combine v1 v2) (- ft_bias f).

(** std::numeric_limits<F>::max() and lowest(). *)
Definition flt_max (f : fty) : Z := match f with F32 => 0x7F7FFFFF | F64 => 0x7FEFFFFFFFFFFFFF end.
Definition flt_lowest (f : fty) : Z := match f with F32 => 0xFF7FFFFF | F64 => 0xFFEFFFFFFFFFFFFF end.

(** 1 << s of two ints. *)
Definition ishl1 (s : Z) : outcome Z := if (s <? 0) || (32 <=? s) then UB else Ret (if s =? 31 then - 2 ^ 31 else 2 ^ s).

(** intervalPow2Float 219-298: level, low, mid, upp.  f2 is assigned twice and f1 never (237-238), so the swap of f1 and f2 at
    242 reads an uninitialised variable.  ROFL_VAR4 only prints. *)
Definition bound (f : fty) (m fe2 : Z) (fs2 : bool) : outcome Z :=
  if negb (m =? 0) then ft_compose f (Z.lxor m (ft_implicit f)) fe2 fs2 else ft_compose f m (- ft_bias f) fs2.
Definition intervalPow2Float (f : fty) (fin1 fin2 : Z) : outcome (Z * Z * Z * Z) :=
  let '(fm1, fe1, fs1) := ft_decompose f fin1 in
  let '(fm2, fe2, fs2) := ft_decompose f fin2 in
  if xorb fs1 fs2 then Ret (ft_emax f + 1, flt_lowest f, 0, flt_max f)
  else if (fe2 <? fe1) || ((fe1 =? fe2) && (fm2 <? fm1)) then UB
  else
    let fm1 := Z.lor fm1 (ft_implicit f) in
    let fm2 := Z.lor fm2 (ft_implicit f) in
    let fe12 := fe2 - fe1 in
    let level := if fe12 <=? ft_mbits f
                 then bit_num (ft_ity f) - it_nlz (ft_ity f) (Z.lxor fm2 (Z.shiftr fm1 fe12))
                 else bit_num (ft_ity f) - it_nlz (ft_ity f) fm2 in
    let! p := ishl1 level in
    if p =? - 2 ^ 31 then UB
    else
      let intervMask := p - 1 in
      let mlow := Z.land fm2 (Z.lnot intervMask) in
      let mupp := Z.lor mlow intervMask in
      let! h := ishl1 (level - 1) in
      let mmid := Z.lor mlow h in
      let! low := bound f mlow fe2 fs2 in
      let! mid := bound f mmid fe2 fs2 in
      let! upp := bound f mupp fe2 fs2 in
      let level := fe2 + level - ft_mbits f in
      if fs2 then Ret (level, upp, mid, low) else Ret (level, low, mid, upp).

(** mortonSplitFloat 418-436. *)
Fixpoint fsplit_loop (f : fty) (l : list (Z * Z)) (dimSplit : nat) (levelSplit : Z) (low mid upp : list Z)
  : outcome (list Z * list Z * list Z) :=
  match l with
  | [] => Ret (low, mid, upp)
  | (x, y) :: r =>
    let! r1 := intervalPow2Float f x y in
    let '(lev, lo, mi, up) := r1 in
    if levelSplit <? lev then
      let! lds := vread low dimSplit in
      fsplit_loop f r (length low) lev (low ++ [lo]) (lset mid dimSplit lds ++ [mi]) (upp ++ [up])
    else fsplit_loop f r dimSplit levelSplit (low ++ [lo]) (mid ++ [lo]) (upp ++ [up])
  end.
Definition mortonSplitFloat (f : fty) (v1 v2 : list Z) : outcome (list Z * list Z * list Z) :=
  match combine v1 v2 with
  | [] => UB
  | (x, y) :: r =>
    let! r1 := intervalPow2Float f x y in
    let '(lev, lo, mi, up) := r1 in
    fsplit_loop f r 0 lev [lo] [mi] [up]
  end.
