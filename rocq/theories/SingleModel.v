(** * common/src/functions.cpp: the functions on float.

    Operations on two floats are rounded to single precision (24 digits, smallest exponent -149), operations with a double operand
    to double precision, and a double stored in a float is rounded once more.  Overflow, infinities, NaN and the sign of zero are not
    modelled, as in DoubleModel.v.  The quotient by zero of Coq is 0. *)
From Coq Require Import Reals ZArith.
From Flocq Require Import Core.
From Verif Require Import DoubleModel.
Open Scope R_scope.

Definition single (x : R) : R := round radix2 (FLT_exp (-149) 24) ZnearestE x.

(** fastCosSinf 34-45.  Line 38 calls floor with a float: the call picks the double function of C or the float overload of C++,
    depending on the headers that are visible, so the operations around it are made in double ([wide] is true) or in float. *)
Definition factorf : R := single factor.
Definition fastCosSinf (wide : bool) (x : R) : R * R :=
  let x := single (x * factorf) in
  let n := ffloor (single (x + 1 / 4)) in
  let c := if wide then single (fsub x (fadd (1 / 4) n)) else single (x - single (1 / 4 + n)) in
  let c := single (fmul c (fmul 16 (single (Rabs c - 1 / 2)))) in
  let c := single (fadd c (fmul (fmul (rnd (225 / 1000)) c) (single (Rabs c - 1)))) in
  let s := single (fsub x (ffloor (fadd x (1 / 2)))) in
  let s := single (fmul s (fmul 16 (fsub (1 / 2) (Rabs s)))) in
  let s := single (fadd s (fmul (fmul (rnd (225 / 1000)) s) (single (Rabs s - 1)))) in
  (c, s).

(** fastAtanf 60-69. *)
Definition fastAtanf (x : R) : R :=
  let a1 := single (9998660 / 10000000) in
  let a3 := single (- (3302995 / 10000000)) in
  let a5 := single (1801410 / 10000000) in
  let a7 := single (- (851330 / 10000000)) in
  let a9 := single (208351 / 10000000) in
  let x2 := single (x * x) in
  let x4 := single (x2 * x2) in
  single (x * single (single (a1 + single (x2 * single (a3 + single (a7 * x4)))) + single (x4 * single (a5 + single (a9 * x4))))).

(** fastAtan2f 82-92: M_PI and M_PI_2 are doubles. *)
Definition fastAtan2f (x y : R) : R :=
  let ay := Rabs y in
  let ax := Rabs x in
  let invert := if Rlt_dec ax ay then true else false in
  let z := if invert then single (ax / ay) else single (ay / ax) in
  let th := fastAtanf z in
  let th := if invert then single (fsub M_PI_2 th) else th in
  let th := if Rlt_dec x 0 then single (fsub M_PI th) else th in
  if Rlt_dec y 0 then - Rabs th else Rabs th.
