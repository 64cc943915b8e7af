(** * common/src/functions.cpp in double arithmetic.

    Each operation is the exact one followed by rounding to nearest, ties to even, on the doubles (53 digits, smallest
    exponent -1074), as IEEE 754 requires; no operation is contracted with another or kept in a wider register.  Doubles are
    modelled by their real values: overflow, infinities, NaN and the sign of zero are not modelled; no operation below
    overflows for arguments of magnitude up to 2^1000.  A quotient by zero is not modelled: the quotient of Coq is 0 there. *)
From Coq Require Import Reals ZArith.
From Flocq Require Import Core.
Open Scope R_scope.

Definition rnd (x : R) : R := round radix2 (FLT_exp (-1074) 53) ZnearestE x.
Definition fadd (a b : R) : R := rnd (a + b).
Definition fsub (a b : R) : R := rnd (a - b).
Definition fmul (a b : R) : R := rnd (a * b).
Definition fdiv (a b : R) : R := rnd (a / b).
(** floor of a double is exact. *)
Definition ffloor (x : R) : R := IZR (Zfloor x).

(** functions.h 28, and M_PI, M_PI_2 of math.h: decimal literals read by the compiler. *)
Definition K_2PI : R := rnd (628318530718 / 100000000000).
Definition M_PI : R := rnd (314159265358979323846 / 100000000000000000000).
Definition M_PI_2 : R := rnd (157079632679489661923 / 100000000000000000000).

(** normalize360 106-108, normalize180 110-112. *)
Definition normalize360 (angle : R) : R := fsub angle (fmul K_2PI (ffloor (fdiv angle K_2PI))).
Definition normalize180 (angle : R) : R := fsub angle (fmul M_PI (ffloor (fdiv angle M_PI))).

(** fastCosSin 47-58. *)
Definition factor : R := fdiv 1 (fmul 2 M_PI).
Definition fastCosSin (x : R) : R * R :=
  let x := fmul x factor in
  let c := fsub x (fadd (1 / 4) (ffloor (fadd x (1 / 4)))) in
  let c := fmul c (fmul 16 (fsub (Rabs c) (1 / 2))) in
  let c := fadd c (fmul (fmul (rnd (225 / 1000)) c) (fsub (Rabs c) 1)) in
  let s := fsub x (ffloor (fadd x (1 / 2))) in
  let s := fmul s (fmul 16 (fsub (1 / 2) (Rabs s))) in
  let s := fadd s (fmul (fmul (rnd (225 / 1000)) s) (fsub (Rabs s) 1)) in
  (c, s).

(** fastAtan 71-80. *)
Definition fastAtan (x : R) : R :=
  let a1 := rnd (9998660 / 10000000) in
  let a3 := rnd (- (3302995 / 10000000)) in
  let a5 := rnd (1801410 / 10000000) in
  let a7 := rnd (- (851330 / 10000000)) in
  let a9 := rnd (208351 / 10000000) in
  let x2 := fmul x x in
  let x4 := fmul x2 x2 in
  fmul x (fadd (fadd a1 (fmul x2 (fadd a3 (fmul a7 x4)))) (fmul x4 (fadd a5 (fmul a9 x4)))).

(** fastAtan2 94-104. *)
Definition fastAtan2 (x y : R) : R :=
  let ay := Rabs y in
  let ax := Rabs x in
  let invert := if Rlt_dec ax ay then true else false in
  let z := if invert then fdiv ax ay else fdiv ay ax in
  let th := fastAtan z in
  let th := if invert then fsub M_PI_2 th else th in
  let th := if Rlt_dec x 0 then fsub M_PI th else th in
  if Rlt_dec y 0 then - Rabs th else Rabs th.
