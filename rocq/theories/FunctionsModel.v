(** * common/src/functions.cpp: Fourier series, cosine bounds, angles and fast trigonometry.

    double is modelled by the real numbers: rounding, overflow, NaN, infinities and signed zeros are not modelled.
    M_PI is modelled by pi; K_2PI (functions.h 28) by its decimal value.  Vectors have less than 2^31 elements, so the int
    arithmetic on indices does not overflow.  The messages on std::cerr are modelled by a boolean. *)
From Coq Require Import List Reals Bool Arith.
From Verif Require Import Base.
Import ListNotations.
Open Scope R_scope.
Open Scope outcome_scope.

(** floor, fmod of <cmath>. *)
Definition floorR (x : R) : R := IZR (Int_part x).
Definition truncR (x : R) : R := if Rle_dec 0 x then floorR x else - floorR (- x).
Definition fmod (x y : R) : R := x - y * truncR (x / y).

(** std::min, std::max of <algorithm>. *)
Definition minR (a b : R) : R := if Rlt_dec b a then b else a.
Definition maxR (a b : R) : R := if Rlt_dec a b then b else a.

(** atan2 of <cmath>. *)
Definition atan2 (y x : R) : R :=
  if Rlt_dec 0 x then atan (y / x)
  else if Rlt_dec x 0 then (if Rle_dec 0 y then atan (y / x) + PI else atan (y / x) - PI)
  else if Rlt_dec 0 y then PI / 2 else if Rlt_dec y 0 then - (PI / 2) else 0.

(** functions.h 28. *)
Definition K_2PI : R := 628318530718 / 100000000000.

(** normalize360 106-108, normalize180 110-112. *)
Definition normalize360 (angle : R) : R := angle - K_2PI * floorR (angle / K_2PI).
Definition normalize180 (angle : R) : R := angle - PI * floorR (angle / PI).

(** evaluateFourier 114-137: loop 129-135 for [fuel] values of k. *)
Fixpoint fourier_loop (fuel k : nat) (coeffs : list R) (cth2 sth2 cth sth val : R) : outcome R :=
  match fuel with
  | O => Ret val
  | S f =>
    let! a := vread coeffs (2 * k) in
    let! b := vread coeffs (2 * k + 1) in
    fourier_loop f (S k) coeffs cth2 sth2 (cth2 * cth - sth2 * sth) (sth2 * cth + cth2 * sth) (val + (a * cth + b * sth))
  end.
(** n = size / 2 - 1, as an int -1 when size < 2; the boolean tells if line 119 printed. *)
Definition evaluateFourier (coeffs : list R) (theta : R) : outcome (bool * R) :=
  let! v := fourier_loop (length coeffs / 2) 0 coeffs (cos theta) (sin theta) 1 0 0 in
  Ret (negb (Nat.even (length coeffs)), v).

(** findLUCos 348-385: (cmin, cmax). *)
Definition findLUCos (a b : R) : R * R :=
  let '(a, b) := if Rlt_dec b a then (b, a) else (a, b) in
  if Rle_dec (2 * PI) (b - a) then (-1, 1)
  else
    let amod := fmod a (2 * PI) in
    let amod := if Rlt_dec amod 0 then amod + 2 * PI else amod in
    let bmod := fmod b (2 * PI) in
    let bmod := if Rlt_dec bmod 0 then bmod + 2 * PI else bmod in
    if Rlt_dec bmod amod then
      (if Rlt_dec bmod PI then (if Rlt_dec PI amod then minR (cos amod) (cos bmod) else -1) else -1, 1)
    else
      (if Rlt_dec amod PI then (if Rlt_dec PI bmod then -1 else minR (cos amod) (cos bmod)) else minR (cos amod) (cos bmod),
       maxR (cos amod) (cos bmod)).

(** findLUFourier 387-416: loop 404-415. *)
Fixpoint lu_loop (fuel k : nat) (coeffs : list R) (theta0 theta1 fmin fmax : R) : outcome (R * R) :=
  match fuel with
  | O => Ret (fmin, fmax)
  | S f =>
    let! a := vread coeffs (2 * k) in
    let! b := vread coeffs (2 * k + 1) in
    let amplitude := sqrt (a * a + b * b) in
    let phase := atan2 b a in
    let '(smin, smax) := findLUCos (INR (2 * k) * theta0 - phase) (INR (2 * k) * theta1 - phase) in
    lu_loop f (S k) coeffs theta0 theta1 (fmin + amplitude * smin) (fmax + amplitude * smax)
  end.
(** Reading coeffs[0] of an empty vector is undefined; the loop runs for k = 1 .. size/2 - 1. *)
Definition findLUFourier (coeffs : list R) (theta0 theta1 : R) : outcome (R * R) :=
  let '(t0, t1) := if Rlt_dec theta1 theta0 then (theta1, theta0) else (theta0, theta1) in
  let! c0 := vread coeffs 0 in
  lu_loop (length coeffs / 2 - 1) 1 coeffs t0 t1 c0 c0.

(** fastCosSin 47-58. *)
Definition fastCosSin (x : R) : R * R :=
  let x := x * (1 / (2 * PI)) in
  let c := x - (1 / 4 + floorR (x + 1 / 4)) in
  let c := c * (16 * (Rabs c - 1 / 2)) in
  let c := c + 225 / 1000 * c * (Rabs c - 1) in
  let s := x - floorR (x + 1 / 2) in
  let s := s * (16 * (1 / 2 - Rabs s)) in
  let s := s + 225 / 1000 * s * (Rabs s - 1) in
  (c, s).

(** fastAtan 71-80. *)
Definition fastAtan (x : R) : R :=
  let a1 := 9998660 / 10000000 in
  let a3 := - (3302995 / 10000000) in
  let a5 := 1801410 / 10000000 in
  let a7 := - (851330 / 10000000) in
  let a9 := 208351 / 10000000 in
  let x2 := x * x in
  let x4 := x2 * x2 in
  x * (a1 + x2 * (a3 + a7 * x4) + x4 * (a5 + a9 * x4)).

(** fastAtan2 94-104 (arguments x, y in this order); 0/0 is not modelled: the quotient of Coq is 0 there.
    copysign 102: the sign of y, positive for 0. *)
Definition fastAtan2 (x y : R) : R :=
  let ay := Rabs y in
  let ax := Rabs x in
  let invert := if Rlt_dec ax ay then true else false in
  let z := if invert then ax / ay else ay / ax in
  let th := fastAtan z in
  let th := if invert then PI / 2 - th else th in
  let th := if Rlt_dec x 0 then PI - th else th in
  if Rlt_dec y 0 then - Rabs th else Rabs th.
