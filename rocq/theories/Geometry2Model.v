(** * geometry/src/base_geometry2.cpp: plane poses, angle intervals, orientation.

    float (Scalar, geometry/include/rofl/geometry/types.h 39) is modelled by the real numbers: rounding, overflow, NaN,
    infinities and signed zeros are not modelled. *)
From Coq Require Import Reals Bool.
From Verif Require Import FunctionsModel.
Open Scope R_scope.

Definition vec2 : Type := R * R.

(** types.h 43: the float nearest to 6.28318530718. *)
Definition K_2PIf : R := 13176795 / 2097152.

(** Transform2 (types.h 78): Eigen::Transform<Scalar, 2, Affine>, the linear part by rows and the translation. *)
Record transform2 : Type := mkT2 { t00 : R; t01 : R; t10 : R; t11 : R; tx : R; ty : R }.
(** Eigen Transform::Identity, prerotate (multiplies linear part and translation on the left), pretranslate and
    operator* on a vector. *)
Definition identity2 : transform2 := mkT2 1 0 0 1 0 0.
Definition prerotate2 (theta : R) (t : transform2) : transform2 :=
  let c := cos theta in let s := sin theta in
  mkT2 (c * t00 t - s * t10 t) (c * t01 t - s * t11 t) (s * t00 t + c * t10 t) (s * t01 t + c * t11 t)
       (c * tx t - s * ty t) (s * tx t + c * ty t).
Definition pretranslate2 (v : vec2) (t : transform2) : transform2 :=
  mkT2 (t00 t) (t01 t) (t10 t) (t11 t) (tx t + fst v) (ty t + snd v).
Definition apply2 (t : transform2) (p : vec2) : vec2 :=
  (t00 t * fst p + t01 t * snd p + tx t, t10 t * fst p + t11 t * snd p + ty t).

(** poseToIsometry2 26-32. *)
Definition poseToIsometry2 (x y theta : R) : transform2 := pretranslate2 (x, y) (prerotate2 theta identity2).
(** poseToIsometry2 34-36, the pose as a vector. *)
Definition poseToIsometry2v (pose : R * R * R) : transform2 := let '(x, y, theta) := pose in poseToIsometry2 x y theta.

(** normalizeAngle2Pi 42-44. *)
Definition normalizeAngle2Pi (angle : R) : R := angle - K_2PIf * floorR (angle / K_2PIf).

Definition ltb (a b : R) : bool := if Rlt_dec a b then true else false.
Definition leb (a b : R) : bool := if Rle_dec a b then true else false.

(** insideAngleInterval 46-62, with vectors. *)
Definition insideCone (x y : R) (pBeg pEnd : vec2) : bool :=
  let scalarE := - fst pEnd * y + snd pEnd * x in
  let scalarB := fst pBeg * y - snd pBeg * x in
  if ltb (fst pBeg * snd pEnd - fst pEnd * snd pBeg) 0 then
    let scalarE := - scalarE in let scalarB := - scalarB in
    negb (ltb 0 scalarE && ltb 0 scalarB)
  else ltb 0 scalarE && ltb 0 scalarB.

(** insideAngleInterval 64-66 (68-70 with the interval as a pair), insideAngleIntervalEq 72-74. *)
Definition insideAngleInterval (angle intervBeg intervEnd : R) : bool :=
  ltb (normalizeAngle2Pi (angle - intervBeg)) (normalizeAngle2Pi (intervEnd - intervBeg)).
Definition insideAngleIntervalPair (angle : R) (interv : R * R) : bool := insideAngleInterval angle (fst interv) (snd interv).
Definition insideAngleIntervalEq (angle intervBeg intervEnd : R) : bool :=
  leb (normalizeAngle2Pi (angle - intervBeg)) (normalizeAngle2Pi (intervEnd - intervBeg)).

(** ccw 76-78. *)
Definition ccw (p1 p2 p3 : vec2) : R :=
  (fst p2 - fst p1) * (snd p3 - snd p1) - (snd p2 - snd p1) * (fst p3 - fst p1).
