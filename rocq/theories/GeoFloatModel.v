(** * geometry/src/base_geometry2.cpp in float arithmetic.

    Scalar is float (types.h 39).  Operations on floats are rounded to single precision, no operation is contracted with another;
    overflow, infinities, NaN and the sign of zero are not modelled (see SingleModel.v). *)
From Coq Require Import Reals ZArith Bool.
From Verif Require Import DoubleModel SingleModel Geometry2Model.
Open Scope R_scope.

(** normalizeAngle2Pi 42-44: floor is called with a float; [wide] as in SingleModel.v (the product and the difference are made in double
    and the result is rounded to float). *)
Definition normalizeAngle2Pif (wide : bool) (angle : R) : R :=
  let n := ffloor (single (angle / K_2PIf)) in
  if wide then single (fsub angle (fmul K_2PIf n)) else single (angle - single (K_2PIf * n)).

(** insideAngleInterval 64-66, insideAngleIntervalEq 72-74. *)
Definition insideAngleIntervalf (wide : bool) (angle intervBeg intervEnd : R) : bool :=
  ltb (normalizeAngle2Pif wide (single (angle - intervBeg))) (normalizeAngle2Pif wide (single (intervEnd - intervBeg))).
Definition insideAngleIntervalEqf (wide : bool) (angle intervBeg intervEnd : R) : bool :=
  leb (normalizeAngle2Pif wide (single (angle - intervBeg))) (normalizeAngle2Pif wide (single (intervEnd - intervBeg))).

(** insideAngleInterval 46-62, with vectors. *)
Definition insideConef (x y : R) (pBeg pEnd : vec2) : bool :=
  let scalarE := single (single (- fst pEnd * y) + single (snd pEnd * x)) in
  let scalarB := single (single (fst pBeg * y) - single (snd pBeg * x)) in
  if ltb (single (single (fst pBeg * snd pEnd) - single (fst pEnd * snd pBeg))) 0 then
    let scalarE := - scalarE in let scalarB := - scalarB in
    negb (ltb 0 scalarE && ltb 0 scalarB)
  else ltb 0 scalarE && ltb 0 scalarB.

(** ccw 76-78. *)
Definition ccwf (p1 p2 p3 : vec2) : R :=
  single (single (single (fst p2 - fst p1) * single (snd p3 - snd p1)) - single (single (snd p2 - snd p1) * single (fst p3 - fst p1))).
