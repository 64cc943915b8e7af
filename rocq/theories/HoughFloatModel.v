(** * geometry/src/hough_plane_detector.cpp: directions and bins in float arithmetic.

    Scalar is float (types.h 39); rounding as in SingleModel.v and GisFloatModel.v: overflow, infinities, NaN and the sign of zero are not
    modelled, no operation is contracted with another.  An int is converted to float by rounding.  The loops around these computations
    are those of HoughModel.v. *)
From Coq Require Import Reals ZArith.
From Verif Require Import Base DoubleModel SingleModel GisFloatModel HoughModel.
Open Scope R_scope.

(** init(int, int, int, Scalar), 54-55: the steps of the angles are computed in double; -(rhoNum / 2) is an int. *)
Definition thetaStepf (thetaNum : Z) : R := single (fdiv (fmul (1 / 2) M_PI) (IZR thetaNum)).
Definition phiStepf (phiNum : Z) : R := single (fdiv (fmul 2 M_PI) (IZR phiNum)).
Definition rhoStartf (rhoNum : Z) (rhoRes : R) : R := single (single (IZR (- (rhoNum ÷ 2))) * rhoRes).

(** thetaRes_ * itheta + thetaMin_, 79, and the like, 83. *)
Definition anglef (res : R) (i : Z) (mn : R) : R := single (single (res * single (IZR i)) + mn).

Section Library.
(** sin and cos of a float and the precision of products with their results: as in GisFloatModel.v. *)
Context (wide : bool) (sinf cosf : R -> R).
(** The entry of the table of normals, 80-84. *)
Definition normalf (theta phi : R) : vec3 :=
  let ct := single (cosf theta) in
  let st := single (sinf theta) in
  (single (wmul wide ct (cosf phi)), single (wmul wide ct (sinf phi)), st).
End Library.

(** rho of a point, 213. *)
Definition rhof (n p : vec3) : R :=
  let '(a, b, c) := n in let '(x, y, z) := p in single (single (single (a * x) + single (b * y)) + single (c * z)).
(** Its bin, 215; the range check 216 is that of HoughModel.v. *)
Definition binf (rhoMin rhoRes rho : R) : outcome Z :=
  if Req_EM_T rhoRes 0 then UB else cast_int (single (single (rho - rhoMin) / rhoRes)).
(** The last coefficient of getPlaneParam(const Indices3&), 167. *)
Definition heightf (rhoMin rhoRes : R) (irho : Z) : R := - single (single (rhoRes * single (IZR irho)) + rhoMin).
