(** * setPeakWindow(Scalar, ...) in float arithmetic (geometry/src/hough_plane_detector.cpp 192-196, hough_line_detector.cpp 125-128).

    Rounding as in HoughFloatModel.v; ceil of a float is exact whichever overload is called. *)
From Coq Require Import Reals ZArith.
From Verif Require Import Base DoubleModel SingleModel HoughModel.
Open Scope R_scope.

(** One window: (int) ceil(extent / res). *)
Definition windowf (extent res : R) : outcome Z := if Req_EM_T res 0 then UB else cast_int (IZR (ceilR (single (extent / res)))).
(** Plane detector 192-196 and line detector 125-128. *)
Open Scope outcome_scope.
Definition planeWindowsf (tw pw rw tr pr rr : R) : outcome (Z * Z * Z) :=
  let! a := windowf tw tr in let! b := windowf pw pr in let! c := windowf rw rr in Ret (a, b, c).
Definition lineWindowsf (tw rw tr rr : R) : outcome (Z * Z) := let! a := windowf tw tr in let! b := windowf rw rr in Ret (a, b).
