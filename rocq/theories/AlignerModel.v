(** * PointCloudPlaneAligner (pcl/include/rofl/pcl/point_cloud_plane_aligner.h).

    float is modelled by the real numbers: rounding, overflow, NaN and infinities are not modelled.  The input cloud is a list
    of points, never a null pointer.  transform (159-161) calls PCL and is not modelled beyond applying the transform. *)
From Coq Require Import List Reals.
Import ListNotations.
Open Scope R_scope.

Notation vec3 := (R * R * R)%type.
Definition X (v : vec3) : R := fst (fst v).
Definition Y (v : vec3) : R := snd (fst v).
Definition Z (v : vec3) : R := snd v.
(** Eigen operations on vectors: dot, cross, +, -, scaling, normalize (a zero vector is left alone). *)
Definition dot (a b : vec3) : R := X a * X b + Y a * Y b + Z a * Z b.
Definition cross (a b : vec3) : vec3 := (Y a * Z b - Z a * Y b, Z a * X b - X a * Z b, X a * Y b - Y a * X b).
Definition add (a b : vec3) : vec3 := (X a + X b, Y a + Y b, Z a + Z b).
Definition sub (a b : vec3) : vec3 := (X a - X b, Y a - Y b, Z a - Z b).
Definition scale (r : R) (a : vec3) : vec3 := (r * X a, r * Y a, r * Z a).
Definition neg (a : vec3) : vec3 := (- X a, - Y a, - Z a).
Definition normalize (a : vec3) : vec3 := if Rlt_dec 0 (dot a a) then scale (/ sqrt (dot a a)) a else a.

(** A 3x3 matrix by its rows; [of_columns] is Rot << ax, ay, az (131); [inverse] is Eigen's inverse of a fixed 3x3 matrix
    (cofactors over determinant). *)
Definition mat3 : Type := vec3 * vec3 * vec3.
Definition of_columns (a b c : vec3) : mat3 := ((X a, X b, X c), (Y a, Y b, Y c), (Z a, Z b, Z c)).
Definition mulv (m : mat3) (v : vec3) : vec3 := let '(r0, r1, r2) := m in (dot r0 v, dot r1 v, dot r2 v).
Definition transpose (m : mat3) : mat3 := let '(r0, r1, r2) := m in of_columns r0 r1 r2.
Definition mulm (m n : mat3) : mat3 :=
  let '(r0, r1, r2) := m in let '(c0, c1, c2) := transpose n in
  ((dot r0 c0, dot r0 c1, dot r0 c2), (dot r1 c0, dot r1 c1, dot r1 c2), (dot r2 c0, dot r2 c1, dot r2 c2)).
Definition det3 (m : mat3) : R := let '(r0, r1, r2) := m in dot r0 (cross r1 r2).
Definition inverse (m : mat3) : mat3 :=
  let '(r0, r1, r2) := m in let k := / det3 m in
  of_columns (scale k (cross r1 r2)) (scale k (cross r2 r0)) (scale k (cross r0 r1)).

(** Transform3 (types.h 84): linear part and translation; Eigen's Identity, pretranslate, prerotate and operator*. *)
Definition transform3 : Type := mat3 * vec3.
Definition identity3 : transform3 := (((1, 0, 0), (0, 1, 0), (0, 0, 1)), (0, 0, 0)).
Definition pretranslate3 (v : vec3) (t : transform3) : transform3 := (fst t, add (snd t) v).
Definition prerotate3 (m : mat3) (t : transform3) : transform3 := (mulm m (fst t), mulv m (snd t)).
Definition apply3 (t : transform3) (p : vec3) : vec3 := add (mulv (fst t) p) (snd t).

(** Plane coefficients: normal and constant.  setPlaneCoeffs 75-81. *)
Definition plane : Type := vec3 * R.
Definition setPlaneCoeffs (coeff : plane) : plane :=
  if Rlt_dec 0 (snd coeff) then coeff else (neg (fst coeff), - snd coeff).

(** cwiseAbs().maxCoeff(&idxMax) 114: the first index with the greatest absolute value. *)
Definition maxCoeff (a : vec3) : nat :=
  let i := if Rlt_dec (Rabs (X a)) (Rabs (Y a)) then 1%nat else 0%nat in
  let m := if Rlt_dec (Rabs (X a)) (Rabs (Y a)) then Rabs (Y a) else Rabs (X a) in
  if Rlt_dec m (Rabs (Z a)) then 2%nat else i.

(** 118-126. *)
Definition chooseX (idxMax : nat) : vec3 := match idxMax with 0%nat => (0, 0, 1) | 1%nat => (0, 0, 1) | _ => (1, 0, 0) end.

(** 139-147: sum of the inliers and their number. *)
Fixpoint inlier_loop (pl : plane) (tol : R) (cloud : list vec3) (center : vec3) (num : nat) : vec3 * nat :=
  match cloud with
  | [] => (center, num)
  | p :: t =>
    let dist := Rabs (X p * X (fst pl) + Y p * Y (fst pl) + Z p * Z (fst pl) + snd pl) in
    if Rlt_dec dist tol then inlier_loop pl tol t (add center p) (S num) else inlier_loop pl tol t center num
  end.

(** compute 104-157 on the stored plane. *)
Definition axes (pl : plane) : vec3 * vec3 * vec3 :=
  let az := normalize (fst pl) in
  let ax := chooseX (maxCoeff az) in
  let ax := normalize (sub ax (scale (dot ax az) az)) in
  (ax, cross az ax, az).
Definition compute (pl : plane) (tol : R) (cloud : list vec3) : transform3 :=
  let '(ax, ay, az) := axes pl in
  let Rot := of_columns ax ay az in
  let '(center, num) := inlier_loop pl tol cloud (0, 0, 0) 0 in
  let center := if Nat.ltb 0 num then scale (/ INR num) (sub center (scale (dot center az) az)) else center in
  prerotate3 (inverse Rot) (pretranslate3 (neg center) identity3).
(** setPlaneCoeffs then compute. *)
Definition align (coeff : plane) (tol : R) (cloud : list vec3) : transform3 := compute (setPlaneCoeffs coeff) tol cloud.
