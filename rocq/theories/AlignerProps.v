(** * Property theorems for the plane aligner (C62, C107-C110, C165-C167). *)
From Coq Require Import List Reals Lra.
From Verif Require Import AlignerModel AlignerSpec AlignerProofs.
Import ListNotations.
Open Scope R_scope.

(** C62: the height in the new frame is measured along the oriented normal: forwards when the constant is positive. *)
Theorem C62_frame : forall (c : plane) tol cloud, fst c <> (0, 0, 0) ->
  let t := align c tol cloud in
  rigid3 (apply3 t) /\
  (forall p, height (apply3 t p) = ((if Rlt_dec 0 (snd c) then value c p else - value c p) - Rabs (snd c)) / normal_norm c) /\
  (forall p, on_plane c p -> height (apply3 t p) = - (Rabs (snd c) / normal_norm c)).
Proof. exact frame_lemma. Qed.
Print Assumptions C62_frame.
Example C62_case : (0, 3, 4) <> (0, 0, 0) /\ on_plane ((0, 3, 4), -10) (7, 2, 1) /\ normal_norm ((0, 3, 4), -10) = 5.
Proof.
  split; [intros E; injection E; lra|]. split; [unfold on_plane, value; lra|]. unfold normal_norm.
  replace (0 * 0 + 3 * 3 + 4 * 4) with (5 * 5) by ring. apply sqrt_square. lra.
Qed.

(** C107: a plane through the origin keeps the constant 0. *)
Theorem C107_orientation_refuted : exists c : plane, fst c <> (0, 0, 0) /\ ~ 0 < snd (setPlaneCoeffs c).
Proof.
  exists ((0, 0, 1), 0). split; [intros E; injection E; lra|]. unfold setPlaneCoeffs. cbn. destruct (Rlt_dec 0 0); cbn; lra.
Qed.
Print Assumptions C107_orientation_refuted.
Theorem C107_orientation_partial : forall c : plane, 0 <= snd (setPlaneCoeffs c) /\ (snd c <> 0 -> 0 < snd (setPlaneCoeffs c)) /\
  (forall p, on_plane (setPlaneCoeffs c) p <-> on_plane c p).
Proof. intros c. destruct (setPlaneCoeffs_ok c) as (A & B & P & _). auto. Qed.
Print Assumptions C107_orientation_partial.

(** C108: the rotation does not depend on the scale of the coefficients, the translation does. *)
Theorem C108_scale_refuted : exists (c : plane) k tol cloud, 0 < k /\ fst c <> (0, 0, 0) /\ align (times k c) tol cloud <> align c tol cloud.
Proof. exact scaling_matters. Qed.
Print Assumptions C108_scale_refuted.
Theorem C108_scale_partial : forall (c : plane) k tol cloud, 0 < k -> fst (align (times k c) tol cloud) = fst (align c tol cloud).
Proof. intros c k tol cloud. exact (linear_scale k c tol cloud). Qed.
Print Assumptions C108_scale_partial.
Example C108_case : 0 < 2.
Proof. lra. Qed.

(** C109 *)
Theorem C109_center : forall (c : plane) tol cloud, fst c <> (0, 0, 0) ->
  let inliers := filter (near_raw c tol) cloud in
  (inliers <> [] -> let m := apply3 (align c tol cloud) (mean3 inliers) in fst (fst m) = 0 /\ snd (fst m) = 0) /\
  (inliers = [] -> apply3 (align c tol cloud) (0, 0, 0) = (0, 0, 0)).
Proof. exact center_lemma. Qed.
Print Assumptions C109_center.
Example C109_case : filter (near_raw ((0, 0, 1), -2) (1 / 10)) [(1, 1, 2); (1, 1, 3)] = [(1, 1, 2)].
Proof.
  cbn [filter]. unfold near_raw, value. replace (0 * 1 + 0 * 1 + 1 * 2 + -2) with 0 by ring. replace (0 * 1 + 0 * 1 + 1 * 3 + -2) with 1 by ring.
  rewrite Rabs_R0, Rabs_R1. destruct (Rlt_dec 0 (1 / 10)); [|lra]. destruct (Rlt_dec 1 (1 / 10)); [lra|reflexivity].
Qed.

(** C110: the tolerance is compared with the value of the equation, not with the distance, unless the normal is a unit vector. *)
Theorem C110_far_refuted : exists (c : plane) (tol : R) (cloud : list vec3) (p : vec3), fst c <> (0, 0, 0) /\ tol <= distance c p /\
  align c tol (p :: cloud) <> align c tol cloud.
Proof. exact far_matters. Qed.
Print Assumptions C110_far_refuted.
Theorem C110_far_partial : forall (c : plane) (tol : R) (cloud : list vec3) (p : vec3), normal_norm c = 1 -> tol <= distance c p ->
  align c tol (p :: cloud) = align c tol cloud.
Proof. exact far_ignored. Qed.
Print Assumptions C110_far_partial.
Example C110_case : normal_norm ((0, 0, 1), -2) = 1 /\ 1 / 10 <= distance ((0, 0, 1), -2) (1, 1, 3).
Proof.
  assert (N : normal_norm (0, 0, 1, -2) = 1) by (unfold normal_norm; replace (0 * 0 + 0 * 0 + 1 * 1) with 1 by ring; apply sqrt_1).
  split; [exact N|]. unfold distance. rewrite N. unfold value. replace (0 * 1 + 0 * 1 + 1 * 3 + -2) with 1 by ring. rewrite Rabs_R1. lra.
Qed.

(** C165: the origin of the cloud is above the plane, at its distance from the plane. *)
Theorem C165_sensor : forall (c : plane) tol cloud p, fst c <> (0, 0, 0) -> on_plane c p ->
  let t := align c tol cloud in
  height (apply3 t (0, 0, 0)) - height (apply3 t p) = distance c (0, 0, 0) /\ height (apply3 t (0, 0, 0)) = 0.
Proof. exact sensor_side. Qed.
Print Assumptions C165_sensor.
Example C165_case : (0, 3, 4) <> (0, 0, 0) /\ on_plane ((0, 3, 4), -10) (7, 2, 1).
Proof. split; apply C62_case. Qed.

(** C166: only a plane through the origin is moved to height 0. *)
Theorem C166_zero_refuted : exists (c : plane) tol cloud p, fst c <> (0, 0, 0) /\ on_plane c p /\ height (apply3 (align c tol cloud) p) <> 0.
Proof.
  exists ((0, 0, 1), -1), 1, [(0, 0, 1)], (0, 0, 1). assert (N : (0, 0, 1) <> (0, 0, 0)) by (intros E; injection E; lra). split; [exact N|].
  assert (P : on_plane ((0, 0, 1), -1) (0, 0, 1)) by (unfold on_plane, value; lra). split; [exact P|].
  destruct (frame_lemma ((0, 0, 1), -1) 1 [(0, 0, 1)] N) as (_ & _ & H). rewrite (H _ P). unfold normal_norm.
  replace (0 * 0 + 0 * 0 + 1 * 1) with 1 by ring. rewrite sqrt_1. cbn [snd]. rewrite Rabs_left by lra. lra.
Qed.
Print Assumptions C166_zero_refuted.
Theorem C166_zero_partial : forall (c : plane) tol cloud p q, fst c <> (0, 0, 0) -> on_plane c p ->
  (height (apply3 (align c tol cloud) p) = 0 <-> snd c = 0) /\
  (on_plane c q -> height (apply3 (align c tol cloud) p) = height (apply3 (align c tol cloud) q)).
Proof. exact zero_height. Qed.
Print Assumptions C166_zero_partial.

(** C167 *)
Theorem C167_x_axis : forall (c : plane) tol cloud p, fst c <> (0, 0, 0) ->
  let t := align c tol cloud in let '(nx, ny, nz) := fst c in
  let steep := Rabs nx < Rabs nz /\ Rabs ny < Rabs nz in
  exists a h, 0 < a /\ 1 / 2 <= a * a /\
    (steep -> apply3 t (shift p (1, 0, 0)) = shift (apply3 t p) (a, 0, h)) /\
    (~ steep -> apply3 t (shift p (0, 0, 1)) = shift (apply3 t p) (a, 0, h)).
Proof. exact x_axis. Qed.
Print Assumptions C167_x_axis.
Example C167_case : let c := ((1, 2, 2), 5) : plane in fst c <> (0, 0, 0) /\ ~ (Rabs 1 < Rabs 2 /\ Rabs 2 < Rabs 2).
Proof. split; [intros E; injection E; lra|]. lra. Qed.
