(** * Property theorems for the geographic conversions (C60, C102-C106, C163, C164). *)
From Coq Require Import Reals Lra.
From Verif Require Import FunctionsModel PiBounds GisModel GisSpec GisProofs GisArc.
Open Scope R_scope.

(** C60 *)
Theorem C60_round_trip : forall latOrg lonOrg, meterPerDegLat latOrg <> 0 -> meterPerDegLon lonOrg <> 0 ->
  (forall lat lon, let '(x, y) := convertLatLonToLocalXY latOrg lonOrg lat lon in convertLocalXYToLatLon latOrg lonOrg x y = (lat, lon)) /\
  (forall x y, let '(lat, lon) := convertLocalXYToLatLon latOrg lonOrg x y in convertLatLonToLocalXY latOrg lonOrg lat lon = (x, y)).
Proof. exact local_round_trip. Qed.
Print Assumptions C60_round_trip.
Example C60_case : meterPerDegLat 44 <> 0 /\ meterPerDegLon 0 <> 0 /\ convertLatLonToLocalXY 44 0 44 1 = (11132070 / 100, 0).
Proof.
  pose proof (meterPerDegLat_range 44). split; [lra|]. unfold convertLatLonToLocalXY. rewrite meterPerDegLon_0. split; [lra|]. f_equal; lra.
Qed.

(** C102: with the origin at longitude 90 all points of a parallel coincide; the latitude is always recovered. *)
Theorem C102_injective_refuted : exists latOrg lonOrg lat lon lon', lon <> lon' /\
  convertLatLonToLocalXY latOrg lonOrg lat lon = convertLatLonToLocalXY latOrg lonOrg lat lon'.
Proof. exists 44, 90, 44, 90, 91. split; [lra|]. unfold convertLatLonToLocalXY. rewrite meterPerDegLon_90. f_equal; lra. Qed.
Print Assumptions C102_injective_refuted.
Theorem C102_injective_partial : forall latOrg lonOrg lat lon, 110560 < meterPerDegLat latOrg < 111700 /\
  let '(x, y) := convertLatLonToLocalXY latOrg lonOrg lat lon in fst (convertLocalXYToLatLon latOrg lonOrg x y) = lat.
Proof.
  intros. pose proof (meterPerDegLat_range latOrg) as H. split; [exact H|]. cbn. field. lra.
Qed.
Print Assumptions C102_injective_partial.

(** C103 *)
Theorem C103_rotation_refuted : exists latOrg lonOrg lat lon d,
  convertLatLonToLocalXY latOrg (lonOrg + d) lat (lon + d) <> convertLatLonToLocalXY latOrg lonOrg lat lon.
Proof.
  exists 44, 0, 44, 1, 90. unfold convertLatLonToLocalXY. rewrite Rplus_0_l, meterPerDegLon_90, meterPerDegLon_0. intros E. injection E. lra.
Qed.
Print Assumptions C103_rotation_refuted.
Theorem C103_rotation_partial : forall latOrg lonOrg lat lon k,
  convertLatLonToLocalXY latOrg (lonOrg + IZR k * 360) lat (lon + IZR k * 360) = convertLatLonToLocalXY latOrg lonOrg lat lon.
Proof. exact shift_turns. Qed.
Print Assumptions C103_rotation_partial.

(** C104: at longitude 180 the x axis points west; the y axis always points north. *)
Theorem C104_axes_refuted : exists latOrg lonOrg lat lon lon', lon < lon' /\
  fst (convertLatLonToLocalXY latOrg lonOrg lat lon') < fst (convertLatLonToLocalXY latOrg lonOrg lat lon).
Proof. exists 44, 180, 44, 180, 181. split; [lra|]. cbn. rewrite meterPerDegLon_180. lra. Qed.
Print Assumptions C104_axes_refuted.
Theorem C104_axes_partial : forall latOrg lonOrg lat lat' lon lon', lat < lat' ->
  snd (convertLatLonToLocalXY latOrg lonOrg lat lon) < snd (convertLatLonToLocalXY latOrg lonOrg lat' lon') /\
  convertLatLonToLocalXY latOrg lonOrg latOrg lonOrg = (0, 0).
Proof.
  intros. pose proof (meterPerDegLat_range latOrg) as [H1 _]. split; [cbn; apply Rmult_lt_compat_r; lra|]. unfold convertLatLonToLocalXY. f_equal; ring.
Qed.
Print Assumptions C104_axes_partial.
Example C104_case : 44 < 45.
Proof. lra. Qed.

(** C105 *)
Theorem C105_ecef : forall lat lon,
  Rabs (ellipsoid SEMI_AXIS_A (SEMI_AXIS_A * AXIS_RATIO) (convertLatLonAltToECEF lat lon 0) - 1) < 21 / 1000000000 /\
  (forall alt h, convertLatLonAltToECEF lat lon (alt + h) = add3 (convertLatLonAltToECEF lat lon alt) (scale3 h (up lat lon))) /\
  sqnorm3 (up lat lon) = 1 /\
  (forall alt d, convertLatLonAltToECEF lat (lon + d) alt = spin d (convertLatLonAltToECEF lat lon alt)).
Proof.
  intros lat lon. split; [apply ecef_surface|]. split; [intros; apply ecef_altitude|]. split; [apply up_unit|intros; apply ecef_spin].
Qed.
Print Assumptions C105_ecef.
Example C105_case : convertLatLonAltToECEF 0 0 5 = (6378142, 0, 0).
Proof.
  unfold convertLatLonAltToECEF. replace (radians 0) with 0 by (unfold radians; field). rewrite sin_0, cos_0, !Rmult_0_r, Rminus_0_r, sqrt_1.
  unfold SEMI_AXIS_A. f_equal; f_equal; lra.
Qed.

(** C106: the constant is the second eccentricity. *)
Theorem C106_constants_refuted : exists e e2, e = ECCENTRICITY /\ e2 = ECCENTRICITY_2 /\ 1 / 100000 < Rabs (e * e - e2).
Proof.
  exists ECCENTRICITY, ECCENTRICITY_2. split; [reflexivity|]. split; [reflexivity|]. unfold ECCENTRICITY, ECCENTRICITY_2. rewrite Rabs_right; lra.
Qed.
Print Assumptions C106_constants_refuted.
Theorem C106_constants_partial :
  Rabs (ECCENTRICITY_2 - (1 - AXIS_RATIO * AXIS_RATIO)) < 3 / 100000000 /\
  Rabs (SEMI_AXIS_B / SEMI_AXIS_A - AXIS_RATIO) < 1 / 10000000 /\
  Rabs (ECCENTRICITY * ECCENTRICITY - ECCENTRICITY_2 / (1 - ECCENTRICITY_2)) < 1 / 100000000.
Proof. unfold ECCENTRICITY, ECCENTRICITY_2, AXIS_RATIO, SEMI_AXIS_A, SEMI_AXIS_B. repeat split; apply Rabs_def1; lra. Qed.
Print Assumptions C106_constants_partial.

(** C163: the lengths of one degree of the meridian and of the parallel of WGS84; the second function takes a latitude. *)
Theorem C163_degrees :
  (forall lat lon v, is_speed (fun t => wgs84 t lon) lat v -> Rabs (meterPerDegLat lat - v) < 8) /\
  (forall lat lon v, -90 <= lat <= 90 -> is_speed (fun t => wgs84 lat t) lon v -> Rabs (meterPerDegLon lat - v) < 4) /\
  (forall lat lon, (exists v, is_speed (fun t => wgs84 t lon) lat v) /\ exists v, is_speed (fun t => wgs84 lat t) lon v).
Proof.
  split; [|split].
  - intros lat lon v H. rewrite (is_speed_unique _ _ _ _ H (meridian_speed lat lon)). apply meridian_error.
  - intros lat lon v L H. rewrite (is_speed_unique _ _ _ _ H (parallel_speed lat lon)). apply parallel_error, L.
  - intros lat lon. split; eexists; [apply meridian_speed|apply parallel_speed].
Qed.
Print Assumptions C163_degrees.
Example C163_case : is_speed (fun t => wgs84 0 t) 0 (PI / 180 * wgs84_a) /\ 1113194 / 10 < PI / 180 * wgs84_a < 1113195 / 10.
Proof.
  replace (PI / 180 * wgs84_a) with (parallel 0); [split; [apply parallel_speed|]|].
  - rewrite parallel_0. unfold wgs84_a. pose proof PI_bounds. lra.
  - apply parallel_0.
Qed.

(** C164: at 60 degrees of latitude a degree east is reported as twice its length, since the longitude of the origin is used. *)
Theorem C164_metres_refuted : exists latOrg lonOrg d v, -90 <= latOrg <= 90 /\ is_speed (fun t => wgs84 latOrg t) lonOrg v /\
  d = 1 /\ d * v + 50000 < fst (convertLatLonToLocalXY latOrg lonOrg latOrg (lonOrg + d)).
Proof.
  exists 60, 0, 1, (parallel 60). split; [lra|]. split; [apply parallel_speed|]. split; [reflexivity|]. cbn [fst convertLatLonToLocalXY].
  rewrite meterPerDegLon_0. pose proof parallel_60. lra.
Qed.
Print Assumptions C164_metres_refuted.
Theorem C164_metres_partial : forall latOrg lonOrg d v,
  (is_speed (fun t => wgs84 t lonOrg) latOrg v -> Rabs (snd (convertLatLonToLocalXY latOrg lonOrg (latOrg + d) lonOrg) - d * v) <= 8 * Rabs d) /\
  (lonOrg = latOrg -> -90 <= latOrg <= 90 -> is_speed (fun t => wgs84 latOrg t) lonOrg v ->
    Rabs (fst (convertLatLonToLocalXY latOrg lonOrg latOrg (lonOrg + d)) - d * v) <= 4 * Rabs d).
Proof.
  intros latOrg lonOrg d v. cbn [fst snd convertLatLonToLocalXY]. destruct C163_degrees as (A & B & _). split.
  - intros H. apply A in H. replace ((latOrg + d - latOrg) * meterPerDegLat latOrg - d * v) with (d * (meterPerDegLat latOrg - v)) by ring.
    rewrite Rabs_mult, Rmult_comm. apply Rmult_le_compat_r; [apply Rabs_pos|lra].
  - intros -> L H. apply (B _ _ _ L) in H. replace ((latOrg + d - latOrg) * meterPerDegLon latOrg - d * v) with (d * (meterPerDegLon latOrg - v)) by ring.
    rewrite Rabs_mult, Rmult_comm. apply Rmult_le_compat_r; [apply Rabs_pos|lra].
Qed.
Print Assumptions C164_metres_partial.
