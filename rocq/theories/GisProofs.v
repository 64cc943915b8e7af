(** * Proofs about the geographic conversions. *)
From Coq Require Import Reals Lra Lia ZArith Psatz.
From Verif Require Import FunctionsModel FunctionsProofs PiBounds GisModel GisSpec Geometry2Proofs.
Open Scope R_scope.

Lemma meterPerDegLat_range lat : 110560 < meterPerDegLat lat < 111700.
Proof.
  unfold meterPerDegLat. set (r := radians lat).
  pose proof (COS_bound (2 * r)). pose proof (COS_bound (4 * r)). pose proof (COS_bound (6 * r)). lra.
Qed.
Lemma local_round_trip latOrg lonOrg : meterPerDegLat latOrg <> 0 -> meterPerDegLon lonOrg <> 0 ->
  (forall lat lon, let '(x, y) := convertLatLonToLocalXY latOrg lonOrg lat lon in convertLocalXYToLatLon latOrg lonOrg x y = (lat, lon)) /\
  (forall x y, let '(lat, lon) := convertLocalXYToLatLon latOrg lonOrg x y in convertLatLonToLocalXY latOrg lonOrg lat lon = (x, y)).
Proof. intros H1 H2. split; intros; cbn; unfold convertLocalXYToLatLon, convertLatLonToLocalXY; f_equal; field; assumption. Qed.
Lemma cos_odd_90 k : cos ((2 * IZR k + 1) * (PI / 2)) = 0.
Proof. apply cos_eq_0_1. exists k. lra. Qed.
Lemma meterPerDegLon_90 : meterPerDegLon 90 = 0.
Proof.
  unfold meterPerDegLon. replace (radians 90) with (PI / 2) by (unfold radians; field).
  pose proof (cos_odd_90 0) as H0. pose proof (cos_odd_90 1) as H1. pose proof (cos_odd_90 2) as H2.
  replace (cos (PI / 2)) with 0 by (symmetry; apply cos_PI2).
  replace (3 * (PI / 2)) with ((2 * 1 + 1) * (PI / 2)) by ring. rewrite H1.
  replace (5 * (PI / 2)) with ((2 * 2 + 1) * (PI / 2)) by ring. rewrite H2. ring.
Qed.
Lemma meterPerDegLon_0 : meterPerDegLon 0 = 11132070 / 100.
Proof. unfold meterPerDegLon. replace (radians 0) with 0 by (unfold radians; field). rewrite !Rmult_0_r, cos_0. lra. Qed.
Lemma meterPerDegLon_180 : meterPerDegLon 180 = - (11132070 / 100).
Proof.
  unfold meterPerDegLon. replace (radians 180) with PI by (unfold radians; field).
  replace (3 * PI) with (PI + IZR 1 * (2 * PI)) by ring. replace (5 * PI) with (PI + IZR 2 * (2 * PI)) by ring. rewrite !cos_shift, cos_PI. lra.
Qed.
Lemma meterPerDegLon_turns lon k : meterPerDegLon (lon + IZR k * 360) = meterPerDegLon lon.
Proof.
  unfold meterPerDegLon. set (r := radians lon).
  replace (radians (lon + IZR k * 360)) with (r + IZR k * (2 * PI)) by (unfold r, radians; field).
  replace (3 * (r + IZR k * (2 * PI))) with (3 * r + IZR (3 * k) * (2 * PI)) by (rewrite mult_IZR; ring).
  replace (5 * (r + IZR k * (2 * PI))) with (5 * r + IZR (5 * k) * (2 * PI)) by (rewrite mult_IZR; ring).
  rewrite !cos_shift. reflexivity.
Qed.
Lemma shift_turns latOrg lonOrg lat lon k :
  convertLatLonToLocalXY latOrg (lonOrg + IZR k * 360) lat (lon + IZR k * 360) = convertLatLonToLocalXY latOrg lonOrg lat lon.
Proof. unfold convertLatLonToLocalXY. rewrite meterPerDegLon_turns. f_equal. ring. Qed.

Lemma root_pos r : 0 < 1 - ECCENTRICITY_2 * sin r * sin r.
Proof. unfold ECCENTRICITY_2. pose proof (cs1 r). nra. Qed.
Lemma ecef_altitude lat lon alt h : convertLatLonAltToECEF lat lon (alt + h) = add3 (convertLatLonAltToECEF lat lon alt) (scale3 h (up lat lon)).
Proof. unfold convertLatLonAltToECEF, add3, scale3, up, radians. f_equal; [f_equal|]; ring. Qed.
Lemma up_unit lat lon : sqnorm3 (up lat lon) = 1.
Proof.
  unfold up, sqnorm3. set (u := lat / 180 * PI). set (v := lon / 180 * PI). pose proof (cs1 u) as H1. pose proof (cs1 v) as H2.
  replace (cos u * cos v * (cos u * cos v) + cos u * sin v * (cos u * sin v) + sin u * sin u) with
    (cos u * cos u * (cos v * cos v + sin v * sin v) + sin u * sin u) by ring. rewrite H2. lra.
Qed.
Lemma ecef_spin lat lon alt d : convertLatLonAltToECEF lat (lon + d) alt = spin d (convertLatLonAltToECEF lat lon alt).
Proof.
  unfold convertLatLonAltToECEF, spin. replace (radians (lon + d)) with (radians lon + d / 180 * PI) by (unfold radians; field).
  rewrite cos_plus, sin_plus. f_equal. f_equal; ring.
Qed.
Lemma ecef_surface lat lon : Rabs (ellipsoid SEMI_AXIS_A (SEMI_AXIS_A * AXIS_RATIO) (convertLatLonAltToECEF lat lon 0) - 1) < 21 / 1000000000.
Proof.
  unfold convertLatLonAltToECEF, ellipsoid. set (u := radians lat). set (v := radians lon). pose proof (root_pos u) as HR.
  pose proof (cs1 u) as Hu. pose proof (cs1 v) as Hv.
  set (D := 1 - ECCENTRICITY_2 * sin u * sin u) in *. assert (HS : 0 < sqrt D) by (apply sqrt_lt_R0; exact HR).
  assert (HSS : sqrt D * sqrt D = D) by (apply sqrt_sqrt; lra). set (q := sqrt D) in *.
  assert (Ha : SEMI_AXIS_A <> 0) by (unfold SEMI_AXIS_A; lra). assert (Hr : AXIS_RATIO <> 0) by (unfold AXIS_RATIO; lra).
  match goal with |- Rabs (?X - 1) < _ => replace X with ((cos u * cos u * (cos v * cos v + sin v * sin v) + AXIS_RATIO * AXIS_RATIO * (sin u * sin u)) / (q * q)) end.
  2: { field. repeat split; lra. }
  rewrite Hv, HSS, Rmult_1_r. replace (cos u * cos u) with (1 - sin u * sin u) by lra.
  set (s := sin u * sin u) in *. assert (Hs : 0 <= s <= 1) by (split; [apply Rle_0_sqr|pose proof (Rle_0_sqr (cos u)) as Hc; unfold Rsqr in Hc; lra]).
  assert (ED : D = 1 - ECCENTRICITY_2 * s) by (unfold D, s; ring). clearbody D s.
  replace ((1 - s + AXIS_RATIO * AXIS_RATIO * s) / D - 1) with ((ECCENTRICITY_2 - (1 - AXIS_RATIO * AXIS_RATIO)) * s / D) by (rewrite ED; field; rewrite <- ED; lra).
  assert (HD : 993 / 1000 < D) by (rewrite ED; unfold ECCENTRICITY_2; lra).
  apply Rabs_def1; apply (Rmult_lt_reg_r D); try lra; unfold Rdiv; rewrite Rmult_assoc, Rinv_l, Rmult_1_r by lra; unfold ECCENTRICITY_2, AXIS_RATIO; lra.
Qed.
