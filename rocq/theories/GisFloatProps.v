(** * The geographic conversions in float arithmetic: the properties.  sin and cos are any library functions that are accurate within 2^-24
    and exact at 0; both readings ([wide]) of their calls with float arguments are covered. *)
From Coq Require Import Reals Lra.
From Verif Require Import PiBounds DoubleModel SingleModel GisModel GisFloatModel GisFloatSpec GisFloatProofs.
Open Scope R_scope.

(** The sine and the cosine themselves are such functions. *)
Example accurate_exact : accurate sin sin /\ accurate cos cos.
Proof. split; split; try reflexivity; intros x; rewrite Rminus_diag_eq by reflexivity; rewrite Rabs_R0; lra. Qed.

(** C191: a position within 100 m of the origin, converted to degrees and back, is recovered up to 10 cm.  It is not. *)
Theorem C191_local_refuted : exists latOrg lonOrg x y, Rabs x <= 100 /\ Rabs y <= 100 /\ forall cosf cosd, accurate cosf cos -> accurate cosd cos ->
  let '(lat, lon) := convertLocalXYToLatLonf cosf cosd latOrg lonOrg x y in 1 / 10 < Rabs (snd (convertLatLonToLocalXYf cosf cosd latOrg lonOrg lat lon) - y).
Proof.
  exists 45, 0, 0, (3 / 16). split; [rewrite Rabs_R0; lra|]. split; [rewrite Rabs_right; lra|]. intros cosf cosd _ Hd. pose proof (lost_step cosf cosd 0 Hd) as H.
  destruct (convertLocalXYToLatLonf cosf cosd 45 0 0 (3 / 16)) as [lat lon]. rewrite H, Rabs_left; lra.
Qed.
Print Assumptions C191_local_refuted.
(** What is missing: the spacing of the floats between 64 and 180 degrees. *)
Theorem C191_local_partial : forall cosf cosd latOrg lonOrg x y, accurate cosf cos -> accurate cosd cos -> Rabs latOrg <= 90 -> Rabs lonOrg <= 180 -> Rabs y <= 110000 ->
  meterPerDegLonf cosf cosd lonOrg <> 0 -> Rabs x <= Rabs (meterPerDegLonf cosf cosd lonOrg) ->
  let '(lat, lon) := convertLocalXYToLatLonf cosf cosd latOrg lonOrg x y in let '(x', y') := convertLatLonToLocalXYf cosf cosd latOrg lonOrg lat lon in
  Rabs (x' - x) <= 13 / 10 /\ Rabs (y' - y) <= 65 / 100.
Proof. exact local_trip. Qed.
Print Assumptions C191_local_partial.

(** C192: degrees to local coordinates and back. *)
Theorem C192_degrees : forall cosf cosd latOrg lonOrg lat lon, accurate cosf cos -> accurate cosd cos -> Rabs latOrg <= 90 -> Rabs lonOrg <= 180 -> Rabs lat <= 90 -> Rabs lon <= 180 ->
  1 <= Rabs (meterPerDegLonf cosf cosd lonOrg) ->
  let '(x, y) := convertLatLonToLocalXYf cosf cosd latOrg lonOrg lat lon in let '(lat', lon') := convertLocalXYToLatLonf cosf cosd latOrg lonOrg x y in
  Rabs (lat' - lat) <= (4 * Rabs (lat - latOrg) + 91) / 2 ^ 24 /\ Rabs (lon' - lon) <= (4 * Rabs (lon - lonOrg) + 181) / 2 ^ 24.
Proof. exact degree_trip. Qed.
Print Assumptions C192_degrees.
(** At longitude 0 the hypotheses on the length of a degree hold for every library. *)
Example C192_zero : forall cosf cosd, accurate cosf cos -> accurate cosd cos -> 1 <= Rabs (meterPerDegLonf cosf cosd 0) /\ meterPerDegLonf cosf cosd 0 <> 0.
Proof.
  intros cosf cosd Hf Hd. pose proof (lon_err cosf cosd 0 Hf Hd ltac:(rewrite Rabs_R0; lra)) as E. unfold DoubleTrig.err, meterPerDegLon, radians in E.
  replace (0 / 180 * PI) with 0 in E by lra. rewrite !Rmult_0_r, cos_0 in E. apply DoubleProofs.abs_le_inv in E. split; [rewrite Rabs_right|]; lra.
Qed.

(** C193: the float lengths of one degree. *)
Theorem C193_metres : forall cosf cosd, accurate cosf cos -> accurate cosd cos ->
  (forall lat, Rabs lat <= 90 -> Rabs (meterPerDegLatf cosd lat - meterPerDegLat lat) <= 1 / 100) /\
  (forall lon, Rabs lon <= 180 -> Rabs (meterPerDegLonf cosf cosd lon - meterPerDegLon lon) <= 4 / 100).
Proof. intros cosf cosd Hf Hd. split; intros a H; [exact (lat_err cosd a Hd H)|exact (lon_err cosf cosd a Hf Hd H)]. Qed.
Print Assumptions C193_metres.

(** C194: the Earth-centred coordinates are those of the formula up to 10 cm.  They are not. *)
Theorem C194_ecef_refuted : exists lat lon alt, forall wide sinf cosf, accurate sinf sin -> accurate cosf cos ->
  let '(x, _, _) := convertLatLonAltToECEF lat lon alt in let '(x', _, _) := convertLatLonAltToECEFf wide sinf cosf lat lon alt in 1 / 10 < x - x'.
Proof.
  exists 0, 0, (3 / 16). intros wide sinf cosf Hs Hc. pose proof (lost_altitude wide sinf cosf Hs Hc) as H.
  destruct (convertLatLonAltToECEF 0 0 (3 / 16)) as [[x y] z]. destruct (convertLatLonAltToECEFf wide sinf cosf 0 0 (3 / 16)) as [[x' y'] z']. lra.
Qed.
Print Assumptions C194_ecef_refuted.
(** C195: they are within 5 m. *)
Theorem C195_ecef : forall wide sinf cosf lat lon alt, accurate sinf sin -> accurate cosf cos -> Rabs lat <= 90 -> Rabs lon <= 180 -> Rabs alt <= 100000 ->
  let '(x, y, z) := convertLatLonAltToECEF lat lon alt in let '(x', y', z') := convertLatLonAltToECEFf wide sinf cosf lat lon alt in
  Rabs (x' - x) <= 5 /\ Rabs (y' - y) <= 5 /\ Rabs (z' - z) <= 5.
Proof. exact ecef_err. Qed.
Print Assumptions C195_ecef.
(** What is missing in C194: the difference between 10 cm and the bound of C195. *)
Theorem C194_ecef_partial : forall wide sinf cosf lat lon alt, accurate sinf sin -> accurate cosf cos -> Rabs lat <= 90 -> Rabs lon <= 180 -> Rabs alt <= 100000 ->
  let '(x, y, z) := convertLatLonAltToECEF lat lon alt in let '(x', y', z') := convertLatLonAltToECEFf wide sinf cosf lat lon alt in
  Rabs (x' - x) <= 5 /\ Rabs (y' - y) <= 5 /\ Rabs (z' - z) <= 5.
Proof. exact ecef_err. Qed.
Print Assumptions C194_ecef_partial.
Example C195_place : Rabs 44.5 <= 90 /\ Rabs (-160) <= 180 /\ Rabs 56 <= 100000.
Proof. repeat split; apply Rabs_le; lra. Qed.

(** C196: convertLatLonToLocalXY on floats is within 6 cm (x) and 3 cm (y) per degree of distance from the origin of its formula. *)
Theorem C196_forward : forall cosf cosd latOrg lonOrg lat lon, accurate cosf cos -> accurate cosd cos -> Rabs latOrg <= 90 -> Rabs lonOrg <= 180 ->
  let '(x, y) := convertLatLonToLocalXY latOrg lonOrg lat lon in let '(x', y') := convertLatLonToLocalXYf cosf cosd latOrg lonOrg lat lon in
  Rabs (x' - x) <= 6 / 100 * Rabs (lon - lonOrg) + / 2 ^ 24 /\ Rabs (y' - y) <= 3 / 100 * Rabs (lat - latOrg) + / 2 ^ 24.
Proof. exact forward_err. Qed.
Print Assumptions C196_forward.
Example C196_place : Rabs 44.8 <= 90 /\ Rabs 10.3 <= 180. Proof. split; apply Rabs_le; lra. Qed.
