(** * Proofs about the geographic conversions in float arithmetic. *)
From Coq Require Import Reals ZArith Bool Lra Lia Psatz.
From Flocq Require Import Core.
From Verif Require Import PiBounds DoubleModel DoubleSpec DoubleProofs DoubleTrig SingleModel SingleProofs GeoFloatProofs GisModel GisFloatModel GisFloatSpec.
Open Scope R_scope.

Lemma err_weaken e e' a v : err e a v -> e <= e' -> err e' a v. Proof. unfold err. lra. Qed.
Lemma radians_err b deg : 0 <= b <= 1 -> Rabs deg <= 180 * b -> err (3.15 * V * b + V / 1000) (radiansf deg) (radians deg) /\ Rabs (radians deg) <= 3.1416 * b.
Proof.
  intros Hb HD. pose proof PI_digits as HP. destruct M_PI_near as [MP _]. apply abs_le_inv in HD. assert (Q : - b <= deg / 180 <= b) by lra.
  assert (BD : Rabs (deg / 180 * PI) <= 3.1416 * b) by (apply Rabs_le; nra). split; [|exact BD]. unfold radiansf, radians.
  assert (E1 : err (U * b + U * U) (fdiv deg 180) (deg / 180)) by (apply (err_const _ b); [apply Rabs_le; lra|lra]).
  assert (E2 : err (2 * U) M_PI PI) by (unfold err; lra).
  assert (E3 : err (9 * U * b + 9 * U * U) (fmul (fdiv deg 180) M_PI) (deg / 180 * PI)).
  { apply (err_mul _ _ _ _ _ _ b 3.1416 _ E1 E2); [apply Rabs_le; lra|apply Rabs_le; lra|]. assert (0 <= U * b) by (pose proof U_pos; nra). assert (U * (U * b) <= U * b / 1000) by numv. numv. }
  apply (serr_rnd _ _ _ _ _ E3 BD). assert (0 <= V * b) by (pose proof V_pos; nra). numv.
Qed.
Lemma half_turn deg : Rabs deg <= 90 -> err (1.6 * V) (radiansf deg) (radians deg) /\ Rabs (radians deg) <= 1.6.
Proof. intros H. destruct (radians_err (/ 2) deg) as [E B]; [lra|lra|]. split; [apply (err_weaken _ _ _ _ E)|]; pose proof V_pos; lra. Qed.
Lemma full_turn deg : Rabs deg <= 180 -> err (3.2 * V) (radiansf deg) (radians deg) /\ Rabs (radians deg) <= 3.2.
Proof. intros H. destruct (radians_err 1 deg) as [E B]; [lra|lra|]. split; [apply (err_weaken _ _ _ _ E)|]; pose proof V_pos; lra. Qed.
Lemma sin_lip' x y : Rabs (sin x - sin y) <= Rabs (x - y).
Proof. pose proof (cos_lip (PI / 2 - x) (PI / 2 - y)) as H. rewrite !cos_shift in H. replace (PI / 2 - x - (PI / 2 - y)) with (- (x - y)) in H by ring. now rewrite Rabs_Ropp in H. Qed.
Lemma lib_err f g e a v : accurate f g -> (forall x y, Rabs (g x - g y) <= Rabs (x - y)) -> err e a v -> err (V + e) (f a) (g v).
Proof.
  intros [H _] L E. unfold err in *. specialize (H a). replace (/ 2 ^ 24) with V in H by (unfold V; lra). specialize (L a v). replace (f a - g v) with ((f a - g a) + (g a - g v)) by ring. eapply Rle_trans; [apply Rabs_triang|]. lra.
Qed.
Lemma cos_bound x : Rabs (cos x) <= 1. Proof. apply Rabs_le, COS_bound. Qed.
Lemma sin_bound x : Rabs (sin x) <= 1. Proof. apply Rabs_le, SIN_bound. Qed.

(** ** Metres per degree *)
Lemma term cosd k w e lit cst a v : accurate cosd cos -> Rabs v <= w -> 0 <= w <= 3.2 -> 1 <= k <= 6 -> err (w * V) a v -> 0 <= cst <= 120000 -> lit = rnd cst -> cst * ((k * w + 1.01) * V) + V / 1000 <= e ->
  err e (fmul lit (cosd (fmul k a))) (cst * cos (k * v)).
Proof.
  intros Hc HV Hw Hk HE Hcst -> He. pose proof V_pos as V0. pose proof U_pos as U0.
  assert (KV : Rabs (k * v) <= 6 * w) by (rewrite Rabs_mult, (Rabs_right k) by lra; pose proof (Rabs_pos v); nra).
  assert (E1 : err (k * w * V + 40 * U) (fmul k a) (k * v)).
  { apply (err_rnd (k * w * V) _ _ (6 * w)); [|exact KV|]. 
    - unfold err in *. replace (k * a - k * v) with (k * (a - v)) by ring. rewrite Rabs_mult, (Rabs_right k) by lra. pose proof (Rmult_le_compat_l k _ _ ltac:(lra) HE). lra.
    - assert (k * w <= 19.2) by nra. assert (k * w * V <= 19.2 * V) by (apply Rmult_le_compat_r; lra). set (z := k * w * V) in *. clearbody z. revert H0. numv. }
  pose proof (lib_err cosd cos _ _ _ Hc cos_lip E1) as E2. assert (KW : 0 <= k * w <= 19.2) by nra. set (kw := k * w) in *. clearbody kw.
  assert (E3 : err (U * 120000 + U * U) (rnd cst) cst) by (apply (err_const _ 120000); [apply Rabs_le; lra|lra]).
  apply (err_mul _ _ _ _ _ _ cst 1 _ E3 E2); [apply Rabs_le; lra|apply cos_bound|].
  assert (P0 : 0 <= cst * kw) by nra. assert (P1 : cst * kw <= 120000 * 19.2) by nra. revert He. unfold U, V. intros He. lra.
Qed.
Lemma lat_err cosd lat : accurate cosd cos -> Rabs lat <= 90 -> err (1 / 100) (meterPerDegLatf cosd lat) (meterPerDegLat lat).
Proof.
  intros Hc HL. destruct (half_turn lat HL) as [E B]. unfold meterPerDegLatf, meterPerDegLat. set (a := radiansf lat) in *. set (v := radians lat) in *.
  pose proof (term cosd 2 1.6 (2400 * V) _ (56605 / 100) a v Hc B ltac:(lra) ltac:(lra) E ltac:(lra) eq_refl ltac:(numv)) as T2.
  pose proof (term cosd 4 1.6 (10 * V) _ (120 / 100) a v Hc B ltac:(lra) ltac:(lra) E ltac:(lra) eq_refl ltac:(numv)) as T4.
  pose proof (term cosd 6 1.6 (V) _ (2 / 1000) a v Hc B ltac:(lra) ltac:(lra) E ltac:(lra) eq_refl ltac:(numv)) as T6.
  assert (C : err (U * 112000 + U * U) (rnd (11113209 / 100)) (11113209 / 100)) by (apply (err_const _ 112000); [apply Rabs_le; lra|lra]).
  pose proof (COS_bound (2 * v)). pose proof (COS_bound (4 * v)). pose proof (COS_bound (6 * v)).
  assert (S1 : err (2401 * V) (fsub (rnd (11113209 / 100)) (fmul (rnd (56605 / 100)) (cosd (fmul 2 a)))) (11113209 / 100 - 56605 / 100 * cos (2 * v))) by (apply (err_sub _ _ _ _ _ _ 120000 _ C T2); [apply Rabs_le; lra|numv]).
  eassert (S2 : err (2412 * V) _ _) by (apply (err_add _ _ _ _ _ _ 120000 _ S1 T4); [apply Rabs_le; lra|numv]).
  eassert (S3 : err (2414 * V) _ _) by (apply (err_sub _ _ _ _ _ _ 120000 _ S2 T6); [apply Rabs_le; lra|numv]).
  apply (serr_rnd _ _ _ 120000 _ S3); [apply Rabs_le; lra|numv].
Qed.
Lemma lon_err cosf cosd lon : accurate cosf cos -> accurate cosd cos -> Rabs lon <= 180 -> err (4 / 100) (meterPerDegLonf cosf cosd lon) (meterPerDegLon lon).
Proof.
  intros Hf Hc HL. destruct (full_turn lon HL) as [E B]. unfold meterPerDegLonf, meterPerDegLon. set (a := radiansf lon) in *. set (v := radians lon) in *.
  pose proof (lib_err cosf cos _ _ _ Hf cos_lip E) as E1.
  assert (C : err (U * 112000 + U * U) (rnd (11141513 / 100)) (11141513 / 100)) by (apply (err_const _ 112000); [apply Rabs_le; lra|lra]).
  assert (T1 : err (471000 * V) (fmul (rnd (11141513 / 100)) (cosf a)) (11141513 / 100 * cos v)) by (apply (err_mul _ _ _ _ _ _ 112000 1 _ C E1); [apply Rabs_le; lra|apply cos_bound|numv]).
  pose proof (term cosd 3 3.2 (1010 * V) _ (9455 / 100) a v Hc B ltac:(lra) ltac:(lra) E ltac:(lra) eq_refl ltac:(numv)) as T3.
  pose proof (term cosd 5 3.2 (3 * V) _ (12 / 100) a v Hc B ltac:(lra) ltac:(lra) E ltac:(lra) eq_refl ltac:(numv)) as T5.
  pose proof (COS_bound v). pose proof (COS_bound (3 * v)). pose proof (COS_bound (5 * v)).
  eassert (S2 : err (472100 * V) _ _) by (apply (err_sub _ _ _ _ _ _ 120000 _ T1 T3); [apply Rabs_le; lra|numv]).
  eassert (S3 : err (472200 * V) _ _) by (apply (err_add _ _ _ _ _ _ 120000 _ S2 T5); [apply Rabs_le; lra|numv]).
  apply (serr_rnd _ _ _ 120000 _ S3); [apply Rabs_le; lra|numv].
Qed.
Lemma lat_range cosd lat : accurate cosd cos -> Rabs lat <= 90 -> 110000 <= meterPerDegLatf cosd lat <= 111800.
Proof.
  intros Hc HL. pose proof (lat_err cosd lat Hc HL) as E. unfold err, meterPerDegLat in E. apply abs_le_inv in E. revert E. set (v := radians lat).
  pose proof (COS_bound (2 * v)). pose proof (COS_bound (4 * v)). pose proof (COS_bound (6 * v)). lra.
Qed.
Lemma lon_range cosf cosd lon : accurate cosf cos -> accurate cosd cos -> Rabs lon <= 180 -> Rabs (meterPerDegLonf cosf cosd lon) <= 111800.
Proof.
  intros Hf Hc HL. pose proof (lon_err cosf cosd lon Hf Hc HL) as E. unfold err, meterPerDegLon in E. apply abs_le_inv in E. revert E. set (v := radians lon).
  pose proof (COS_bound v). pose proof (COS_bound (3 * v)). pose proof (COS_bound (5 * v)). intros. apply Rabs_le. lra.
Qed.

(** ** Local coordinates *)
Lemma err_trans e e' a b c : err e a b -> err e' b c -> err (e + e') a c.
Proof. unfold err. intros H1 H2. replace (a - c) with ((a - b) + (b - c)) by ring. eapply Rle_trans; [apply Rabs_triang|]. lra. Qed.
Lemma single_rel W x : Rabs x <= W -> err (V * W + V * V) (single x) x.
Proof. intros H. pose proof (single_err x). pose proof V_pos. assert (V * Rabs x <= V * W) by (apply Rmult_le_compat_l; lra). unfold err. lra. Qed.
Lemma err_bound e W a v : err e a v -> Rabs v <= W -> Rabs a <= W + e.
Proof. unfold err. intros H1 H2. replace a with ((a - v) + v) by ring. eapply Rle_trans; [apply Rabs_triang|]. lra. Qed.
Lemma err_shift e a v o : err e a v -> err e (a + o) (v + o) /\ err e (a - o) (v - o).
Proof. unfold err. intros H. replace (a + o - (v + o)) with (a - v) by ring. replace (a - o - (v - o)) with (a - v) by ring. auto. Qed.
Lemma there_and_back K m o x : 1 <= K <= 200 -> m <> 0 -> Rabs m <= 112000 -> Rabs o <= K -> Rabs x <= Rabs m ->
  err (V * (K + 5) * Rabs m + V / 1000) (single (single (single (single (x / m) + o) - o) * m)) x.
Proof.
  intros HK Hm HM HO HX. pose proof V_pos as V0. pose proof (Rabs_pos_lt m Hm) as M0. set (q := x / m). assert (Eq : q * m = x) by (unfold q; field; exact Hm).
  assert (Q : Rabs q <= 1). { unfold q, Rdiv. rewrite Rabs_mult, Rabs_inv. apply (Rmult_le_reg_r (Rabs m)); [exact M0|]. rewrite Rmult_assoc, Rinv_l by lra. lra. }
  pose proof (single_rel 1 q Q) as E1. set (q1 := single q) in *. destruct (err_shift _ _ _ o E1) as [E2 _].
  assert (S : Rabs (q1 + o) <= K + 1.001). { pose proof (err_bound _ _ _ _ E1 Q) as B. eapply Rle_trans; [apply Rabs_triang|]. assert (V * V <= V) by nra. assert (V * 1 <= / 10000) by numv. lra. }
  pose proof (single_rel _ _ S) as E3. pose proof (err_trans _ _ _ _ _ E3 E2) as E4. set (p := single (q1 + o)) in *. destruct (err_shift _ _ _ o E4) as [_ E5]. replace (q + o - o) with q in E5 by ring.
  assert (E5' : err (V * (K + 2.01)) (p - o) q) by (apply (err_weaken _ _ _ _ E5); assert (V * V <= V / 1000) by numv; lra).
  assert (D : Rabs (p - o) <= 1.01). { pose proof (err_bound _ _ _ _ E5' Q). assert (V * (K + 2.01) <= 1 / 100) by numv. lra. }
  pose proof (err_trans _ _ _ _ _ (single_rel _ _ D) E5') as E6. set (d := single (p - o)) in *.
  assert (E7 : err (V * (K + 3.03) * Rabs m) (d * m) x).
  { rewrite <- Eq. unfold err in *. replace (d * m - q * m) with ((d - q) * m) by ring. rewrite Rabs_mult. apply Rmult_le_compat_r; [lra|]. assert (V * V <= V / 1000) by numv. lra. }
  assert (B : Rabs (d * m) <= 1.5 * Rabs m). { pose proof (err_bound _ _ _ _ E7 HX). assert (V * (K + 3.03) <= 1 / 2) by numv. assert (V * (K + 3.03) * Rabs m <= 1 / 2 * Rabs m) by (apply Rmult_le_compat_r; lra). lra. }
  apply (err_weaken _ _ _ _ (err_trans _ _ _ _ _ (single_rel _ _ B) E7)). assert (V * V <= V / 1000) by numv. assert (0 <= V * Rabs m) by nra. nra.
Qed.
Lemma back_and_there K m o p : 1 <= K <= 200 -> 1 <= Rabs m -> Rabs m <= 112000 -> Rabs o <= K -> Rabs p <= K ->
  err (V * (4 * Rabs (p - o) + K + 1)) (single (single (single (single (p - o) * m) / m) + o)) p.
Proof.
  intros HK Hm HM HO HP. pose proof V_pos as V0. assert (M0 : m <> 0) by (intros ->; rewrite Rabs_R0 in Hm; lra). set (D := Rabs (p - o)). assert (D0 : 0 <= D) by apply Rabs_pos.
  assert (VV : 0 <= V * V <= V / 1000000) by numv. assert (VD : 0 <= V * D) by nra. assert (VVD : 0 <= V * (V * D) <= V * D / 1000000) by nra.
  assert (DK : D <= 2 * K). { unfold D. apply abs_le_inv in HO, HP. apply Rabs_le. lra. }
  assert (E1 : err (V * D + V * V) (single (p - o)) (p - o)) by (apply single_rel; unfold D; lra). set (d := single (p - o)) in *. clearbody d.
  assert (BD : Rabs d <= D + (V * D + V * V)) by (apply (err_bound _ _ _ _ E1); unfold D; lra).
  assert (E2 : err (V * (Rabs d * Rabs m) + V * V) (single (d * m)) (d * m)) by (apply single_rel; rewrite Rabs_mult; lra). set (x := single (d * m)) in *. clearbody x.
  assert (E3 : err (V * Rabs d + V * V) (x / m) d).
  { unfold err in *. replace (x / m - d) with ((x - d * m) * / m) by (field; exact M0). rewrite Rabs_mult, Rabs_inv. apply (Rmult_le_reg_r (Rabs m)); [lra|]. rewrite Rmult_assoc, Rinv_l by lra. nra. }
  assert (T1 : V * Rabs d <= V * (D + (V * D + V * V))) by (apply Rmult_le_compat_l; lra). assert (VVV : 0 <= V * (V * V) <= V * V) by nra. assert (VVVD : 0 <= V * (V * (V * D)) <= V * (V * D)) by nra. assert (VVVV : 0 <= V * (V * (V * V)) <= V * V) by nra.
  assert (E4 : err (2.01 * (V * D) + 4 * (V * V)) (x / m) (p - o)) by (apply (err_weaken _ _ _ _ (err_trans _ _ _ _ _ E3 E1)); lra).
  set (q := x / m) in *. clearbody q. assert (BQ : Rabs q <= D + (2.01 * (V * D) + 4 * (V * V))) by (apply (err_bound _ _ _ _ E4); unfold D; lra).
  pose proof (err_trans _ _ _ _ _ (single_rel _ _ BQ) E4) as E5. set (q1 := single q) in *. clearbody q1.
  assert (E5' : err (3.1 * (V * D) + 10 * (V * V)) q1 (p - o)) by (apply (err_weaken _ _ _ _ E5); lra).
  destruct (err_shift _ _ _ o E5') as [E6 _]. replace (p - o + o) with p in E6 by ring. pose proof (err_bound _ _ _ _ E6 HP) as B.
  apply (err_weaken _ _ _ _ (err_trans _ _ _ _ _ (single_rel _ _ B) E6)). lra.
Qed.
Lemma local_trip cosf cosd latOrg lonOrg x y : accurate cosf cos -> accurate cosd cos -> Rabs latOrg <= 90 -> Rabs lonOrg <= 180 -> Rabs y <= 110000 ->
  meterPerDegLonf cosf cosd lonOrg <> 0 -> Rabs x <= Rabs (meterPerDegLonf cosf cosd lonOrg) ->
  let '(lat, lon) := convertLocalXYToLatLonf cosf cosd latOrg lonOrg x y in let '(x', y') := convertLatLonToLocalXYf cosf cosd latOrg lonOrg lat lon in
  Rabs (x' - x) <= 13 / 10 /\ Rabs (y' - y) <= 65 / 100.
Proof.
  intros Hf Hd HA HO HY M0 HX. pose proof (lat_range cosd latOrg Hd HA) as RA. pose proof (lon_range cosf cosd lonOrg Hf Hd HO) as RO. unfold convertLocalXYToLatLonf, convertLatLonToLocalXYf.
  set (m := meterPerDegLonf cosf cosd lonOrg) in *. set (n := meterPerDegLatf cosd latOrg) in *. assert (RN : Rabs n = n) by (apply Rabs_right; lra). split.
  - pose proof (there_and_back 180 m lonOrg x ltac:(lra) M0 ltac:(lra) HO HX) as E. unfold err in E. eapply Rle_trans; [exact E|]. numv.
  - pose proof (there_and_back 90 n latOrg y ltac:(lra) ltac:(lra) ltac:(lra) HA ltac:(lra)) as E. unfold err in E. eapply Rle_trans; [exact E|]. rewrite RN. numv.
Qed.
Lemma degree_trip cosf cosd latOrg lonOrg lat lon : accurate cosf cos -> accurate cosd cos -> Rabs latOrg <= 90 -> Rabs lonOrg <= 180 -> Rabs lat <= 90 -> Rabs lon <= 180 ->
  1 <= Rabs (meterPerDegLonf cosf cosd lonOrg) ->
  let '(x, y) := convertLatLonToLocalXYf cosf cosd latOrg lonOrg lat lon in let '(lat', lon') := convertLocalXYToLatLonf cosf cosd latOrg lonOrg x y in
  Rabs (lat' - lat) <= (4 * Rabs (lat - latOrg) + 91) / 2 ^ 24 /\ Rabs (lon' - lon) <= (4 * Rabs (lon - lonOrg) + 181) / 2 ^ 24.
Proof.
  intros Hf Hd HA HO HY HX M1. pose proof (lat_range cosd latOrg Hd HA) as RA. pose proof (lon_range cosf cosd lonOrg Hf Hd HO) as RO. unfold convertLocalXYToLatLonf, convertLatLonToLocalXYf.
  set (m := meterPerDegLonf cosf cosd lonOrg) in *. set (n := meterPerDegLatf cosd latOrg) in *. assert (RN : Rabs n = n) by (apply Rabs_right; lra). split.
  - pose proof (back_and_there 90 n latOrg lat ltac:(lra) ltac:(lra) ltac:(lra) HA HY) as E. unfold err in E. eapply Rle_trans; [exact E|]. numv.
  - pose proof (back_and_there 180 m lonOrg lon ltac:(lra) M1 ltac:(lra) HO HX) as E. unfold err in E. eapply Rle_trans; [exact E|]. numv.
Qed.
(** Three sixteenths of a metre north of the latitude 45 are lost. *)
Lemma lost_step cosf cosd lonOrg : accurate cosd cos -> let '(lat, lon) := convertLocalXYToLatLonf cosf cosd 45 lonOrg 0 (3 / 16) in snd (convertLatLonToLocalXYf cosf cosd 45 lonOrg lat lon) = 0.
Proof.
  intros Hd. assert (A : Rabs 45 <= 90) by (rewrite Rabs_right; lra). pose proof (lat_range cosd 45 Hd A) as RA. unfold convertLocalXYToLatLonf, convertLatLonToLocalXYf. cbn [snd]. set (n := meterPerDegLatf cosd 45) in *.
  assert (Q : 0 <= 3 / 16 / n <= 1705 / 1000000000).
  { split; [apply Rmult_le_pos; [lra|left; apply Rinv_0_lt_compat; lra]|]. apply (Rmult_le_reg_r n); [lra|]. unfold Rdiv at 1. rewrite Rmult_assoc, Rinv_l by lra. lra. }
  set (q := 3 / 16 / n) in *. pose proof (single_pos q ltac:(lra)) as Q0. pose proof (single_rel (1705 / 1000000000) q ltac:(apply Rabs_le; lra)) as E. unfold err in E. apply abs_le_inv in E.
  set (q1 := single q) in *. clearbody q1 q. assert (Q1 : 0 <= q1 <= 1706 / 1000000000) by (revert E; numv).
  assert (S : single (q1 + 45) = 45).
  { replace 45 with (IZR (45 * 2 ^ 18) * bpow radix2 (-18)) at 2 by (cbn; lra). apply single_near; [lia|rewrite Rabs_right by lra; cbn; lra|]. replace ((q1 + 45) * bpow radix2 (- (-18)) - IZR (45 * 2 ^ 18)) with (q1 * 262144) by (cbn; lra). rewrite Rabs_right; lra. }
  rewrite S. replace (45 - 45) with 0 by lra. rewrite single_0, Rmult_0_l. apply single_0.
Qed.

(** ** Earth-centred coordinates *)
Lemma werr_mul wide ea eb a v b w A W e' : err ea a v -> err eb b w -> Rabs v <= A -> Rabs w <= W ->
  (ea * W + A * eb + ea * eb) + V * (A * W + (ea * W + A * eb + ea * eb)) + V * V <= e' -> err e' (wmul wide a b) (v * w).
Proof.
  intros H1 H2 HA HW HE. unfold wmul. destruct wide; [|now apply (serr_mul ea eb _ _ _ _ A W)]. apply (err_mul ea eb _ _ _ _ A W); auto.
  assert (P : 0 <= A * W + (ea * W + A * eb + ea * eb)). { unfold err in *. pose proof (Rabs_pos v). pose proof (Rabs_pos w). pose proof (Rabs_pos (a - v)). pose proof (Rabs_pos (b - w)). assert (0 <= A * W) by nra. assert (0 <= ea * W) by nra. assert (0 <= A * eb) by nra. assert (0 <= ea * eb) by nra. lra. }
  assert (UV : U <= V) by numv. assert (UU : U * U <= V * V) by numv. pose proof (Rmult_le_compat_r _ _ _ P UV). lra.
Qed.
Lemma normal_err wide sinf lat : accurate sinf sin -> Rabs lat <= 90 ->
  let D := 1 - ECCENTRICITY_2 * sin (radians lat) * sin (radians lat) in
  err (6750000 * V) (single (fdiv SEMI_AXIS_A (rnd (sqrt (fsub 1 (wmul wide (wmul wide ECCENTRICITY_2 (sinf (radiansf lat))) (sinf (radiansf lat)))))))) (SEMI_AXIS_A / sqrt D) /\ 0 <= SEMI_AXIS_A / sqrt D <= 6404000.
Proof.
  intros Hs HL D. destruct (half_turn lat HL) as [E B]. pose proof (lib_err sinf sin _ _ _ Hs sin_lip' E) as ES. set (s := sinf (radiansf lat)) in *. set (S := sin (radians lat)) in *. pose proof (SIN_bound (radians lat)) as SB. fold S in SB. assert (SA : Rabs S <= 1) by (apply Rabs_le; lra).
  assert (E1 : err (0.03 * V) (wmul wide ECCENTRICITY_2 s) (ECCENTRICITY_2 * S)) by (apply (werr_mul wide 0 _ _ _ _ _ 0.0067 1 _ (err_refl 0 _ ltac:(lra)) ES); [unfold ECCENTRICITY_2; apply Rabs_le; lra|exact SA|numv]).
  assert (B1 : Rabs (ECCENTRICITY_2 * S) <= 0.0067) by (unfold ECCENTRICITY_2; apply Rabs_le; lra).
  assert (E2 : err (0.06 * V) (wmul wide (wmul wide ECCENTRICITY_2 s) s) (ECCENTRICITY_2 * S * S)) by (apply (werr_mul wide _ _ _ _ _ _ 0.0067 1 _ E1 ES B1 SA); numv).
  assert (DB : 0.9933 <= D <= 1) by (unfold D, ECCENTRICITY_2; nra).
  assert (E3 : err (0.07 * V) (fsub 1 (wmul wide (wmul wide ECCENTRICITY_2 s) s)) D) by (apply (err_sub 0 _ _ _ _ _ 1 _ (err_refl 0 1 ltac:(lra)) E2); [apply Rabs_le; fold D; lra|numv]).
  set (d := fsub 1 _) in *. clearbody d D. unfold err in E3. apply abs_le_inv in E3. assert (DB' : 0.9932 <= d <= 1.0001) by (revert E3; numv).
  assert (Q : 0.996 <= sqrt D <= 1). { split; [replace 0.996 with (sqrt (0.996 * 0.996)) by (apply sqrt_square; lra); apply sqrt_le_1_alt; lra|]. pose proof (sqrt_le_1_alt D 1 ltac:(lra)) as H. rewrite sqrt_1 in H. exact H. }
  assert (Q' : 0.996 <= sqrt d) by (replace 0.996 with (sqrt (0.996 * 0.996)) by (apply sqrt_square; lra); apply sqrt_le_1_alt; lra).
  assert (E4 : err (0.04 * V) (sqrt d) (sqrt D)).
  { pose proof (sqrt_sqrt d ltac:(lra)) as R1. pose proof (sqrt_sqrt D ltac:(lra)) as R2. unfold err. assert (F : (sqrt d - sqrt D) * (sqrt d + sqrt D) = d - D) by lra. set (a := sqrt d - sqrt D) in *. set (c := sqrt d + sqrt D) in *. assert (C : 1.99 <= c) by (unfold c; lra). clearbody a c. pose proof V_pos. apply Rabs_le. split; nra. }
  assert (E5 : err (0.05 * V) (rnd (sqrt d)) (sqrt D)) by (apply (err_rnd _ _ _ 1 _ E4); [apply Rabs_le; lra|numv]).
  set (q := rnd (sqrt d)) in *. set (r := sqrt D) in *. clearbody q r. pose proof E5 as E5'. unfold err in E5'. apply abs_le_inv in E5'. assert (QB : 0.995 <= q <= 1.001) by (revert E5'; numv).
  assert (NB : 0 <= SEMI_AXIS_A / r <= 6404000).
  { unfold SEMI_AXIS_A. split; [apply Rmult_le_pos; [lra|left; apply Rinv_0_lt_compat; lra]|]. apply (Rmult_le_reg_r r); [lra|]. unfold Rdiv. rewrite Rmult_assoc, Rinv_l by lra. lra. }
  assert (E6 : err (330000 * V) (SEMI_AXIS_A / q) (SEMI_AXIS_A / r)).
  { unfold err. replace (SEMI_AXIS_A / q - SEMI_AXIS_A / r) with ((SEMI_AXIS_A / r) * ((r - q) * / q)) by (field; split; lra). rewrite Rabs_mult. rewrite (Rabs_right (SEMI_AXIS_A / r)) by lra.
    assert (I : Rabs ((r - q) * / q) <= 0.0505 * V). { rewrite Rabs_mult, Rabs_inv, (Rabs_right q) by lra. apply (Rmult_le_reg_r q); [lra|]. rewrite Rmult_assoc, Rinv_l by lra. assert (Rabs (r - q) <= 0.05 * V) by (apply Rabs_le; lra). pose proof V_pos. nra. }
    pose proof (Rabs_pos ((r - q) * / q)). pose proof V_pos. eapply Rle_trans; [apply Rmult_le_compat; [lra|lra|apply NB|exact I]|]. lra. }
  assert (E7 : err (330001 * V) (fdiv SEMI_AXIS_A q) (SEMI_AXIS_A / r)) by (apply (err_rnd _ _ _ 6404000 _ E6); [apply Rabs_le; lra|numv]).
  split; [apply (serr_rnd _ _ _ 6404000 _ E7); [apply Rabs_le; lra|numv]|].
  exact NB.
Qed.
Lemma ecef_err wide sinf cosf lat lon alt : accurate sinf sin -> accurate cosf cos -> Rabs lat <= 90 -> Rabs lon <= 180 -> Rabs alt <= 100000 ->
  let '(x, y, z) := convertLatLonAltToECEF lat lon alt in let '(x', y', z') := convertLatLonAltToECEFf wide sinf cosf lat lon alt in
  Rabs (x' - x) <= 5 /\ Rabs (y' - y) <= 5 /\ Rabs (z' - z) <= 5.
Proof.
  intros Hs Hc HA HO HT. unfold convertLatLonAltToECEF, convertLatLonAltToECEFf. cbv zeta. destruct (normal_err wide sinf lat Hs HA) as [EN BN]. cbv zeta in EN, BN.
  destruct (half_turn lat HA) as [EA _]. destruct (full_turn lon HO) as [EO _]. pose proof (lib_err sinf sin _ _ _ Hs sin_lip' EA) as SA. pose proof (lib_err cosf cos _ _ _ Hc cos_lip EA) as CA.
  pose proof (lib_err sinf sin _ _ _ Hs sin_lip' EO) as SO. pose proof (lib_err cosf cos _ _ _ Hc cos_lip EO) as CO.
  set (n := single _) in EN |- *. set (N := SEMI_AXIS_A / _) in *. apply abs_le_inv in HT. pose proof (sin_bound (radians lat)) as b1. pose proof (cos_bound (radians lat)) as b2. pose proof (sin_bound (radians lon)) as b3. pose proof (cos_bound (radians lon)) as b4.
  assert (EH : err (13300000 * V) (single (n + alt)) (N + alt)) by (apply (serr_add _ 0 _ _ _ _ 6504000 _ EN (err_refl 0 alt ltac:(lra))); [apply Rabs_le; lra|numv]).
  assert (BH : Rabs (N + alt) <= 6504000) by (apply Rabs_le; lra).
  assert (EX : err (37500000 * V) (wmul wide (single (n + alt)) (cosf (radiansf lat))) ((N + alt) * cos (radians lat))) by (apply (werr_mul wide _ _ _ _ _ _ 6504000 1 _ EH CA BH b2); numv).
  assert (BX : Rabs ((N + alt) * cos (radians lat)) <= 6504000). { rewrite Rabs_mult. pose proof (Rabs_pos (N + alt)). pose proof (Rabs_pos (cos (radians lat))). nra. }
  assert (ER : err (2 * V) (single (AXIS_RATIO * AXIS_RATIO)) (AXIS_RATIO * AXIS_RATIO)) by (apply (serr_const _ 1); [unfold AXIS_RATIO; apply Rabs_le; lra|numv]).
  assert (RB : Rabs (AXIS_RATIO * AXIS_RATIO) <= 1) by (unfold AXIS_RATIO; apply Rabs_le; lra).
  assert (EZ1 : err (26100000 * V) (single (single (AXIS_RATIO * AXIS_RATIO) * n)) (AXIS_RATIO * AXIS_RATIO * N)) by (apply (serr_mul _ _ _ _ _ _ 1 6404000 _ ER EN RB); [apply Rabs_le; lra|numv]).
  assert (BZ1 : 0 <= AXIS_RATIO * AXIS_RATIO * N <= 6404000) by (unfold AXIS_RATIO; lra).
  assert (EZ2 : err (32700000 * V) (single (single (single (AXIS_RATIO * AXIS_RATIO) * n) + alt)) (AXIS_RATIO * AXIS_RATIO * N + alt)) by (apply (serr_add _ 0 _ _ _ _ 6504000 _ EZ1 (err_refl 0 alt ltac:(lra))); [apply Rabs_le; lra|numv]).
  assert (BZ2 : Rabs (AXIS_RATIO * AXIS_RATIO * N + alt) <= 6504000) by (apply Rabs_le; lra).
  assert (P : forall e a v b w eb, err e a v -> Rabs v <= 6504000 -> err eb b w -> Rabs w <= 1 -> 0 <= e <= 40000000 * V -> 0 <= eb <= 4.3 * V -> Rabs (single (wmul wide a b) - v * w) <= 5).
  { intros e a v b w eb Ea Ba Eb Bb He Heb. assert (E1 : err (75000000 * V) (wmul wide a b) (v * w)).
    { apply (werr_mul wide (40000000 * V) (4.3 * V) _ _ _ _ 6504000 1); [apply (err_weaken _ _ _ _ Ea); lra|apply (err_weaken _ _ _ _ Eb); lra|exact Ba|exact Bb|numv]. }
    assert (E2 : err 5 (single (wmul wide a b)) (v * w)); [|exact E2]. apply (serr_rnd _ _ _ 6504000 _ E1); [|numv]. rewrite Rabs_mult. pose proof (Rabs_pos v). pose proof (Rabs_pos w). nra. }
  split; [|split].
  - apply (P _ _ _ _ _ _ EX BX CO b4); numv.
  - apply (P _ _ _ _ _ _ EX BX SO b3); numv.
  - apply (P _ _ _ _ _ _ EZ2 BZ2 SA b1); numv.
Qed.
(** Three sixteenths of a metre of altitude are lost at the equator. *)
Lemma lost_altitude wide sinf cosf : accurate sinf sin -> accurate cosf cos ->
  let '(x, _, _) := convertLatLonAltToECEF 0 0 (3 / 16) in let '(x', _, _) := convertLatLonAltToECEFf wide sinf cosf 0 0 (3 / 16) in x - x' = 3 / 16.
Proof.
  intros [_ S0] [_ C0]. rewrite sin_0 in S0. rewrite cos_0 in C0. assert (R0 : rnd 0 = 0) by (apply rnd_id, generic_format_0). assert (R1 : rnd 1 = 1) by (apply rnd_id, (format_int 1); cbn; lia).
  assert (RA : rnd 6378137 = 6378137) by (apply rnd_id, (format_int 6378137); cbn; lia). assert (SA : single 6378137 = 6378137) by (apply single_whole; lia).
  unfold convertLatLonAltToECEF, convertLatLonAltToECEFf. assert (RR : radiansf 0 = 0) by (unfold radiansf, fmul, fdiv; replace (0 / 180) with 0 by lra; rewrite R0, Rmult_0_l, R0; apply single_0).
  assert (RD : radians 0 = 0) by (unfold radians; lra). rewrite RR, RD, S0, C0, sin_0, cos_0. cbv zeta.
  assert (W0 : forall a, wmul wide a 0 = 0) by (intros a; unfold wmul, fmul; rewrite Rmult_0_r, R0, single_0; now destruct wide). rewrite !W0. unfold fsub, fdiv, SEMI_AXIS_A.
  replace (1 - 0) with 1 by lra. rewrite R1, sqrt_1, R1. replace (6378137 / 1) with 6378137 by lra. rewrite RA, SA.
  assert (SH : single (6378137 + 3 / 16) = 6378137).
  { replace 6378137 with (IZR (6378137 * 2) * bpow radix2 (-1)) at 2 by (cbn; lra). apply single_near; [lia|rewrite Rabs_right by lra; cbn; lra|]. replace ((6378137 + 3 / 16) * bpow radix2 (- (-1)) - IZR (6378137 * 2)) with (3 / 8) by (cbn; lra). rewrite Rabs_right; lra. }
  rewrite SH. assert (W1 : wmul wide 6378137 1 = 6378137) by (unfold wmul, fmul; rewrite Rmult_1_r, RA, SA; now destruct wide). rewrite !W1, SA.
  replace (ECCENTRICITY_2 * 0 * 0) with 0 by ring. replace (1 - 0) with 1 by lra. rewrite sqrt_1. lra.
Qed.

(** The way to the local frame, against the formula. *)
Lemma product_err d m m0 b : Rabs m <= 112000 -> 0 <= b <= 1 -> err b m m0 -> Rabs (single (single d * m) - d * m0) <= (b + 2 / 100) * Rabs d + / 2 ^ 24.
Proof.
  intros M B E. unfold err in E. pose proof V_pos as HV. replace (/ 2 ^ 24) with V by (unfold V; lra). pose proof (single_err d) as A. set (a := single d) in *. pose proof (single_err (a * m)) as P. pose proof (Rabs_pos d) as D.
  assert (VV : 0 <= V * V <= V / 10000000) by (split; nra).
  assert (Q : Rabs (a * m - d * m0) <= (V * Rabs d + V * V) * 112000 + Rabs d * b).
  { replace (a * m - d * m0) with ((a - d) * m + d * (m - m0)) by ring. eapply Rle_trans; [apply Rabs_triang|]. rewrite !Rabs_mult. apply Rplus_le_compat.
    - apply Rmult_le_compat; try apply Rabs_pos; lra.
    - apply Rmult_le_compat_l; lra. }
  assert (W : Rabs (a * m) <= (Rabs d + (V * Rabs d + V * V)) * 112000).
  { rewrite Rabs_mult. apply Rmult_le_compat; try apply Rabs_pos; [|lra]. replace a with (d + (a - d)) by ring. eapply Rle_trans; [apply Rabs_triang|]. lra. }
  assert (T : Rabs (single (a * m) - d * m0) <= Rabs (single (a * m) - a * m) + Rabs (a * m - d * m0)).
  { replace (single (a * m) - d * m0) with ((single (a * m) - a * m) + (a * m - d * m0)) by ring. apply Rabs_triang. }
  assert (VW : V * Rabs (a * m) <= V * ((Rabs d + (V * Rabs d + V * V)) * 112000)) by (apply Rmult_le_compat_l; lra).
  assert (VD : V * Rabs d <= 6 / 100000000 * Rabs d) by (apply Rmult_le_compat_r; unfold V; lra).
  assert (VVD : V * (V * Rabs d) <= 6 / 100000000 * (6 / 100000000 * Rabs d)).
  { apply Rmult_le_compat; [lra| nra | unfold V; lra | exact VD]. }
  assert (VVV : V * (V * V) <= V * (V / 10000000)) by (apply Rmult_le_compat_l; lra).
  assert (VVs : V * (V / 10000000) <= V / 10000000) by nra.
  nra.
Qed.
Lemma forward_err cosf cosd latOrg lonOrg lat lon : accurate cosf cos -> accurate cosd cos -> Rabs latOrg <= 90 -> Rabs lonOrg <= 180 ->
  let '(x, y) := convertLatLonToLocalXY latOrg lonOrg lat lon in let '(x', y') := convertLatLonToLocalXYf cosf cosd latOrg lonOrg lat lon in
  Rabs (x' - x) <= 6 / 100 * Rabs (lon - lonOrg) + / 2 ^ 24 /\ Rabs (y' - y) <= 3 / 100 * Rabs (lat - latOrg) + / 2 ^ 24.
Proof.
  intros Hf Hd HA HO. unfold convertLatLonToLocalXY, convertLatLonToLocalXYf. split.
  - pose proof (lon_err cosf cosd lonOrg Hf Hd HO) as E. pose proof (lon_range cosf cosd lonOrg Hf Hd HO) as W.
    replace (6 / 100) with (4 / 100 + 2 / 100) by lra. apply product_err; [lra|lra|exact E].
  - pose proof (lat_err cosd latOrg Hd HA) as E. pose proof (lat_range cosd latOrg Hd HA) as W.
    replace (3 / 100) with (1 / 100 + 2 / 100) by lra. apply product_err; [rewrite Rabs_right; lra|lra|exact E].
Qed.
