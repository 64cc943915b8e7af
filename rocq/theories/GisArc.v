(** * Lengths of a degree on the ellipsoid. *)
From Coq Require Import Reals Lra Psatz.
From Coquelicot Require Import Coquelicot.
From Verif Require Import FunctionsModel FunctionsProofs PiBounds GisModel GisSpec Geometry2Proofs GisProofs.
Open Scope R_scope.

Definition root (s : R) : R := / sqrt (1 - wgs84_e2 * s).
Lemma e2_small s : 0 <= s <= 1 -> 0 <= wgs84_e2 * s <= 6695 / 1000000.
Proof. unfold wgs84_e2. lra. Qed.
Lemma root_bounds s : 0 <= s <= 1 -> let z := wgs84_e2 * s in
  0 < root s /\ root s * root s * (1 - z) = 1 /\ 1 + z / 2 + 3 / 8 * (z * z) <= root s <= 1 + z / 2 + 38 / 100 * (z * z).
Proof.
  intros H z. pose proof (e2_small s H) as Hz. fold z in Hz.
  assert (D : 0 < 1 - z) by lra. unfold root. fold z. assert (Q : 0 < sqrt (1 - z)) by (apply sqrt_lt_R0; lra).
  assert (E : sqrt (1 - z) * sqrt (1 - z) = 1 - z) by (apply sqrt_sqrt; lra). set (q := sqrt (1 - z)) in *.
  assert (P : 0 < / q) by (apply Rinv_0_lt_compat; exact Q). assert (I : / q * q = 1) by (field; lra). set (w := / q) in *.
  assert (W : w * w * (1 - z) = 1). { rewrite <- E. replace (w * w * (q * q)) with ((w * q) * (w * q)) by ring. rewrite I. ring. }
  split; [exact P|]. split; [exact W|]. clearbody w q. clear q Q E I.
  assert (A : forall y, 0 < y -> y * y * (1 - z) <= 1 -> y <= w).
  { intros y Hy L. apply Rnot_lt_le. intros N. assert (w * w < y * y) by nra. nra. }
  assert (B : forall y, 0 < y -> 1 <= y * y * (1 - z) -> w <= y).
  { intros y Hy L. apply Rnot_lt_le. intros N. assert (y * y < w * w) by nra. nra. }
  split; [apply A|apply B]; nra.
Qed.
Lemma is_speed_unique f x v v' : is_speed f x v -> is_speed f x v' -> v = v'.
Proof.
  intros (a & b & c & A & B & C & ->) (a' & b' & c' & A' & B' & C' & ->).
  rewrite (uniqueness_limite _ _ _ _ A A'), (uniqueness_limite _ _ _ _ B B'), (uniqueness_limite _ _ _ _ C C'). reflexivity.
Qed.
Definition meridian (lat : R) : R :=
  let s := sin (lat / 180 * PI) * sin (lat / 180 * PI) in PI / 180 * (wgs84_a * (1 - wgs84_e2) * (root s * root s * root s)).
Definition parallel (lat : R) : R := let u := lat / 180 * PI in PI / 180 * (wgs84_a * root (sin u * sin u)) * Rabs (cos u).
Lemma sin2_range u : 0 <= sin u * sin u <= 1.
Proof. pose proof (cs1 u). pose proof (Rle_0_sqr (sin u)) as A. pose proof (Rle_0_sqr (cos u)) as B. unfold Rsqr in A, B. lra. Qed.
Lemma radius_derive u : let w := root (sin u * sin u) in
  is_derive (fun u => wgs84_a / sqrt (1 - wgs84_e2 * (sin u * sin u)) * cos u) u (- (wgs84_a * (1 - wgs84_e2) * (w * w * w) * sin u)) /\
  is_derive (fun u => (1 - wgs84_e2) * (wgs84_a / sqrt (1 - wgs84_e2 * (sin u * sin u))) * sin u) u (wgs84_a * (1 - wgs84_e2) * (w * w * w) * cos u).
Proof.
  intros w. pose proof (sin2_range u) as S. pose proof (root_bounds _ S) as (W0 & W1 & _). fold w in W0, W1.
  pose proof (e2_small _ S) as Z. assert (D : 0 < 1 - wgs84_e2 * (sin u * sin u)) by lra.
  assert (Q : 0 < sqrt (1 - wgs84_e2 * (sin u * sin u))) by (apply sqrt_lt_R0; exact D).
  assert (E : sqrt (1 - wgs84_e2 * (sin u * sin u)) * sqrt (1 - wgs84_e2 * (sin u * sin u)) = 1 - wgs84_e2 * (sin u * sin u)) by (apply sqrt_sqrt; lra).
  assert (CS : cos u * cos u = 1 - sin u * sin u) by (pose proof (cs1 u); lra).
  unfold w, root in *. clear w W0 W1. set (s := sin u) in *. set (c := cos u) in *.
  split; auto_derive; fold s; fold c.
  1, 3: repeat split; try lra; apply Rgt_not_eq; exact Q.
  all: change (1 + - (wgs84_e2 * (s * s))) with (1 - wgs84_e2 * (s * s)); set (q := sqrt (1 - wgs84_e2 * (s * s))) in *; clearbody q.
  - transitivity (wgs84_a * (wgs84_e2 * (c * c) * s - s * (q * q)) / (q * q * q)); [field; lra|].
    replace (wgs84_e2 * (c * c) * s - s * (q * q)) with (- (1 - wgs84_e2) * s) by (rewrite CS, E; ring). field. lra.
  - transitivity ((1 - wgs84_e2) * wgs84_a * c * (wgs84_e2 * (s * s) + q * q) / (q * q * q)); [field; lra|].
    replace (wgs84_e2 * (s * s) + q * q) with 1 by (rewrite E; ring). field. lra.
Qed.
Lemma degrees_derive f lat l : is_derive f (lat / 180 * PI) l -> is_derive (fun t => f (t / 180 * PI)) lat (PI / 180 * l).
Proof.
  intros H. replace (PI / 180 * l) with (scal (PI / 180) l) by reflexivity. apply (is_derive_comp f (fun t => t / 180 * PI)); [exact H|].
  auto_derive; [exact I|field].
Qed.
Lemma meridian_speed lat lon : is_speed (fun t => wgs84 t lon) lat (meridian lat).
Proof.
  destruct (radius_derive (lat / 180 * PI)) as [A B]. apply degrees_derive in A, B. set (u := lat / 180 * PI) in *. set (w := root (sin u * sin u)) in *.
  set (v := lon / 180 * PI).
  set (M := wgs84_a * (1 - wgs84_e2) * (w * w * w)) in *.
  exists (PI / 180 * - (M * sin u) * cos v), (PI / 180 * - (M * sin u) * sin v), (PI / 180 * (M * cos u)).
  split; [|split; [|split]].
  - apply is_derive_Reals. apply (is_derive_ext (fun t => scal (cos v) (wgs84_a / sqrt (1 - wgs84_e2 * (sin (t / 180 * PI) * sin (t / 180 * PI))) * cos (t / 180 * PI)))).
    + intros t. unfold wgs84. cbn [fst snd]. fold v. unfold scal. cbn. unfold mult. cbn. ring.
    + replace (PI / 180 * - (M * sin u) * cos v) with (scal (cos v) (PI / 180 * - (M * sin u))) by (unfold scal; cbn; unfold mult; cbn; ring).
      apply is_derive_scal. exact A.
  - apply is_derive_Reals. apply (is_derive_ext (fun t => scal (sin v) (wgs84_a / sqrt (1 - wgs84_e2 * (sin (t / 180 * PI) * sin (t / 180 * PI))) * cos (t / 180 * PI)))).
    + intros t. unfold wgs84. cbn [fst snd]. fold v. unfold scal. cbn. unfold mult. cbn. ring.
    + replace (PI / 180 * - (M * sin u) * sin v) with (scal (sin v) (PI / 180 * - (M * sin u))) by (unfold scal; cbn; unfold mult; cbn; ring).
      apply is_derive_scal. exact A.
  - apply is_derive_Reals. exact B.
  - assert (M0 : 0 < M).
    { destruct (root_bounds _ (sin2_range u)) as (W0 & _). fold w in W0. unfold M. unfold wgs84_a, wgs84_e2.
      apply Rmult_lt_0_compat; [lra|]. apply Rmult_lt_0_compat; [|exact W0]. apply Rmult_lt_0_compat; exact W0. }
    unfold meridian. fold u. fold w. fold M. unfold sqnorm3. pose proof (cs1 u) as Cu. pose proof (cs1 v) as Cv. pose proof PI_bounds.
    match goal with |- _ = sqrt ?X => replace X with ((PI / 180 * M) * (PI / 180 * M) * (sin u * sin u * (cos v * cos v + sin v * sin v) + cos u * cos u)) by field end.
    rewrite Cv, Rmult_1_r. replace (sin u * sin u + cos u * cos u) with 1 by lra. rewrite Rmult_1_r, sqrt_square; [reflexivity|].
    apply Rmult_le_pos; lra.
Qed.
Lemma parallel_speed lat lon : is_speed (fun t => wgs84 lat t) lon (parallel lat).
Proof.
  unfold parallel. set (u := lat / 180 * PI). set (v := lon / 180 * PI). set (n := wgs84_a * root (sin u * sin u)).
  assert (Nn : n = wgs84_a / sqrt (1 - wgs84_e2 * (sin u * sin u))) by reflexivity.
  assert (A : is_derive (fun t => n * cos u * cos (t / 180 * PI)) lon (PI / 180 * (n * cos u * - sin v))).
  { apply (degrees_derive (fun v => n * cos u * cos v)). fold v. auto_derive; [exact I|ring]. }
  assert (B : is_derive (fun t => n * cos u * sin (t / 180 * PI)) lon (PI / 180 * (n * cos u * cos v))).
  { apply (degrees_derive (fun v => n * cos u * sin v)). fold v. auto_derive; [exact I|ring]. }
  exists (PI / 180 * (n * cos u * - sin v)), (PI / 180 * (n * cos u * cos v)), 0.
  split; [|split; [|split]].
  - apply is_derive_Reals. exact A.
  - apply is_derive_Reals. exact B.
  - apply derivable_pt_lim_const.
  - assert (N0 : 0 < n).
    { destruct (root_bounds _ (sin2_range u)) as (W0 & _). unfold n, wgs84_a. apply Rmult_lt_0_compat; [lra|exact W0]. }
    clearbody n. unfold sqnorm3. pose proof (cs1 v) as Cv. pose proof PI_bounds.
    match goal with |- _ = sqrt ?X => replace X with (Rsqr (PI / 180 * n * cos u) * (sin v * sin v + cos v * cos v)) by (unfold Rsqr; field) end.
    replace (sin v * sin v + cos v * cos v) with 1 by lra. rewrite Rmult_1_r, sqrt_Rsqr_abs, Rabs_mult. f_equal.
    rewrite Rabs_right; [reflexivity|]. apply Rle_ge, Rmult_le_pos; lra.
Qed.

Lemma cos_double u : cos (2 * u) = 1 - 2 * (sin u * sin u).
Proof. rewrite cos_2a_sin. ring. Qed.
Lemma cos_fourth u : cos (4 * u) = 1 - 8 * (sin u * sin u) + 8 * (sin u * sin u * (sin u * sin u)).
Proof. replace (4 * u) with (2 * (2 * u)) by ring. rewrite cos_2a_cos, cos_double. ring. Qed.
Lemma cos_three u : cos (3 * u) = cos u * (1 - 4 * (sin u * sin u)).
Proof.
  replace (3 * u) with (2 * u + u) by ring. rewrite cos_plus, cos_double, sin_2a. replace (2 * sin u * cos u * sin u) with (2 * (sin u * sin u) * cos u) by ring. ring.
Qed.
Lemma meridian_error lat : Rabs (meterPerDegLat lat - meridian lat) < 8.
Proof.
  unfold meterPerDegLat, meridian, radians. set (u := lat / 180 * PI). rewrite cos_double, cos_fourth. pose proof (COS_bound (6 * u)) as C6.
  set (c6 := cos (6 * u)) in *. pose proof (sin2_range u) as S. set (s := sin u * sin u) in *. clearbody c6 s.
  destruct (root_bounds s S) as (W0 & W1 & W2 & W3). pose proof (e2_small s S) as Hz. cbv zeta in *.
  set (z := wgs84_e2 * s) in *. assert (Ez : z = wgs84_e2 * s) by reflexivity. clearbody z.
  set (w := root s) in *. clearbody w.
  assert (L : 1 + 3 / 2 * z + 18 / 10 * (z * z) <= w * w * w <= 1 + 3 / 2 * z + 2 * (z * z)).
  { assert (Q : 0 <= z * z <= 6695 / 1000000 * z) by nra. clear - W0 W2 W3 Hz Q. set (q := z * z) in *.
    set (y := 1 + z / 2 + 3 / 8 * q) in *. set (y' := 1 + z / 2 + 38 / 100 * q) in *.
    assert (Y : y * y * y <= w * w * w <= y' * y' * y').
    { split; (apply Rmult_le_compat; [nra|unfold y; lra| |lra]); apply Rmult_le_compat; unfold y in *; lra. }
    assert (A : 0 <= q * z <= 6695 / 1000000 * q) by nra. assert (B : 0 <= q * q <= 6695 / 1000000 * q) by nra.
    assert (C : 0 <= q * q * z <= q * q) by nra. assert (D : 0 <= q * q * q <= q * q) by nra.
    replace (y * y * y) with (1 + 3 / 2 * z + 9 / 8 * q + 3 / 4 * (z * z) + (1 / 8 * (z * z) + 9 / 8 * q) * z + 9 / 32 * q * (z * z) + 27 / 64 * (q * q) + 27 / 128 * (q * q * z) + 27 / 512 * (q * q * q)) in Y by (unfold y; field).
    replace (y' * y' * y') with (1 + 3 / 2 * z + 114 / 100 * q + 3 / 4 * (z * z) + (1 / 8 * (z * z) + 114 / 100 * q) * z + 285 / 1000 * q * (z * z) + 4332 / 10000 * (q * q) + 2166 / 10000 * (q * q * z) + 54872 / 1000000 * (q * q * q)) in Y by (unfold y'; field).
    change (z * z) with q in Y. clearbody q. split; nra. }
  pose proof PI_bounds.
  set (k := PI / 180 * (wgs84_a * (1 - wgs84_e2))).
  assert (K : 110574 < k < 110575) by (unfold k, wgs84_a, wgs84_e2; lra).
  replace (PI / 180 * (wgs84_a * (1 - wgs84_e2) * (w * w * w))) with (k * (w * w * w)) by (unfold k; ring). set (w3 := w * w * w) in *.
  assert (S2 : 0 <= s * s <= s) by nra.
  assert (Z2 : 44 / 1000000 * (s * s) <= z * z <= 45 / 1000000 * (s * s)). { rewrite Ez. unfold wgs84_e2. nra. }
  assert (Z1 : 6694 / 1000000 * s <= z <= 6695 / 1000000 * s) by (rewrite Ez; unfold wgs84_e2; lra).
  clearbody k w3. clear Ez W0 W1 W2 W3.
  assert (T1 : k * (1 + 3 / 2 * z + 18 / 10 * (z * z)) <= k * w3) by (apply Rmult_le_compat_l; lra).
  assert (T2 : k * w3 <= k * (1 + 3 / 2 * z + 2 * (z * z))) by (apply Rmult_le_compat_l; lra).
  assert (T3 : 110574 * z <= k * z <= 110575 * z) by nra. assert (T4 : 110574 * (z * z) <= k * (z * z) <= 110575 * (z * z)) by (split; apply Rmult_le_compat_r; lra).
  apply Rabs_def1; lra.
Qed.
Lemma parallel_error lat : -90 <= lat <= 90 -> Rabs (meterPerDegLon lat - parallel lat) < 4.
Proof.
  intros HL. unfold meterPerDegLon, parallel, radians. set (u := lat / 180 * PI).
  assert (C0 : 0 <= cos u). { pose proof PI_bounds. apply cos_ge_0; unfold u; nra. } rewrite (Rabs_right (cos u)) by lra. pose proof (COS_bound (5 * u)) as C5. rewrite cos_three. set (c5 := cos (5 * u)) in *.
  pose proof (sin2_range u) as S. pose proof (cs1 u) as CS. set (s := sin u * sin u) in *. pose proof (COS_bound u) as C. set (c := cos u) in *. clearbody c5 s c.
  destruct (root_bounds s S) as (W0 & _ & W2 & W3). pose proof (e2_small s S) as Hz. cbv zeta in *. set (w := root s) in *.
  set (z := wgs84_e2 * s) in *. assert (Ez : z = wgs84_e2 * s) by reflexivity. clearbody z w. pose proof PI_bounds.
  set (k := PI / 180 * wgs84_a). assert (K : 1113194 / 10 < k < 1113195 / 10) by (unfold k, wgs84_a; lra).
  replace (PI / 180 * (wgs84_a * w) * c) with (k * w * c) by (unfold k; ring). clearbody k.
  assert (Z2 : 44 / 1000000 * (s * s) <= z * z <= 45 / 1000000 * (s * s)). { rewrite Ez. unfold wgs84_e2. nra. }
  assert (Z1 : 6694 / 1000000 * s <= z <= 6695 / 1000000 * s) by (rewrite Ez; unfold wgs84_e2; lra).
  assert (S2 : 0 <= s * s <= s) by nra.
  set (g := 11141513 / 100 - 9455 / 100 * (1 - 4 * s)).
  replace (11141513 / 100 * c - 9455 / 100 * (c * (1 - 4 * s)) + 12 / 100 * c5) with (g * c + 12 / 100 * c5) by (unfold g; ring).
  assert (D : Rabs (g - k * w) < 13 / 10 + 57 / 10 * s).
  { assert (T1 : k * (1 + z / 2 + 3 / 8 * (z * z)) <= k * w) by (apply Rmult_le_compat_l; lra).
    assert (T2 : k * w <= k * (1 + z / 2 + 38 / 100 * (z * z))) by (apply Rmult_le_compat_l; lra).
    assert (T3 : 1113194 / 10 * z <= k * z <= 1113195 / 10 * z) by nra. assert (T4 : 1113194 / 10 * (z * z) <= k * (z * z) <= 1113195 / 10 * (z * z)) by (split; apply Rmult_le_compat_r; lra).
    unfold g. apply Rabs_def1; lra. }
  replace (g * c + 12 / 100 * c5 - k * w * c) with (12 / 100 * c5 + (g - k * w) * c) by ring.
  eapply Rle_lt_trans; [apply Rabs_triang|]. rewrite (Rabs_mult (g - k * w)), (Rabs_right c) by lra.
  assert (E1 : Rabs (12 / 100 * c5) <= 12 / 100) by (apply Rabs_le; lra).
  assert (L : Rabs (g - k * w) * c <= (13 / 10 + 57 / 10 * s) * c) by (apply Rmult_le_compat_r; lra).
  replace s with (1 - c * c) in L by lra. assert (A1 : 0 <= c <= 1) by lra.
  assert (M : (13 / 10 + 57 / 10 * (1 - c * c)) * c <= 35 / 10).
  { clear - A1. pose proof (Rmult_le_pos _ _ (Rle_0_sqr (c - 64 / 100)) (ltac:(lra) : 0 <= c + 128 / 100)) as H. unfold Rsqr in H. lra. }
  lra.
Qed.
Lemma parallel_0 : parallel 0 = PI / 180 * wgs84_a.
Proof.
  unfold parallel. replace (0 / 180 * PI) with 0 by field. rewrite sin_0, cos_0. unfold root. rewrite Rmult_0_l, Rmult_0_r, Rminus_0_r, sqrt_1, Rinv_1, Rabs_R1. ring.
Qed.
Lemma parallel_60 : parallel 60 < 56000.
Proof.
  unfold parallel. replace (60 / 180 * PI) with (PI / 3) by field. rewrite cos_PI3, Rabs_right by lra.
  destruct (root_bounds _ (sin2_range (PI / 3))) as (_ & _ & _ & W). pose proof (e2_small _ (sin2_range (PI / 3))) as Z. pose proof PI_bounds. cbv zeta in W.
  set (z := wgs84_e2 * _) in *. set (w := root _) in *. assert (w <= 1 + 4 / 1000) by nra. unfold wgs84_a. nra.
Qed.
