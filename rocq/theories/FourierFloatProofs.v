(** * Proofs: evaluateFourier in double arithmetic. *)
From Coq Require Import Reals ZArith List Lra Lia Psatz.
From Verif Require Import Base FunctionsSpec FunctionsProofs DoubleModel DoubleSpec DoubleProofs FourierFloatModel FourierFloatSpec.
Import ListNotations.
Open Scope R_scope.

Lemma Up : 0 < U. Proof. unfold U. lra. Qed.
Lemma Us : U <= / 1000000. Proof. unfold U. lra. Qed.
Lemma U_eq : U = powerRZ 2 (-53).
Proof. rewrite <- (Flocq.Core.Raux.bpow_powerRZ Flocq.Core.Zaux.radix2). unfold U. cbn. lra. Qed.
Lemma rnd_bound x B : Rabs x <= B -> Rabs (rnd x - x) <= U * B + U * U.
Proof. intros H. eapply Rle_trans; [apply rnd_err|]. pose proof Up. apply Rplus_le_compat_r, Rmult_le_compat_l; lra. Qed.

(** Triangle inequality of the plane, with squares. *)
Lemma triangle2 x y p q a b : 0 <= a -> 0 <= b -> x * x + y * y <= a * a -> p * p + q * q <= b * b ->
  (x + p) * (x + p) + (y + q) * (y + q) <= (a + b) * (a + b).
Proof.
  intros Ha Hb H1 H2. assert (C : x * p + y * q <= a * b).
  { apply Rnot_lt_le. intros H. assert (S : (a * b) * (a * b) < (x * p + y * q) * (x * p + y * q)) by (apply Rmult_le_0_lt_compat; nra).
    assert (L : (x * p + y * q) * (x * p + y * q) <= (x * x + y * y) * (p * p + q * q)) by (assert (0 <= (x * q - y * p) * (x * q - y * p)) by apply Rle_0_sqr; lra).
    assert (M : (x * x + y * y) * (p * p + q * q) <= (a * a) * (b * b)) by (apply Rmult_le_compat; nra). lra. }
  lra.
Qed.
Lemma abs_sq x e : 0 <= e -> x * x <= e * e -> Rabs x <= e.
Proof. intros He H. apply (Rsqr_le_abs_0 x e) in H. rewrite (Rabs_pos_eq e He) in H. exact H. Qed.
Lemma sq_abs x e : Rabs x <= e -> x * x <= e * e.
Proof. intros H. rewrite <- (Rabs_pos_eq (x * x)) by nra. rewrite Rabs_mult. pose proof (Rabs_pos x). apply Rmult_le_compat; lra. Qed.

(** The rotation by one step. *)
Lemma rotate_step t c2 s2 c s C S E : Rabs (c2 - cos t) <= 2 * U -> Rabs (s2 - sin t) <= 2 * U -> C * C + S * S = 1 -> 0 <= E <= / 1000 ->
  (c - C) * (c - C) + (s - S) * (s - S) <= E * E ->
  let c' := fsub (fmul c2 c) (fmul s2 s) in let s' := fadd (fmul s2 c) (fmul c2 s) in
  let C' := cos t * C - sin t * S in let S' := sin t * C + cos t * S in
  (c' - C') * (c' - C') + (s' - S') * (s' - S') <= (E + 12 * U) * (E + 12 * U).
Proof.
  intros Hc Hs H1 HE HQ c' s' C' S'. pose proof Up as U0. pose proof Us as U1.
  assert (CC : Rabs C <= 1) by (apply abs_sq; nra). assert (SS : Rabs S <= 1) by (apply abs_sq; nra).
  assert (ec : Rabs (c - C) <= E) by (apply abs_sq; [lra|]; assert (0 <= (s - S) * (s - S)) by apply Rle_0_sqr; lra).
  assert (es : Rabs (s - S) <= E) by (apply abs_sq; [lra|]; assert (0 <= (c - C) * (c - C)) by apply Rle_0_sqr; lra).
  assert (Bc : Rabs c <= 1 + / 1000) by (replace c with (C + (c - C)) by ring; eapply Rle_trans; [apply Rabs_triang|lra]).
  assert (Bs : Rabs s <= 1 + / 1000) by (replace s with (S + (s - S)) by ring; eapply Rle_trans; [apply Rabs_triang|lra]).
  pose proof (COS_bound t) as [X1 X2]. pose proof (SIN_bound t) as [X3 X4].
  assert (Ct : Rabs (cos t) <= 1) by (apply Rabs_le; lra). assert (St : Rabs (sin t) <= 1) by (apply Rabs_le; lra).
  assert (B2 : Rabs c2 <= 1 + / 1000) by (replace c2 with (cos t + (c2 - cos t)) by ring; eapply Rle_trans; [apply Rabs_triang|lra]).
  assert (D2 : Rabs s2 <= 1 + / 1000) by (replace s2 with (sin t + (s2 - sin t)) by ring; eapply Rle_trans; [apply Rabs_triang|lra]).
  assert (P : forall a b, Rabs a <= 1 + / 1000 -> Rabs b <= 1 + / 1000 -> Rabs (a * b) <= 1 + 3 / 1000).
  { intros a b A B. rewrite Rabs_mult. apply Rle_trans with ((1 + / 1000) * (1 + / 1000)); [|lra]. apply Rmult_le_compat; try apply Rabs_pos; assumption. }
  assert (F : forall a b, Rabs a <= 1 + / 1000 -> Rabs b <= 1 + / 1000 -> Rabs (fmul a b - a * b) <= U * (1 + 3 / 1000) + U * U).
  { intros a b A B. apply rnd_bound, P; assumption. }
  assert (UU : U * U <= U * / 1000000) by (apply Rmult_le_compat_l; lra).
  assert (G : forall a b, Rabs a <= 1 + / 1000 -> Rabs b <= 1 + / 1000 -> Rabs (fmul a b) <= 1 + 4 / 1000).
  { intros a b A B. replace (fmul a b) with (a * b + (fmul a b - a * b)) by ring. eapply Rle_trans; [apply Rabs_triang|]. pose proof (P a b A B). pose proof (F a b A B). lra. }
  (* rounding of the two components *)
  assert (R1 : Rabs (c' - (c2 * c - s2 * s)) <= U * (41 / 10)).
  { unfold c', fsub. pose proof (G c2 c B2 Bc) as G1. pose proof (G s2 s D2 Bs) as G2. pose proof (F c2 c B2 Bc) as K2. pose proof (F s2 s D2 Bs) as K3.
    set (p := fmul c2 c) in *. set (q := fmul s2 s) in *.
    assert (K : Rabs (p - q) <= 2 + 8 / 1000) by (unfold Rminus; eapply Rle_trans; [apply Rabs_triang|]; rewrite Rabs_Ropp; lra).
    pose proof (rnd_bound _ _ K) as K1.
    replace (rnd (p - q) - (c2 * c - s2 * s)) with ((rnd (p - q) - (p - q)) + (p - c2 * c) + - (q - s2 * s)) by ring.
    eapply Rle_trans; [apply Rabs_triang|]. rewrite Rabs_Ropp. eapply Rle_trans; [apply Rplus_le_compat_r, Rabs_triang|]. lra. }
  assert (R2 : Rabs (s' - (s2 * c + c2 * s)) <= U * (41 / 10)).
  { unfold s', fadd. pose proof (G s2 c D2 Bc) as G1. pose proof (G c2 s B2 Bs) as G2. pose proof (F s2 c D2 Bc) as K2. pose proof (F c2 s B2 Bs) as K3.
    set (p := fmul s2 c) in *. set (q := fmul c2 s) in *.
    assert (K : Rabs (p + q) <= 2 + 8 / 1000) by (eapply Rle_trans; [apply Rabs_triang|]; lra).
    pose proof (rnd_bound _ _ K) as K1.
    replace (rnd (p + q) - (s2 * c + c2 * s)) with ((rnd (p + q) - (p + q)) + (p - s2 * c) + (q - c2 * s)) by ring.
    eapply Rle_trans; [apply Rabs_triang|]. eapply Rle_trans; [apply Rplus_le_compat_r, Rabs_triang|]. lra. }
  set (d1 := c2 - cos t) in *. set (d2 := s2 - sin t) in *.
  assert (T : forall d z, Rabs d <= 2 * U -> Rabs z <= 1 + / 1000 -> Rabs (d * z) <= U * (2 + 2 / 1000)).
  { intros d z A B. rewrite Rabs_mult. apply Rle_trans with (2 * U * (1 + / 1000)); [|lra]. apply Rmult_le_compat; try apply Rabs_pos; assumption. }
  set (p1 := d1 * c - d2 * s + (c' - (c2 * c - s2 * s))). set (p2 := d2 * c + d1 * s + (s' - (s2 * c + c2 * s))).
  assert (P1 : Rabs p1 <= U * (82 / 10)).
  { unfold p1. eapply Rle_trans; [apply Rabs_triang|]. pose proof (Rabs_triang (d1 * c) (- (d2 * s))) as X. rewrite Rabs_Ropp in X.
    pose proof (T d1 c Hc Bc). pose proof (T d2 s Hs Bs). unfold Rminus at 1. lra. }
  assert (P2 : Rabs p2 <= U * (82 / 10)).
  { unfold p2. eapply Rle_trans; [apply Rabs_triang|]. pose proof (Rabs_triang (d2 * c) (d1 * s)) as X.
    pose proof (T d2 c Hs Bc). pose proof (T d1 s Hc Bs). lra. }
  replace (c' - C') with ((cos t * (c - C) - sin t * (s - S)) + p1) by (unfold p1, C', d1, d2; ring).
  replace (s' - S') with ((sin t * (c - C) + cos t * (s - S)) + p2) by (unfold p2, S', d1, d2; ring).
  apply triangle2; [lra|lra| |].
  - pose proof (sin2_cos2 t) as X. unfold Rsqr in X.
    replace ((cos t * (c - C) - sin t * (s - S)) * (cos t * (c - C) - sin t * (s - S)) + (sin t * (c - C) + cos t * (s - S)) * (sin t * (c - C) + cos t * (s - S)))
      with ((sin t * sin t + cos t * cos t) * ((c - C) * (c - C) + (s - S) * (s - S))) by ring. rewrite X. lra.
  - apply sq_abs in P1, P2. nra.
Qed.

(** One term of the series. *)
Lemma term_err a b c s C S E : Rabs (c - C) <= E -> Rabs (s - S) <= E -> Rabs C <= 1 -> Rabs S <= 1 -> E <= / 1000 ->
  Rabs (fadd (fmul a c) (fmul b s) - (a * C + b * S)) <= (Rabs a + Rabs b) * (E + 3 * U) + 4 * (U * U).
Proof.
  intros Hc Hs HC HS HE. pose proof Up as U0. pose proof Us as U1. pose proof (Rabs_pos a) as A0. pose proof (Rabs_pos b) as B0.
  assert (Bc : Rabs c <= 1 + / 1000) by (replace c with (C + (c - C)) by ring; eapply Rle_trans; [apply Rabs_triang|lra]).
  assert (Bs : Rabs s <= 1 + / 1000) by (replace s with (S + (s - S)) by ring; eapply Rle_trans; [apply Rabs_triang|lra]).
  assert (P1 : Rabs (a * c) <= Rabs a * (1 + / 1000)) by (rewrite Rabs_mult; apply Rmult_le_compat_l; lra).
  assert (P2 : Rabs (b * s) <= Rabs b * (1 + / 1000)) by (rewrite Rabs_mult; apply Rmult_le_compat_l; lra).
  pose proof (rnd_bound _ _ P1) as F1. pose proof (rnd_bound _ _ P2) as F2. fold (fmul a c) in F1. fold (fmul b s) in F2.
  set (p := fmul a c) in *. set (q := fmul b s) in *.
  assert (UU : U * U <= U * / 1000000) by (apply Rmult_le_compat_l; lra).
  set (w := Rabs a + Rabs b). assert (W0 : 0 <= w) by (unfold w; lra).
  assert (Uw : U * w <= w * / 1000000) by (rewrite Rmult_comm; apply Rmult_le_compat_l; lra).
  assert (UW0 : 0 <= U * w) by (apply Rmult_le_pos; lra).
  assert (Sab : U * (Rabs a * (1 + / 1000)) + U * (Rabs b * (1 + / 1000)) = U * w * (1 + / 1000)) by (unfold w; ring).
  assert (K : Rabs (p + q) <= w * (1 + 2 / 1000) + 2 * (U * U)).
  { replace (p + q) with ((p - a * c) + (q - b * s) + (a * c + b * s)) by ring. eapply Rle_trans; [apply Rabs_triang|].
    pose proof (Rabs_triang (p - a * c) (q - b * s)). pose proof (Rabs_triang (a * c) (b * s)). unfold w in *. lra. }
  pose proof (rnd_bound _ _ K) as F3. fold (fadd p q) in F3.
  assert (E1 : Rabs (a * (c - C)) <= Rabs a * E) by (rewrite Rabs_mult; apply Rmult_le_compat_l; lra).
  assert (E2 : Rabs (b * (s - S)) <= Rabs b * E) by (rewrite Rabs_mult; apply Rmult_le_compat_l; lra).
  replace (fadd p q - (a * C + b * S)) with ((fadd p q - (p + q)) + ((p - a * c) + (q - b * s)) + (a * (c - C) + b * (s - S))) by ring.
  eapply Rle_trans; [apply Rabs_triang|]. eapply Rle_trans; [apply Rplus_le_compat_r, Rabs_triang|].
  pose proof (Rabs_triang (p - a * c) (q - b * s)). pose proof (Rabs_triang (a * (c - C)) (b * (s - S))).
  assert (U3 : U * (2 * (U * U)) <= U * U * (2 / 1000000)) by (replace (U * (2 * (U * U))) with (U * U * (2 * U)) by ring; apply Rmult_le_compat_l; [nra|lra]).
  assert (UU0 : 0 <= U * U) by nra.
  replace (U * (w * (1 + 2 / 1000) + 2 * (U * U))) with (U * w * (1 + 2 / 1000) + U * (2 * (U * U))) in F3 by ring.
  replace (w * (E + 3 * U)) with (Rabs a * E + Rabs b * E + 3 * (U * w)) by (unfold w; ring). lra.
Qed.

Definition weight (c : list R) (k : nat) : R := rsum (fun i => Rabs (co c (2 * i)) + Rabs (co c (2 * i + 1))) k.
Lemma weight_pos c k : 0 <= weight c k.
Proof. induction k as [|k IH]; [cbn; lra|]. change (weight c (S k)) with (weight c k + (Rabs (co c (2 * k)) + Rabs (co c (2 * k + 1)))).
  pose proof (Rabs_pos (co c (2 * k))). pose proof (Rabs_pos (co c (2 * k + 1))). lra. Qed.
Lemma unit_bounds t k : Rabs (cos (INR k * t)) <= 1 /\ Rabs (sin (INR k * t)) <= 1.
Proof. pose proof (COS_bound (INR k * t)). pose proof (SIN_bound (INR k * t)). split; apply Rabs_le; lra. Qed.
Lemma fourier_weight c k t : Rabs (fourier c k t) <= weight c k.
Proof.
  induction k as [|k IH]; [cbn; rewrite Rabs_R0; lra|].
  change (weight c (S k)) with (weight c k + (Rabs (co c (2 * k)) + Rabs (co c (2 * k + 1)))).
  change (fourier c (S k) t) with (fourier c k t + (co c (2 * k) * cos (INR k * t) + co c (2 * k + 1) * sin (INR k * t))).
  eapply Rle_trans; [apply Rabs_triang|]. apply Rplus_le_compat; [exact IH|]. eapply Rle_trans; [apply Rabs_triang|].
  destruct (unit_bounds t k). rewrite !Rabs_mult. pose proof (Rabs_pos (co c (2 * k))). pose proof (Rabs_pos (co c (2 * k + 1))). nra.
Qed.

Lemma sum_step v V T tr k w W : 0 <= k <= 2147483648 -> 0 <= w -> 0 <= W -> Rabs V <= W -> Rabs T <= w ->
  Rabs (v - V) <= 14 * k * U * W + 8 * k * (U * U) -> Rabs (tr - T) <= w * (12 * k * U + 3 * U) + 4 * (U * U) ->
  Rabs (fadd v tr - (V + T)) <= 14 * (k + 1) * U * (W + w) + 8 * (k + 1) * (U * U).
Proof.
  intros Hk Hw HW HV HT H1 H2. pose proof Up as U0. pose proof Us as U1.
  assert (KU : 0 <= k * U <= / 1000000). { split; [apply Rmult_le_pos; lra|]. apply Rle_trans with (2147483648 * U); [apply Rmult_le_compat_r; lra|unfold U; lra]. }
  assert (UU0 : 0 <= U * U) by nra. assert (UU : U * U <= U * / 1000000) by (apply Rmult_le_compat_l; lra).
  assert (X1 : 0 <= k * U * W <= / 1000000 * W) by (split; [apply Rmult_le_pos; lra|apply Rmult_le_compat_r; lra]).
  assert (X2 : 0 <= k * U * w <= / 1000000 * w) by (split; [apply Rmult_le_pos; lra|apply Rmult_le_compat_r; lra]).
  assert (X3 : 0 <= k * (U * U) <= / 1000000 * U). { replace (k * (U * U)) with (k * U * U) by ring. split; [apply Rmult_le_pos; lra|apply Rmult_le_compat_r; lra]. }
  assert (Y1 : 0 <= U * W <= / 1000000 * W) by (split; [apply Rmult_le_pos; lra|apply Rmult_le_compat_r; lra]).
  assert (Y2 : 0 <= U * w <= / 1000000 * w) by (split; [apply Rmult_le_pos; lra|apply Rmult_le_compat_r; lra]).
  replace (14 * k * U * W) with (14 * (k * U * W)) in H1 by ring. replace (8 * k * (U * U)) with (8 * (k * (U * U))) in H1 by ring.
  replace (w * (12 * k * U + 3 * U)) with (12 * (k * U * w) + 3 * (U * w)) in H2 by ring.
  assert (B : Rabs (v + tr) <= (W + w) * (1 + / 1000) + / 1000 * U).
  { replace (v + tr) with ((v - V) + (tr - T) + (V + T)) by ring. eapply Rle_trans; [apply Rabs_triang|].
    pose proof (Rabs_triang (v - V) (tr - T)). pose proof (Rabs_triang V T). lra. }
  pose proof (rnd_bound _ _ B) as F. fold (fadd v tr) in F.
  replace (U * ((W + w) * (1 + / 1000) + / 1000 * U)) with ((1 + / 1000) * (U * W) + (1 + / 1000) * (U * w) + / 1000 * (U * U)) in F by ring.
  replace (fadd v tr - (V + T)) with ((fadd v tr - (v + tr)) + ((v - V) + (tr - T))) by ring.
  eapply Rle_trans; [apply Rabs_triang|]. pose proof (Rabs_triang (v - V) (tr - T)).
  replace (14 * (k + 1) * U * (W + w)) with (14 * (k * U * W) + 14 * (U * W) + 14 * (k * U * w) + 14 * (U * w)) by ring.
  replace (8 * (k + 1) * (U * U)) with (8 * (k * (U * U)) + 8 * (U * U)) by ring. lra.
Qed.

Lemma fourierf_loop_err c t c2 s2 : Rabs (c2 - cos t) <= 2 * U -> Rabs (s2 - sin t) <= 2 * U -> forall f k x y v,
  (2 * (k + f) <= length c)%nat -> INR (k + f) <= 2147483648 ->
  (x - cos (INR k * t)) * (x - cos (INR k * t)) + (y - sin (INR k * t)) * (y - sin (INR k * t)) <= (12 * INR k * U) * (12 * INR k * U) ->
  Rabs (v - fourier c k t) <= 14 * INR k * U * weight c k + 8 * INR k * (U * U) ->
  exists r, fourierf_loop f k c c2 s2 x y v = Ret r /\
    Rabs (r - fourier c (k + f) t) <= 14 * INR (k + f) * U * weight c (k + f) + 8 * INR (k + f) * (U * U).
Proof.
  intros Hc Hs. induction f as [|f IH]; intros k x y v Hl Hk HQ Hv; cbn [fourierf_loop].
  - exists v. rewrite Nat.add_0_r. split; [reflexivity|exact Hv].
  - rewrite !vread_co by lia. cbn [obind]. replace (k + S f)%nat with (S k + f)%nat in * by lia.
    assert (Kk : 0 <= INR k <= 2147483648). { split; [apply pos_INR|]. eapply Rle_trans; [apply le_INR|exact Hk]. lia. }
    pose proof Up as U0. set (E := 12 * INR k * U) in *.
    assert (HE : 0 <= E <= / 1000). { unfold E. split; [apply Rmult_le_pos; lra|]. apply Rle_trans with (12 * 2147483648 * U); [apply Rmult_le_compat_r; lra|unfold U; lra]. }
    pose proof (sin2_cos2 (INR k * t)) as One. unfold Rsqr in One. destruct (unit_bounds t k) as [BC BS].
    assert (Ex : Rabs (x - cos (INR k * t)) <= E) by (apply abs_sq; [lra|]; assert (0 <= (y - sin (INR k * t)) * (y - sin (INR k * t))) by apply Rle_0_sqr; lra).
    assert (Ey : Rabs (y - sin (INR k * t)) <= E) by (apply abs_sq; [lra|]; assert (0 <= (x - cos (INR k * t)) * (x - cos (INR k * t))) by apply Rle_0_sqr; lra).
    apply IH; [lia|exact Hk| |].
    + replace (cos (INR (S k) * t)) with (cos t * cos (INR k * t) - sin t * sin (INR k * t)) by (rewrite <- cos_plus; f_equal; rewrite S_INR; ring).
      replace (sin (INR (S k) * t)) with (sin t * cos (INR k * t) + cos t * sin (INR k * t)) by (rewrite <- sin_plus; f_equal; rewrite S_INR; ring).
      replace (12 * INR (S k) * U) with (E + 12 * U) by (unfold E; rewrite S_INR; ring).
      apply rotate_step; [exact Hc|exact Hs|lra|exact HE|exact HQ].
    + change (weight c (S k)) with (weight c k + (Rabs (co c (2 * k)) + Rabs (co c (2 * k + 1)))).
      change (fourier c (S k) t) with (fourier c k t + (co c (2 * k) * cos (INR k * t) + co c (2 * k + 1) * sin (INR k * t))).
      rewrite S_INR. pose proof (Rabs_pos (co c (2 * k))). pose proof (Rabs_pos (co c (2 * k + 1))).
      apply sum_step; [exact Kk|lra|apply weight_pos|apply fourier_weight| |exact Hv|].
      * eapply Rle_trans; [apply Rabs_triang|]. rewrite !Rabs_mult. nra.
      * apply (term_err _ _ _ _ _ _ E); try assumption. apply HE.
Qed.

Lemma rsum_shift f m : rsum f (S m) = f O + rsum (fun i => f (S i)) m.
Proof. induction m as [|m IH]; [cbn; lra|]. change (rsum f (S (S m))) with (rsum f (S m) + f (S m)). rewrite IH. cbn [rsum]. lra. Qed.
Lemma rsum_ext f g m : (forall i, f i = g i) -> rsum f m = rsum g m.
Proof. intros H. induction m as [|m IH]; [reflexivity|]. cbn [rsum]. now rewrite IH, H. Qed.
Lemma sum_abs_pos l : 0 <= sum_abs l.
Proof. induction l as [|a l IH]; cbn; [lra|]. pose proof (Rabs_pos a). lra. Qed.
Lemma weight_sum : forall m c, (2 * m <= length c)%nat -> weight c m <= sum_abs c.
Proof.
  induction m as [|m IH]; intros c Hl; [apply sum_abs_pos|].
  destruct c as [|a [|b r]]; cbn [length] in Hl; try lia. unfold weight. rewrite rsum_shift. cbn [sum_abs].
  rewrite (rsum_ext _ (fun i => Rabs (co r (2 * i)) + Rabs (co r (2 * i + 1)))).
  - change (Rabs a + Rabs b + weight r m <= Rabs a + (Rabs b + sum_abs r)). specialize (IH r ltac:(lia)). lra.
  - intros i. replace (2 * S i)%nat with (S (S (2 * i))) by lia. reflexivity.
Qed.

Lemma evaluateFourierf_lemma c t c2 s2 : (Z.of_nat (length c) <= 2 ^ 32)%Z -> Rabs (c2 - cos t) <= powerRZ 2 (-52) -> Rabs (s2 - sin t) <= powerRZ 2 (-52) ->
  exists r, evaluateFourierf c c2 s2 = Ret r /\
    Rabs (r - fourier c (length c / 2) t) <= 14 * INR (length c / 2) * powerRZ 2 (-53) * sum_abs c + 8 * INR (length c / 2) * powerRZ 2 (-106).
Proof.
  intros Hl Hc Hs. assert (P52 : powerRZ 2 (-52) = 2 * U) by (rewrite <- (Flocq.Core.Raux.bpow_powerRZ Flocq.Core.Zaux.radix2); unfold U; cbn; lra).
  assert (P106 : powerRZ 2 (-106) = U * U) by (rewrite <- (Flocq.Core.Raux.bpow_powerRZ Flocq.Core.Zaux.radix2); unfold U; cbn; lra).
  rewrite P52 in Hc, Hs. rewrite P106, <- U_eq. unfold evaluateFourierf. set (m := (length c / 2)%nat).
  assert (Hm : (2 * m <= length c)%nat) by apply half_le.
  destruct (fourierf_loop_err c t c2 s2 Hc Hs m 0 1 0 0) as (r & E & H).
  - exact Hm.
  - cbn [Nat.add]. rewrite INR_IZR_INZ. apply IZR_le. lia.
  - cbn [INR]. rewrite Rmult_0_l, cos_0, sin_0. lra.
  - unfold fourier. cbn [rsum INR]. rewrite Rminus_0_r, Rabs_R0. unfold weight. cbn [rsum]. lra.
  - cbn [Nat.add] in H. exists r. split; [exact E|]. eapply Rle_trans; [exact H|]. apply Rplus_le_compat_r, Rmult_le_compat_l; [|apply weight_sum; exact Hm].
    pose proof Up. pose proof (pos_INR m). apply Rmult_le_pos; lra.
Qed.
