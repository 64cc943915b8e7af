(** * The modified Bessel functions of every order: three-term recurrence, bounds of their ratios, comparison with the downward
    recurrence of evaluatePnebiVector. *)
From Coq Require Import Reals Lra Lia List ZArith.
From Coquelicot Require Import Coquelicot.
From Verif Require Import Base FunctionsModel PnebiModel PnebiSpec PnebiProofs PolyBound BesselProofs BesselOde.
Import ListNotations.
Open Scope R_scope.

Definition bk (k m : nat) : R := / (INR (fact m) * INR (fact (m + k))).
Lemma fact_pos m : 0 < INR (fact m). Proof. apply lt_0_INR, lt_O_fact. Qed.
Lemma bk_pos k m : 0 < bk k m.
Proof. apply Rinv_0_lt_compat. apply Rmult_lt_0_compat; apply fact_pos. Qed.
Lemma fact_S m : INR (fact (S m)) = INR (S m) * INR (fact m).
Proof. change (fact (S m)) with (S m * fact m)%nat. apply mult_INR. Qed.
Lemma S_posR k : 0 < INR (S k). Proof. apply lt_0_INR; lia. Qed.
Lemma bk_rec k m : bk k m = bk (S k) m * INR (m + S k).
Proof. unfold bk. replace (m + S k)%nat with (S (m + k)) by lia. rewrite fact_S. pose proof (fact_pos m). pose proof (fact_pos (m + k)). pose proof (S_posR (m + k)). field. lra. Qed.
Lemma bk_S k m : bk k (S m) * INR (S m) = bk (S k) m.
Proof. unfold bk. replace (S m + k)%nat with (m + S k)%nat by lia. rewrite fact_S. pose proof (fact_pos m). pose proof (fact_pos (m + S k)). pose proof (S_posR m). field. lra. Qed.
Lemma fact_split m k : (fact m * fact k <= fact (m + k))%nat.
Proof. induction m as [|m IH]; cbn [fact Nat.add]; [lia|]. pose proof (lt_O_fact (m + k)). nia. Qed.
Lemma bk_le k m : bk k m <= ba m * / INR (fact k).
Proof.
  unfold bk, ba. rewrite <- Rinv_mult. pose proof (fact_pos m). pose proof (fact_pos k). pose proof (fact_pos (m + k)).
  pose proof (le_INR _ _ (fact_split m k)) as L. rewrite mult_INR in L. apply Rinv_le_contravar; [apply Rmult_lt_0_compat; [nra|lra]|]. nra.
Qed.
Lemma bk_series k q : 0 <= q -> ex_series (fun m => bk k m * q ^ m).
Proof.
  intros Hq. apply (ex_series_le (V := R_CompleteNormedModule) _ (fun m => / INR (fact k) * (ba m * q ^ m))).
  - intros m. change (norm (bk k m * q ^ m)) with (Rabs (bk k m * q ^ m)). pose proof (bk_pos k m). pose proof (pow_le q m Hq). rewrite Rabs_right by (apply Rle_ge; nra). pose proof (bk_le k m). nra.
  - apply (ex_series_scal_l (K := R_AbsRing) (/ INR (fact k)) (fun m => ba m * q ^ m)). pose proof (CV_radius_inside ba q (ba_radius q)) as E. unfold ex_pseries in E. eapply ex_series_ext; [|exact E]. intros m. cbn -[pow]. rewrite pow_n_pow. unfold scal; cbn -[pow]; unfold mult; cbn -[pow]. ring.
Qed.
Definition Fk (k : nat) (q : R) : R := Series (fun m => bk k m * q ^ m).
Lemma Fk_pos k q : 0 <= q -> / INR (fact k) <= Fk k q.
Proof.
  intros Hq. unfold Fk. rewrite Series_incr_1 by (now apply bk_series).
  assert (N : 0 <= Series (fun m => bk k (S m) * q ^ S m)); [|assert (Z : bk k 0 * q ^ 0 = / INR (fact k)) by (unfold bk; cbn [fact pow Nat.add INR]; rewrite Rmult_1_l, Rmult_1_r; reflexivity); rewrite Z; lra].
  rewrite <- (Rmult_0_l (Series (fun _ => 0))). rewrite <- Series_scal_l. apply Series_le.
  - intros m. rewrite Rmult_0_l. split; [lra|]. pose proof (bk_pos k (S m)). pose proof (pow_le q (S m) Hq). nra.
  - apply (ex_series_incr_1 (fun m => bk k m * q ^ m)). now apply bk_series.
Qed.
Lemma Fk_le k q : 0 <= q -> Fk k q <= Fk 0 q / INR (fact k).
Proof.
  intros Hq. unfold Fk, Rdiv. rewrite Rmult_comm, <- Series_scal_l. apply Series_le.
  - intros m. pose proof (bk_pos k m). pose proof (pow_le q m Hq) as P. split; [nra|]. pose proof (bk_le k m) as B. unfold bk at 2. rewrite Nat.add_0_r. fold (ba m). nra.
  - apply (ex_series_scal_l (K := R_AbsRing) (/ INR (fact k)) (fun m => bk 0 m * q ^ m)). now apply bk_series.
Qed.
Lemma Fk_rec k q : 0 <= q -> Fk k q = q * Fk (S (S k)) q + INR (S k) * Fk (S k) q.
Proof.
  intros Hq. unfold Fk. rewrite <- !Series_scal_l. rewrite (Series_incr_1 (fun m => bk k m * q ^ m)) by (now apply bk_series). rewrite (Series_incr_1 (fun m => INR (S k) * (bk (S k) m * q ^ m))).
  2:{ apply (ex_series_scal_l (K := R_AbsRing) (INR (S k)) (fun m => bk (S k) m * q ^ m)). now apply bk_series. }
  assert (Z : bk k 0 * q ^ 0 = INR (S k) * (bk (S k) 0 * q ^ 0)) by (rewrite (bk_rec k 0); cbn [Nat.add]; ring). rewrite Z.
  rewrite (Rplus_comm (Series _) (_ + _)), Rplus_assoc. f_equal. rewrite <- Series_plus.
  - apply Series_ext. intros m. rewrite (bk_rec k (S m)). replace (S m + S k)%nat with (S m + (k + 1))%nat by lia. rewrite plus_INR, (plus_INR k 1), (S_INR k). rewrite <- (bk_S (S k) m). cbn [pow INR]. ring.
  - apply (ex_series_incr_1 (fun m => INR (S k) * (bk (S k) m * q ^ m))). apply (ex_series_scal_l (K := R_AbsRing) (INR (S k)) (fun m => bk (S k) m * q ^ m)). now apply bk_series.
  - apply (ex_series_scal_l (K := R_AbsRing) q (fun m => bk (S (S k)) m * q ^ m)). now apply bk_series.
Qed.
(** J k x = I_k x *)
Definition J (k : nat) (x : R) : R := (x / 2) ^ k * Fk k (x * x / 4).
Lemma q_nonneg x : 0 <= x * x / 4. Proof. pose proof (Rle_0_sqr x) as H. unfold Rsqr in H. lra. Qed.
Lemma J_rec k x : 0 < x -> J k x = J (S (S k)) x + 2 * INR (S k) / x * J (S k) x.
Proof. intros Hx. unfold J. rewrite (Fk_rec k _ (q_nonneg x)). cbn [pow]. field. lra. Qed.
Lemma J_pos k x : 0 < x -> 0 < J k x.
Proof. intros Hx. unfold J. apply Rmult_lt_0_compat; [apply pow_lt; lra|]. eapply Rlt_le_trans; [|apply Fk_pos, q_nonneg]. apply Rinv_0_lt_compat, fact_pos. Qed.
Lemma J_le k x : 0 < x -> J k x <= J 0 x * ((x / 2) ^ k / INR (fact k)).
Proof. intros Hx. unfold J. cbn [pow]. pose proof (Fk_le k _ (q_nonneg x)) as L. pose proof (pow_lt (x / 2) k ltac:(lra)) as P. unfold Rdiv in *. rewrite Rmult_1_l. nra. Qed.
Lemma besselI_J k x s : besselI k x s -> s = J k x.
Proof.
  intros H. unfold J, Fk. rewrite <- Series_scal_l. symmetry. apply is_series_unique. apply is_series_Reals. intros e He. destruct (H e He) as (N & HN). exists N. intros n Hn.
  specialize (HN n Hn). erewrite sum_eq; [exact HN|]. intros i _. cbn -[pow Nat.mul]. unfold bk. rewrite pow_add, pow_mult. replace ((x / 2) ^ 2) with (x * x / 4) by (cbn; field). unfold Rdiv. ring.
Qed.
Lemma besselI_exists k x : exists s, besselI k x s.
Proof.
  exists (J k x). assert (E : is_series (fun m => (x / 2) ^ k * (bk k m * (x * x / 4) ^ m)) (J k x)).
  { unfold J, Fk. apply (is_series_scal_l (K := R_AbsRing) (V := R_NormedModule) ((x / 2) ^ k) (fun m => bk k m * (x * x / 4) ^ m) (Series (fun m => bk k m * (x * x / 4) ^ m))). apply Series_correct, bk_series, q_nonneg. }
  apply is_series_Reals in E. intros e He. destruct (E e He) as (N & HN). exists N. intros n Hn. specialize (HN n Hn). erewrite sum_eq; [exact HN|]. intros i _. cbn -[pow Nat.mul]. unfold bk. rewrite pow_add, pow_mult. replace ((x / 2) ^ 2) with (x * x / 4) by (cbn; field). unfold Rdiv. ring.
Qed.
Lemma J0 x : J 0 x = I0 x.
Proof.
  unfold J, I0, F0, Fk, PSeries. cbn [pow]. rewrite Rmult_1_l. apply Series_ext. intros m. unfold bk, ba. rewrite Nat.add_0_r. reflexivity.
Qed.
Lemma J1 x : J 1 x = I1 x.
Proof.
  unfold J, I1, F1, Fk, PSeries. cbn [pow]. rewrite Rmult_1_r. f_equal. apply Series_ext. intros m. f_equal. unfold bk, ba, PS_derive. replace (m + 1)%nat with (S m) by lia. rewrite !fact_S. pose proof (fact_pos m). pose proof (S_posR m). field. lra.
Qed.

(** ** The downward recurrence against the true functions *)
Section Down.
  Variables (x : R) (m : nat) (w : nat -> R).
  Hypothesis (Hx : 0 < x) (Hm : Nat.Even m) (Hw : downward x m w) (Pw : forall k, (k <= m)%nat -> 0 < w k).
  (** |D k| with the sign of (-1)^k taken off *)
  Let D (k : nat) : R := (-1) ^ k * (w k * J 0 x - w 0%nat * J k x).
  Lemma D0 : D 0 = 0. Proof. unfold D. ring. Qed.
  Lemma D_rec k : (k < m)%nat -> D (S (S k)) = D k + 2 * INR (S k) / x * D (S k).
  Proof.
    intros Hk. unfold D. rewrite (J_rec k x Hx). destruct Hw as (_ & W). specialize (W (S k) ltac:(lia)). replace (S k - 1)%nat with k in W by lia. replace (S k + 1)%nat with (S (S k)) in W by lia. rewrite W. cbn [pow]. ring.
  Qed.
  Lemma D_end : D (S m) = w 0%nat * J (S m) x.
  Proof. unfold D. destruct Hw as (W & _). rewrite W. destruct Hm as (j & ->). replace (S (2 * j)) with (2 * j + 1)%nat by lia. rewrite pow_add, pow_1_even. ring. Qed.
  Lemma coef k : 0 < 2 * INR (S k) / x. Proof. pose proof (S_posR k). apply Rdiv_lt_0_compat; lra. Qed.
  (** all the D k with k >= 1 have the sign of D 1 *)
  Lemma D_sign s k : (s = 1 \/ s = -1) -> 0 <= s * D 1 -> (k <= m)%nat -> 0 <= s * D k /\ 0 <= s * D (S k).
  Proof.
    intros Hs H1. induction k as [|k IH]; intros Hk; [rewrite D0; split; [lra|exact H1]|]. destruct (IH ltac:(lia)) as (A & B). split; [exact B|]. rewrite D_rec by lia. pose proof (coef k). rewrite Rmult_plus_distr_l.
    replace (s * (2 * INR (S k) / x * D (S k))) with (2 * INR (S k) / x * (s * D (S k))) by ring. nra.
  Qed.
  Lemma D_nonneg k : (k <= S m)%nat -> 0 <= D k.
  Proof.
    assert (H1 : 0 <= D 1).
    { destruct (Rle_lt_dec 0 (D 1)) as [|L]; [assumption|]. destruct (D_sign (-1) m ltac:(now right) ltac:(lra) ltac:(lia)) as (_ & A). rewrite D_end in A. pose proof (Pw 0%nat ltac:(lia)). pose proof (J_pos (S m) x Hx). nra. }
    intros Hk. destruct k as [|k]; [rewrite D0; lra|]. destruct (D_sign 1 k ltac:(now left) ltac:(lra) ltac:(lia)). lra.
  Qed.
  Lemma D_step k : (1 <= k <= m)%nat -> D k <= D (S k) * (x / 2) / INR k.
  Proof.
    intros Hk. destruct k as [|k]; [lia|]. rewrite D_rec by lia. pose proof (D_nonneg k ltac:(lia)). pose proof (S_posR k) as P.
    replace ((D k + 2 * INR (S k) / x * D (S k)) * (x / 2) / INR (S k)) with (D k * (x / 2) / INR (S k) + D (S k)) by (field; lra).
    assert (0 <= D k * (x / 2) / INR (S k)); [|lra]. apply Rmult_le_pos; [nra|]. left. now apply Rinv_0_lt_compat.
  Qed.
  Lemma D_bound j : forall k, (1 <= k)%nat -> (k + j = S m)%nat -> D k <= w 0%nat * J (S m) x * ((x / 2) ^ j * INR (fact (k - 1)) / INR (fact m)).
  Proof.
    induction j as [|j IH]; intros k Hk E.
    - replace k with (S m) by lia. rewrite D_end. replace (S m - 1)%nat with m by lia. cbn [pow]. pose proof (fact_pos m). right. field. lra.
    - pose proof (D_step k ltac:(lia)) as S1. specialize (IH (S k) ltac:(lia) ltac:(lia)). replace (S k - 1)%nat with k in IH by lia. assert (P : 0 < INR k) by (apply lt_0_INR; lia).
      assert (Fk' : INR (fact k) = INR k * INR (fact (k - 1))) by (destruct k; [lia|]; rewrite fact_S; f_equal; f_equal; f_equal; lia). rewrite Fk' in IH. pose proof (fact_pos m).
      eapply Rle_trans; [exact S1|]. assert (0 < x / 2 / INR k) by (apply Rdiv_lt_0_compat; lra). replace (D (S k) * (x / 2) / INR k) with (D (S k) * (x / 2 / INR k)) by (unfold Rdiv; ring).
      eapply Rle_trans; [apply Rmult_le_compat_r; [lra|exact IH]|]. right. cbn [pow]. field. lra.
  Qed.
  Lemma ratio_bounds k : (1 <= k <= m)%nat -> 0 <= (-1) ^ k * (w k / w 0%nat - J k x / J 0 x) <= (x / 2) ^ (2 * m + 2 - k) * INR (fact (k - 1)) / (INR (fact m) * INR (fact (S m))).
  Proof.
    intros Hk. pose proof (Pw 0%nat ltac:(lia)) as P0. pose proof (J_pos 0 x Hx) as Q0. pose proof (D_nonneg k ltac:(lia)) as N. pose proof (D_bound (S m - k) k ltac:(lia) ltac:(lia)) as B.
    assert (E : (-1) ^ k * (w k / w 0%nat - J k x / J 0 x) = D k / (w 0%nat * J 0 x)) by (unfold D; field; lra). rewrite E. assert (PP : 0 < w 0%nat * J 0 x) by nra.
    split; [apply Rmult_le_pos; [exact N|left; now apply Rinv_0_lt_compat]|]. apply (Rmult_le_reg_r (w 0%nat * J 0 x)); [exact PP|]. unfold Rdiv at 1. rewrite Rmult_assoc, Rinv_l, Rmult_1_r by lra.
    eapply Rle_trans; [exact B|]. pose proof (J_le (S m) x Hx) as L. pose proof (fact_pos m). pose proof (fact_pos (S m)). pose proof (fact_pos (k - 1)).
    set (c := (x / 2) ^ (S m - k) * INR (fact (k - 1)) / INR (fact m)). assert (0 < c) by (unfold c; apply Rdiv_lt_0_compat; [apply Rmult_lt_0_compat; [apply pow_lt; lra|lra]|lra]).
    apply (Rle_trans _ (w 0%nat * (J 0 x * ((x / 2) ^ S m / INR (fact (S m)))) * c)); [apply Rmult_le_compat_r; [lra|]; apply Rmult_le_compat_l; lra|].
    right. unfold c. replace (2 * m + 2 - k)%nat with (S m + (S m - k))%nat by lia. rewrite pow_add. field. lra.
  Qed.
End Down.

Lemma start_even n : Nat.Even (pnebi_start n). Proof. exists (n + Nat.sqrt (40 * n))%nat. reflexivity. Qed.
Lemma order_ratio n x v y k s0 sk : 1 / 1000000 <= Rabs x -> (Z.of_nat (pnebi_start n) < 2 ^ 31)%Z -> evaluatePnebiVector n x v = Ret y -> (1 <= k <= n)%nat ->
  besselI 0 (Rabs x) s0 -> besselI k (Rabs x) sk -> 0 < at_ y 0 /\ 0 < s0 /\
  0 <= (-1) ^ k * (at_ y k / at_ y 0 - sk / s0) <= (Rabs x / 2) ^ (2 * pnebi_start n + 2 - k) * INR (fact (k - 1)) / (INR (fact (pnebi_start n)) * INR (fact (S (pnebi_start n)))).
Proof.
  intros Hx Hs E Hk B0 Bk. destruct (pnebi_large n x v Hx Hs) as (y' & w & E' & _ & W & W0 & P & Hn & A). rewrite E in E'. injection E' as <-. rewrite !A by lia. rewrite (besselI_J _ _ _ B0), (besselI_J _ _ _ Bk).
  assert (0 < Rabs x) by lra. split; [apply P; lia|]. split; [now apply J_pos|]. apply ratio_bounds; [assumption|apply start_even|assumption|exact P|lia].
Qed.

(** ** A rational bound of I1 / I0 *)
(** ** A rational bound of I1 / I0 *)
Definition hden (x : R) : R := x * x + 3 / 4 * x + 1 / 2.
Definition hb (x : R) : R := (x * x + x / 4) / hden x.
Lemma hden_pos x : 0 < hden x. Proof. unfold hden. pose proof (Rle_0_sqr (x + 3 / 8)) as H. unfold Rsqr in H. nra. Qed.
Definition hb1 (x : R) : R := (x * x / 2 + x + 1 / 8) / (hden x * hden x).
Lemma hb_deriv x : is_derive hb x (hb1 x).
Proof. unfold hb, hb1. pose proof (hden_pos x) as P. unfold hden in *. auto_derive; [lra|]. field. lra. Qed.
Lemma hb_cont x : continuous hb x.
Proof. apply (ex_derive_continuous (K := R_AbsRing) (V := R_NormedModule)). eexists. apply hb_deriv. Qed.
Lemma hb_int a b : ex_RInt hb a b.
Proof. apply (ex_RInt_continuous (V := R_CompleteNormedModule)). intros z _. apply hb_cont. Qed.
Definition hint (x : R) : R := RInt hb 0 x.
Lemma hint_deriv x : is_derive hint x (hb x).
Proof. apply (is_derive_RInt (V := R_NormedModule) hb hint 0 x); [|apply hb_cont]. exists (mkposreal 1 Rlt_0_1). intros y _. apply (RInt_correct (V := R_CompleteNormedModule)), hb_int. Qed.
Lemma xI1_deriv x : is_derive (fun t => t * I1 t) x (x * I0 x).
Proof.
  apply (is_derive_ext (fun t => t * t / 2 * F1 (t * t / 4))); [intros t; unfold I1; apply (Rmult_eq_reg_r 2); [|lra]; change (t * t / 2 * F1 (t * t / 4) * 2 = t * (t / 2 * F1 (t * t / 4)) * 2); field|].
  assert (E : is_derive (fun t => F1 (t * t / 4)) x (x / 2 * PSeries (PS_derive (PS_derive ba)) (x * x / 4))).
  { apply (is_derive_comp F1 (fun t => t * t / 4) x); [apply F1_deriv|]. auto_derive; [easy|field]. }
  replace (x * I0 x) with (x * F1 (x * x / 4) + x * x / 2 * (x / 2 * PSeries (PS_derive (PS_derive ba)) (x * x / 4))) by (unfold I0; rewrite <- F_ode; field).
  apply (is_derive_mult (fun t => t * t / 2) (fun t => F1 (t * t / 4)) x x); [auto_derive; [easy|field]|exact E|intros; apply Rmult_comm].
Qed.
Definition Vr (x : R) : R := x * hb x * I0 x - x * I1 x.
Lemma Vr_deriv x : is_derive Vr x ((hb x + x * hb1 x) * I0 x + x * hb x * I1 x - x * I0 x).
Proof.
  unfold Vr. apply (is_derive_minus (fun t => t * hb t * I0 t) (fun t => t * I1 t) x); [|apply xI1_deriv].
  apply (is_derive_mult (fun t => t * hb t) I0 x); [|apply I0_deriv|intros; apply Rmult_comm].
  replace (hb x + x * hb1 x) with (1 * hb x + x * hb1 x) by ring. apply (is_derive_mult (fun t => t) hb x); [apply (is_derive_id (K := R_AbsRing))|apply hb_deriv|intros; apply Rmult_comm].
Qed.
Lemma I0_pos x : 0 < I0 x.
Proof. rewrite <- J0. unfold J. cbn [pow]. rewrite Rmult_1_l. eapply Rlt_le_trans; [|apply Fk_pos, q_nonneg]. apply Rinv_0_lt_compat, fact_pos. Qed.
Lemma ratio_le x : 0 < x -> I1 x <= hb x * I0 x.
Proof.
  intros Hx. set (f := fun t => exp (hint t) * Vr t). set (f' := fun t => exp (hint t) * hb t * Vr t + exp (hint t) * ((hb t + t * hb1 t) * I0 t + t * hb t * I1 t - t * I0 t)).
  assert (K : 0 <= f x - f 0).
  { replace 0 with (Rabs ((fun _ => 0) x - (fun _ : R => 0) 0)) at 1 by (cbn; rewrite Rminus_0_r; apply Rabs_R0). apply (grow_le (fun _ => 0) (fun _ => 0) f f'); [lra|intros; apply (is_derive_const (K := R_AbsRing) (V := R_NormedModule))| |].
    - intros t _. unfold f, f'. apply (is_derive_mult (fun t => exp (hint t)) Vr t); [|apply Vr_deriv|intros; apply Rmult_comm].
      replace (exp (hint t) * hb t) with (hb t * exp (hint t)) by ring. apply (is_derive_comp exp hint t); [apply is_derive_exp|apply hint_deriv].
    - intros t Ht. rewrite Rabs_R0. unfold f'. pose proof (exp_pos (hint t)) as Pe. pose proof (I0_pos t) as Pi. pose proof (hden_pos t) as Pd.
      replace (exp (hint t) * hb t * Vr t + exp (hint t) * ((hb t + t * hb1 t) * I0 t + t * hb t * I1 t - t * I0 t)) with (exp (hint t) * I0 t * (hb t + t * hb1 t - t + t * hb t * hb t)) by (unfold Vr; ring).
      apply Rmult_le_pos; [nra|]. replace (hb t + t * hb1 t - t + t * hb t * hb t) with (15 / 16 * (t * t) / (hden t * hden t)).
      + apply Rmult_le_pos; [nra|]. left. apply Rinv_0_lt_compat. nra.
      + unfold hb, hb1. assert (E : hden t = t * t + 3 / 4 * t + 1 / 2) by reflexivity. apply (Rmult_eq_reg_r (hden t * hden t)); [|nra]. field_simplify; [|lra|lra]. rewrite E. field. }
  unfold f in K. replace (Vr 0) with 0 in K by (unfold Vr; ring). rewrite Rmult_0_r, Rminus_0_r in K. pose proof (exp_pos (hint x)).
  assert (V0 : 0 <= Vr x) by (apply (Rmult_le_reg_l (exp (hint x))); lra). unfold Vr in V0. apply (Rmult_le_reg_l x); [exact Hx|]. lra.
Qed.
(** The value of order 1 in a vector. *)
Lemma first_order n x v y : (1 <= n)%nat -> 1 / 1000000 <= Rabs x -> (Z.of_nat (pnebi_start n) < 2 ^ 31)%Z -> evaluatePnebiVector n x v = Ret y ->
  at_ y 0 = evaluatePnebi0Polynom x /\ 0 < at_ y 1 <= hb (Rabs x) * evaluatePnebi0Polynom x.
Proof.
  intros Hn Hx Hs E. destruct (pnebi_large n x v Hx Hs) as (y' & w & E' & _ & W & W0 & P & Hn' & A). rewrite E in E'. injection E' as <-. rewrite !A by lia. split; [exact W0|]. split; [apply P; lia|].
  assert (Px : 0 < Rabs x) by lra. pose proof (ratio_bounds (Rabs x) (pnebi_start n) w Px (start_even n) W P 1 ltac:(lia)) as (B & _). rewrite J0, J1 in B. pose proof (ratio_le _ Px) as R. pose proof (I0_pos (Rabs x)) as Pi. pose proof (P 0%nat ltac:(lia)) as P0.
  rewrite <- W0. assert (I1 (Rabs x) / I0 (Rabs x) <= hb (Rabs x)) by (apply (Rmult_le_reg_r (I0 (Rabs x))); [exact Pi|]; unfold Rdiv; rewrite Rmult_assoc, Rinv_l, Rmult_1_r by lra; exact R).
  assert (w 1%nat / w 0%nat <= hb (Rabs x)) by lra. replace (w 1%nat) with (w 1%nat / w 0%nat * w 0%nat) by (field; lra). apply Rmult_le_compat_r; lra.
Qed.
