(** Proofs about bit manipulation and numeric traits. *)
From Coq Require Import List ZArith Bool Lia ZifyBool.
From Verif Require Import Base BaseLemmas BitsModel BitsSpec.
Import ListNotations.
Open Scope outcome_scope.
Open Scope Z_scope.

Lemma wrap_small w x : 0 <= x < 2 ^ w -> wrap w x = x.
Proof. intros. unfold wrap. now apply Z.mod_small. Qed.

Lemma wrap_range w x : 0 <= w -> 0 <= wrap w x < 2 ^ w.
Proof. intros. unfold wrap. apply Z.mod_pos_bound. lia. Qed.

Lemma swrap_small w x : 0 < w -> - 2 ^ (w - 1) <= x < 2 ^ (w - 1) -> swrap w x = x.
Proof.
  intros Hw H. unfold swrap. assert (2 ^ w = 2 * 2 ^ (w - 1)) by (rewrite <- Z.pow_succ_r by lia; f_equal; lia).
  rewrite Z.mod_small; lia.
Qed.

(** ** nlz *)
Definition lzv (xn : Z * Z) : Z := if fst xn =? 0 then snd xn else snd xn - 1 - Z.log2 (fst xn).

Lemma shiftr_range x s a : 0 <= s <= a -> 0 <= x < 2 ^ a -> 0 <= Z.shiftr x s < 2 ^ (a - s).
Proof.
  intros Hs Hx. rewrite Z.shiftr_div_pow2 by lia. split; [apply Z.div_pos; lia|].
  apply Z.div_lt_upper_bound; [lia|]. rewrite <- Z.pow_add_r by lia. now replace (s + (a - s)) with a by lia.
Qed.

Lemma nlz_step_ok s xn : 0 < s -> 0 <= fst xn < 2 ^ (s + s) ->
  lzv (nlz_step s xn) = lzv xn /\ 0 <= fst (nlz_step s xn) < 2 ^ s.
Proof.
  destruct xn as [x n]; cbn [fst]. intros Hs Hx. unfold nlz_step, lzv. cbn [fst snd].
  pose proof (shiftr_range x s (s + s) ltac:(lia) Hx) as Hr. replace (s + s - s) with s in Hr by lia.
  destruct (Z.eqb_spec (Z.shiftr x s) 0) as [E|E]; cbn [fst snd].
  - split; [auto|]. split; [lia|]. destruct (Z.lt_ge_cases x (2 ^ s)) as [|H]; [auto|].
    rewrite Z.shiftr_div_pow2 in E by lia. pose proof (Z.div_str_pos x (2 ^ s) ltac:(lia)). lia.
  - split; [|auto]. destruct (Z.eqb_spec (Z.shiftr x s) 0); [lia|].
    destruct (Z.eqb_spec x 0) as [->|Hx0]; [rewrite Z.shiftr_0_l in E; lia|].
    rewrite Z.log2_shiftr by lia.
    assert (s <= Z.log2 x).
    { apply Z.log2_le_pow2; [lia|]. destruct (Z.lt_ge_cases x (2 ^ s)) as [H|]; [|auto].
      rewrite Z.shiftr_div_pow2, Z.div_small in E by lia. lia. }
    lia.
Qed.

Lemma nlz_last_ok xn : 0 <= fst xn < 2 ^ 2 -> nlz_last xn = lzv xn.
Proof.
  destruct xn as [x n]; cbn [fst]. intros H. assert (x = 0 \/ x = 1 \/ x = 2 \/ x = 3) as [->|[->|[->| ->]]] by lia;
  unfold nlz_last, lzv; cbn; lia.
Qed.

Lemma nlz8_val x : 0 <= x < 2 ^ 8 -> nlz8 x = lzv (x, 8).
Proof.
  intros H. unfold nlz8. rewrite wrap_small by auto.
  destruct (nlz_step_ok 4 (x, 8)) as [E4 H4]; [lia|exact H|].
  destruct (nlz_step_ok 2 _ ltac:(lia) H4) as [E2 H2].
  rewrite nlz_last_ok by auto. congruence.
Qed.
Lemma nlz16_val x : 0 <= x < 2 ^ 16 -> nlz16 x = lzv (x, 16).
Proof.
  intros H. unfold nlz16. rewrite wrap_small by auto.
  destruct (nlz_step_ok 8 (x, 16)) as [E8 H8]; [lia|exact H|].
  destruct (nlz_step_ok 4 _ ltac:(lia) H8) as [E4 H4].
  destruct (nlz_step_ok 2 _ ltac:(lia) H4) as [E2 H2].
  rewrite nlz_last_ok by auto. congruence.
Qed.
Lemma nlz32_val x : 0 <= x < 2 ^ 32 -> nlz32 x = lzv (x, 32).
Proof.
  intros H. unfold nlz32. rewrite wrap_small by auto.
  destruct (nlz_step_ok 16 (x, 32)) as [E16 H16]; [lia|exact H|].
  destruct (nlz_step_ok 8 _ ltac:(lia) H16) as [E8 H8].
  destruct (nlz_step_ok 4 _ ltac:(lia) H8) as [E4 H4].
  destruct (nlz_step_ok 2 _ ltac:(lia) H4) as [E2 H2].
  rewrite nlz_last_ok by auto. congruence.
Qed.
Lemma nlz64_val x : 0 <= x < 2 ^ 64 -> nlz64 x = lzv (x, 64).
Proof.
  intros H. unfold nlz64. rewrite wrap_small by auto.
  destruct (nlz_step_ok 32 (x, 64)) as [E32 H32]; [lia|exact H|].
  destruct (nlz_step_ok 16 _ ltac:(lia) H32) as [E16 H16].
  destruct (nlz_step_ok 8 _ ltac:(lia) H16) as [E8 H8].
  destruct (nlz_step_ok 4 _ ltac:(lia) H8) as [E4 H4].
  destruct (nlz_step_ok 2 _ ltac:(lia) H4) as [E2 H2].
  rewrite nlz_last_ok by auto. congruence.
Qed.

Lemma log2_lt_w w x : 0 <= x < 2 ^ w -> x <> 0 -> 0 <= Z.log2 x < w.
Proof. intros H Hx. split; [apply Z.log2_nonneg|]. apply Z.log2_lt_pow2; lia. Qed.

Lemma lzv_spec w x : 0 < w -> 0 <= x < 2 ^ w -> leading_zeros w x (lzv (x, w)).
Proof.
  intros Hw Hx. unfold lzv. cbn [fst snd]. destruct (Z.eqb_spec x 0) as [->|Hx0].
  - split; [lia|]. split; [intros; apply Z.testbit_0_l|lia].
  - pose proof (log2_lt_w w x Hx Hx0) as Hl. split; [lia|]. split.
    + intros i Hi. apply Z.bits_above_log2; lia.
    + intros _. replace (w - (w - 1 - Z.log2 x) - 1) with (Z.log2 x) by lia. apply Z.bit_log2. lia.
Qed.

Lemma nlz_lemma : (forall x, 0 <= x < 2 ^ 8 -> leading_zeros 8 x (nlz8 x)) /\ (forall x, 0 <= x < 2 ^ 16 -> leading_zeros 16 x (nlz16 x)) /\
  (forall x, 0 <= x < 2 ^ 32 -> leading_zeros 32 x (nlz32 x)) /\ (forall x, 0 <= x < 2 ^ 64 -> leading_zeros 64 x (nlz64 x)).
Proof.
  split; [|split; [|split]]; intros x Hx.
  - rewrite nlz8_val by auto. apply lzv_spec; [lia|auto].
  - rewrite nlz16_val by auto. apply lzv_spec; [lia|auto].
  - rewrite nlz32_val by auto. apply lzv_spec; [lia|auto].
  - rewrite nlz64_val by auto. apply lzv_spec; [lia|auto].
Qed.

(** ** Smearing *)
Definition smeared (k m y : Z) : Prop :=
  0 <= y /\ (forall i, k < i -> Z.testbit y i = false) /\ (forall i, 0 <= i -> k - m < i <= k -> Z.testbit y i = true).

Lemma smeared_start x : 0 < x -> smeared (Z.log2 x) 1 x.
Proof.
  intros Hx. split; [lia|]. split.
  - intros i Hi. apply Z.bits_above_log2; lia.
  - intros i Hi0 Hi. replace i with (Z.log2 x) by lia. apply Z.bit_log2. lia.
Qed.

Lemma smeared_step k m y : 0 < m -> smeared k m y -> smeared k (m + m) (smear m y).
Proof.
  intros Hm (H0 & H1 & H2). unfold smear. split; [|split].
  - apply Z.lor_nonneg. split; [auto|]. now apply Z.shiftr_nonneg.
  - intros i Hi. rewrite Z.lor_spec, H1 by auto. cbn [orb].
    destruct (Z.lt_ge_cases i 0); [now apply Z.testbit_neg_r|]. rewrite Z.shiftr_spec by auto. apply H1. lia.
  - intros i Hi0 Hi. rewrite Z.lor_spec. destruct (Z.lt_ge_cases (k - m) i).
    + rewrite H2 by lia. reflexivity.
    + rewrite Z.shiftr_spec, (H2 (i + m)) by lia. apply orb_true_r.
Qed.

Lemma smeared_full k m y : 0 <= k < m -> smeared k m y -> y = 2 ^ (k + 1) - 1.
Proof.
  intros Hk (H0 & H1 & H2). replace (2 ^ (k + 1) - 1) with (Z.ones (k + 1)) by (rewrite Z.ones_equiv; lia).
  apply Z.bits_inj'. intros i Hi. destruct (Z.lt_ge_cases k i).
  - rewrite H1, Z.ones_spec_high by lia. reflexivity.
  - rewrite H2, Z.ones_spec_low by lia. reflexivity.
Qed.

Lemma smear_0 s : smear s 0 = 0.
Proof. unfold smear. now rewrite Z.shiftr_0_l. Qed.

(** Value of the smearing of an [m]-bit word. *)
Definition full (x : Z) : Z := if x =? 0 then 0 else 2 ^ (Z.log2 x + 1) - 1.

Lemma smear8 x : 0 <= x < 2 ^ 8 -> smear 4 (smear 2 (smear 1 x)) = full x.
Proof.
  intros H. unfold full. destruct (Z.eqb_spec x 0) as [->|Hx]; [now rewrite !smear_0|].
  apply (smeared_full _ 8); [apply log2_lt_w; auto|].
  apply (smeared_step _ 4); [lia|]. apply (smeared_step _ 2); [lia|]. apply (smeared_step _ 1); [lia|]. apply smeared_start. lia.
Qed.
Lemma smear16 x : 0 <= x < 2 ^ 16 -> smear 8 (smear 4 (smear 2 (smear 1 x))) = full x.
Proof.
  intros H. unfold full. destruct (Z.eqb_spec x 0) as [->|Hx]; [now rewrite !smear_0|].
  apply (smeared_full _ 16); [apply log2_lt_w; auto|]. apply (smeared_step _ 8); [lia|].
  apply (smeared_step _ 4); [lia|]. apply (smeared_step _ 2); [lia|]. apply (smeared_step _ 1); [lia|]. apply smeared_start. lia.
Qed.
Lemma smear32 x : 0 <= x < 2 ^ 32 -> smear 16 (smear 8 (smear 4 (smear 2 (smear 1 x)))) = full x.
Proof.
  intros H. unfold full. destruct (Z.eqb_spec x 0) as [->|Hx]; [now rewrite !smear_0|].
  apply (smeared_full _ 32); [apply log2_lt_w; auto|]. apply (smeared_step _ 16); [lia|]. apply (smeared_step _ 8); [lia|].
  apply (smeared_step _ 4); [lia|]. apply (smeared_step _ 2); [lia|]. apply (smeared_step _ 1); [lia|]. apply smeared_start. lia.
Qed.
Lemma smear64 x : 0 <= x < 2 ^ 64 -> smear 32 (smear 16 (smear 8 (smear 4 (smear 2 (smear 1 x))))) = full x.
Proof.
  intros H. unfold full. destruct (Z.eqb_spec x 0) as [->|Hx]; [now rewrite !smear_0|].
  apply (smeared_full _ 64); [apply log2_lt_w; auto|]. apply (smeared_step _ 32); [lia|]. apply (smeared_step _ 16); [lia|]. apply (smeared_step _ 8); [lia|].
  apply (smeared_step _ 4); [lia|]. apply (smeared_step _ 2); [lia|]. apply (smeared_step _ 1); [lia|]. apply smeared_start. lia.
Qed.

Definition flv (x : Z) : Z := if x =? 0 then 0 else 2 ^ Z.log2 x.
Definition clv (w x : Z) : Z := if x =? 0 then 0 else if 2 ^ (w - 1) <? x then 0 else 2 ^ Z.log2_up x.

Lemma full_flp w x : 0 < w -> 0 <= x < 2 ^ w -> wrap w (full x - Z.shiftr (full x) 1) = flv x.
Proof.
  intros Hw H. unfold full, flv. destruct (Z.eqb_spec x 0) as [->|Hx].
  - rewrite Z.shiftr_0_l. apply wrap_small. lia.
  - pose proof (log2_lt_w w x H Hx) as Hl. set (k := Z.log2 x) in *.
    assert (E : 2 ^ (k + 1) = 2 * 2 ^ k) by (rewrite Z.pow_add_r by lia; lia).
    assert (Hp : 0 < 2 ^ k) by lia.
    rewrite Z.shiftr_div_pow2 by lia. change (2 ^ 1) with 2.
    replace ((2 ^ (k + 1) - 1) / 2) with (2 ^ k - 1) by (rewrite E; apply (Z.div_unique _ _ _ 1); lia).
    rewrite E. replace (2 * 2 ^ k - 1 - (2 ^ k - 1)) with (2 ^ k) by ring. apply wrap_small.
    split; [lia|]. apply Z.pow_lt_mono_r; lia.
Qed.

Lemma full_clp w x : 1 < w -> 0 <= x < 2 ^ w -> wrap w (full (wrap w (x - 1)) + 1) = clv w x.
Proof.
  intros Hw H. unfold clv.
  assert (E2 : 2 ^ w = 2 * 2 ^ (w - 1)) by (rewrite <- Z.pow_succ_r by lia; f_equal; lia).
  assert (Hp : 0 < 2 ^ (w - 1)) by lia.
  destruct (Z.eqb_spec x 0) as [->|Hx].
  - replace (wrap w (0 - 1)) with (2 ^ w - 1).
    + unfold full. destruct (Z.eqb_spec (2 ^ w - 1) 0); [lia|].
      replace (Z.log2 (2 ^ w - 1)) with (w - 1) by (symmetry; apply Z.log2_unique; [lia|]; replace (Z.succ (w - 1)) with w by lia; lia).
      replace (w - 1 + 1) with w by lia. unfold wrap. replace (2 ^ w - 1 + 1) with (1 * 2 ^ w) by ring. apply Z.mod_mul. lia.
    + unfold wrap. apply (Z.mod_unique _ _ (-1)); lia.
  - rewrite (wrap_small w (x - 1)) by lia. unfold full. destruct (Z.eqb_spec (x - 1) 0) as [E|E].
    + assert (x = 1) as -> by lia. destruct (Z.ltb_spec (2 ^ (w - 1)) 1); [lia|]. cbn. apply wrap_small. lia.
    + assert (Hu : Z.log2_up x = Z.log2 (x - 1) + 1).
      { unfold Z.log2_up. destruct (Z.compare_spec 1 x); try lia. replace (Z.pred x) with (x - 1) by lia. lia. }
      replace (2 ^ (Z.log2 (x - 1) + 1) - 1 + 1) with (2 ^ (Z.log2 (x - 1) + 1)) by ring. rewrite Hu.
      destruct (Z.ltb_spec (2 ^ (w - 1)) x) as [Hb|Hb].
      * assert (Z.log2 (x - 1) = w - 1) as ->.
        { apply Z.log2_unique; [lia|]. replace (Z.succ (w - 1)) with w by lia. lia. }
        replace (w - 1 + 1) with w by lia. unfold wrap. apply Z.mod_same. lia.
      * apply wrap_small. split; [lia|]. apply Z.pow_lt_mono_r; try lia.
        assert (Z.log2 (x - 1) < w - 1) by (apply Z.log2_lt_pow2; lia). lia.
Qed.

Lemma flp2u8_val x : 0 <= x < 2 ^ 8 -> flp2u8 x = flv x.
Proof. intros H. unfold flp2u8. rewrite (wrap_small 8 x) by auto. cbv zeta. rewrite smear8 by auto. now apply full_flp. Qed.
Lemma flp2u16_val x : 0 <= x < 2 ^ 16 -> flp2u16 x = flv x.
Proof. intros H. unfold flp2u16. rewrite (wrap_small 16 x) by auto. cbv zeta. rewrite smear16 by auto. now apply full_flp. Qed.
Lemma flp2u32_val x : 0 <= x < 2 ^ 32 -> flp2u32 x = flv x.
Proof. intros H. unfold flp2u32. rewrite (wrap_small 32 x) by auto. cbv zeta. rewrite smear32 by auto. now apply full_flp. Qed.
Lemma flp2u64_val x : 0 <= x < 2 ^ 64 -> flp2u64 x = flv x.
Proof. intros H. unfold flp2u64. rewrite (wrap_small 64 x) by auto. cbv zeta. rewrite smear64 by auto. now apply full_flp. Qed.
Lemma clp2u8_val x : 0 <= x < 2 ^ 8 -> clp2u8 x = clv 8 x.
Proof. intros H. unfold clp2u8. rewrite (wrap_small 8 x) by auto. rewrite smear8 by (now apply wrap_range). now apply full_clp. Qed.
Lemma clp2u16_val x : 0 <= x < 2 ^ 16 -> clp2u16 x = clv 16 x.
Proof. intros H. unfold clp2u16. rewrite (wrap_small 16 x) by auto. rewrite smear16 by (now apply wrap_range). now apply full_clp. Qed.
Lemma clp2u32_val x : 0 <= x < 2 ^ 32 -> clp2u32 x = clv 32 x.
Proof. intros H. unfold clp2u32. rewrite (wrap_small 32 x) by auto. rewrite smear32 by (now apply wrap_range). now apply full_clp. Qed.
Lemma clp2u64_val x : 0 <= x < 2 ^ 64 -> clp2u64 x = clv 64 x.
Proof. intros H. unfold clp2u64. rewrite (wrap_small 64 x) by auto. rewrite smear64 by (now apply wrap_range). now apply full_clp. Qed.

Lemma flv_spec x : 0 < x -> greatest_below pow2 x (flv x).
Proof.
  intros Hx. unfold flv. destruct (Z.eqb_spec x 0); [lia|]. pose proof (Z.log2_spec x Hx) as Hs.
  split; [exists (Z.log2 x); split; [apply Z.log2_nonneg|auto]|]. split; [lia|].
  intros y (k & Hk & ->) Hy. apply Z.pow_le_mono_r; [lia|]. apply Z.log2_le_pow2; auto.
Qed.

Lemma log2up_spec x : 0 < x -> least_above pow2 x (2 ^ Z.log2_up x).
Proof.
  intros Hx. split; [exists (Z.log2_up x); split; [apply Z.log2_up_nonneg|auto]|].
  split.
  - destruct (Z.eq_dec x 1) as [->|]; [cbn; lia|]. apply Z.log2_up_spec. lia.
  - intros y (k & Hk & ->) Hy. apply Z.pow_le_mono_r; [lia|].
    replace k with (Z.log2_up (2 ^ k)) by (now apply Z.log2_up_pow2). now apply Z.log2_up_le_mono.
Qed.

(** clp2: the value when it is representable, 0 otherwise (and for 0). *)
Lemma clv_spec w x : 0 < w -> 0 <= x < 2 ^ w ->
  (0 < x -> (exists r, least_above pow2 x r /\ r < 2 ^ w) -> least_above pow2 x (clv w x)) /\
  (x = 0 \/ (forall r, least_above pow2 x r -> 2 ^ w <= r) -> clv w x = 0).
Proof.
  intros Hw Hx. assert (E2 : 2 ^ w = 2 * 2 ^ (w - 1)) by (rewrite <- Z.pow_succ_r by lia; f_equal; lia).
  unfold clv. split.
  - intros H0 (r & Hr & Hrw). destruct (Z.eqb_spec x 0); [lia|]. destruct (Z.ltb_spec (2 ^ (w - 1)) x) as [Hb|Hb]; [|now apply log2up_spec].
    exfalso. destruct Hr as ((k & Hk & ->) & Hge & _). assert (w - 1 < k) by (apply (Z.pow_lt_mono_r_iff 2); lia).
    assert (2 ^ w <= 2 ^ k) by (apply Z.pow_le_mono_r; lia). lia.
  - intros H. destruct (Z.eqb_spec x 0) as [|Hn]; [auto|]. destruct H as [H|H]; [lia|].
    specialize (H _ (log2up_spec x ltac:(lia))). destruct (Z.ltb_spec (2 ^ (w - 1)) x) as [Hb|Hb]; [auto|].
    exfalso. assert (Z.log2_up x <= w - 1) by (rewrite <- (Z.log2_up_pow2 (w - 1)) by lia; now apply Z.log2_up_le_mono).
    assert (2 ^ Z.log2_up x <= 2 ^ (w - 1)) by (apply Z.pow_le_mono_r; lia). lia.
Qed.

Lemma pow2_lemma : flp_ok 8 flp2u8 /\ flp_ok 16 flp2u16 /\ flp_ok 32 flp2u32 /\ flp_ok 64 flp2u64 /\
  clp_ok 8 clp2u8 /\ clp_ok 16 clp2u16 /\ clp_ok 32 clp2u32 /\ clp_ok 64 clp2u64.
Proof.
  split; [|split; [|split; [|split]]].
  1-4: split; [reflexivity|]; intros x Hx; (rewrite flp2u8_val || rewrite flp2u16_val || rewrite flp2u32_val || rewrite flp2u64_val); try lia; now apply flv_spec.
  split; [|split; [|split]]; intros x Hx; rewrite ?clp2u8_val, ?clp2u16_val, ?clp2u32_val, ?clp2u64_val by auto; apply clv_spec; auto; lia.
Qed.

(** ** Integer traits *)
Ltac ity_lia := unfold in_type in *; cbn [tmin tmax bit_num is_signed] in *; try discriminate; lia.

Definition utop (t : ity) : Z := 2 ^ bit_num t.

Lemma it_flp2_val t x : 0 <= x < utop t -> it_flp2 t x = flv x.
Proof.
  destruct t; cbn [it_flp2]; unfold utop; cbn [bit_num]; intros H;
  first [now apply flp2u8_val|now apply flp2u16_val|now apply flp2u32_val|now apply flp2u64_val].
Qed.
Lemma it_clp2_val t x : 0 <= x < utop t -> it_clp2 t x = clv (bit_num t) x.
Proof.
  destruct t; cbn [it_clp2]; unfold utop; cbn [bit_num]; intros H;
  first [now apply clp2u8_val|now apply clp2u16_val|now apply clp2u32_val|now apply clp2u64_val].
Qed.
Lemma it_nlz_val t x : 0 <= x < utop t -> it_nlz t x = lzv (x, bit_num t).
Proof.
  destruct t; cbn [it_nlz]; unfold utop; cbn [bit_num]; intros H;
  first [now apply nlz8_val|now apply nlz16_val|now apply nlz32_val|now apply nlz64_val].
Qed.

Lemma neg_ok_ret t i : neg_ok t i -> neg t i = Ret (- i).
Proof.
  destruct t; cbn [neg_ok tmin neg]; auto; intros H.
  - destruct (Z.eqb_spec i (- 2 ^ 31)); [contradiction|auto].
  - destruct (Z.eqb_spec i (- 2 ^ 63)); [contradiction|auto].
Qed.

Lemma neg_bad t i : ~ neg_ok t i -> neg t i = UB.
Proof.
  destruct t; cbn [neg_ok tmin neg]; try tauto; intros H.
  - destruct (Z.eqb_spec i (- 2 ^ 31)); [auto|contradiction].
  - destruct (Z.eqb_spec i (- 2 ^ 63)); [auto|contradiction].
Qed.

(** Abbreviation: |i| fits the unsigned type. *)
Lemma in_type_range t i : in_type t i -> Z.abs i < utop t /\ 2 * (if is_signed t then 1 else 0) * Z.abs i <= utop t.
Proof. intros H. unfold utop. destruct t; ity_lia. Qed.

Lemma lzv_log2 w x : x <> 0 -> w - 1 - lzv (x, w) = Z.log2 x.
Proof. intros H. unfold lzv. cbn [fst snd]. destruct (Z.eqb_spec x 0); lia. Qed.

Lemma log2_abs i : i <> 0 -> is_log2 i (Z.log2 (Z.abs i)).
Proof. intros H. unfold is_log2. split; [apply Z.log2_nonneg|]. pose proof (Z.log2_spec (Z.abs i) ltac:(lia)). replace (Z.log2 (Z.abs i) + 1) with (Z.succ (Z.log2 (Z.abs i))) by lia. lia. Qed.

Lemma log2Mod_val t i : t <> I64 -> in_type t i -> neg_ok t i -> i <> 0 -> it_log2Mod t i = Ret (Z.log2 (Z.abs i)).
Proof.
  intros Ht Hi Hn H0. destruct (in_type_range t i Hi) as [Hr _].
  assert (E : forall j, 0 < j < utop t -> bit_num t - 1 - match t with I8 | U8 => nlz8 | I16 | U16 => nlz16 | I32 | U32 => nlz32 | I64 => nlz8 | U64 => nlz64 end j = Z.log2 j).
  { intros j Hj. rewrite <- (lzv_log2 (bit_num t)) by lia. f_equal.
    destruct t; try congruence; unfold utop in Hj; cbn [bit_num] in *;
    first [apply nlz8_val|apply nlz16_val|apply nlz32_val|apply nlz64_val]; lia. }
  unfold it_log2Mod. destruct (is_signed t) eqn:Es.
  - destruct (Z.ltb_spec 0 i).
    + rewrite E by lia. do 2 f_equal. lia.
    + destruct (Z.ltb_spec i 0); [|lia]. rewrite neg_ok_ret by auto. cbn [obind]. rewrite E by lia. do 2 f_equal. lia.
  - assert (0 <= i) by (destruct t; ity_lia).
    destruct (Z.eqb_spec i 0); [lia|]. cbn [negb].
    match goal with |- Ret (?a - ?b - 1) = _ => replace (a - b - 1) with (a - 1 - b) by ring end. rewrite E by lia. do 2 f_equal. lia.
Qed.

Lemma log2Mod_lemma t i : t <> I64 -> in_type t i -> neg_ok t i -> i <> 0 -> exists l, it_log2Mod t i = Ret l /\ is_log2 i l.
Proof. intros. exists (Z.log2 (Z.abs i)). split; [now apply log2Mod_val|now apply log2_abs]. Qed.

Lemma log2Mod_refuted_lemma : (exists l, it_log2Mod I64 1 = Ret l /\ ~ is_log2 1 l) /\ it_log2Mod I32 (tmin I32) = UB.
Proof. split; [exists 56; split; [reflexivity|]|reflexivity]. intros [_ H]. cbn in H. lia. Qed.

(** What the 64-bit signed version computes: floor(log2) of the low byte of |i|, plus 56 (55 when that byte is 0). *)
Lemma log2Mod64_lemma i : in_type I64 i -> i <> tmin I64 -> i <> 0 ->
  exists l, it_log2Mod I64 i = Ret l /\
    (Z.abs i mod 256 = 0 -> l = 55) /\ (Z.abs i mod 256 <> 0 -> is_log2 (Z.abs i mod 256) (l - 56)).
Proof.
  intros Hi Hn H0. unfold it_log2Mod. cbn [is_signed bit_num].
  assert (E : forall j, 0 < j -> 64 - 1 - nlz8 j = if j mod 256 =? 0 then 55 else 56 + Z.log2 (j mod 256)).
  { intros j Hj. pose proof (Z.mod_pos_bound j 256 ltac:(lia)) as Hm.
    replace (nlz8 j) with (nlz8 (j mod 256)).
    - rewrite nlz8_val by (change (2 ^ 8) with 256; lia). unfold lzv. cbn [fst snd]. destruct (Z.eqb_spec (j mod 256) 0); lia.
    - unfold nlz8, wrap. change (2 ^ 8) with 256. now rewrite Z.mod_mod by lia. }
  assert (Hl : forall j, 0 <= j -> (j = 0 -> (if j =? 0 then 55 else 56 + Z.log2 j) = 55) /\ (j <> 0 -> is_log2 j ((if j =? 0 then 55 else 56 + Z.log2 j) - 56))).
  { intros j Hj. destruct (Z.eqb_spec j 0) as [->|Hne]; [split; [auto|lia]|]. split; [lia|]. intros _.
    replace (56 + Z.log2 j - 56) with (Z.log2 (Z.abs j)) by (rewrite Z.abs_eq by auto; ring). now apply log2_abs. }
  destruct (Z.ltb_spec 0 i).
  - eexists. split; [reflexivity|]. rewrite E, (Z.abs_eq i) by lia. apply Hl. apply Z.mod_pos_bound. lia.
  - destruct (Z.ltb_spec i 0); [|lia]. rewrite neg_ok_ret by exact Hn. cbn [obind].
    eexists. split; [reflexivity|]. rewrite E, (Z.abs_neq i) by lia. apply Hl. apply Z.mod_pos_bound. lia.
Qed.

Lemma pow2_pos x : pow2 x -> 0 < x.
Proof. intros (k & Hk & ->). lia. Qed.

Lemma conv_small t x : in_type t x -> conv t x = x.
Proof.
  unfold in_type, conv. destruct t; cbn [is_signed bit_num tmin tmax]; intros H; first [apply swrap_small|apply wrap_small]; lia.
Qed.

Lemma flv_pos x : 0 < x -> 0 < flv x <= x.
Proof. intros H. destruct (flv_spec x H) as (H1 & H2 & _). apply pow2_pos in H1. lia. Qed.

Lemma floor_pos x : 0 <= x -> greatest_below spow2 x (flv x).
Proof.
  intros Hx. destruct (Z.eq_dec x 0) as [->|].
  - split; [left; reflexivity|]. split; [cbn; lia|]. intros y Hy H. exact H.
  - destruct (flv_spec x ltac:(lia)) as (H1 & H2 & H3). split; [right; left; auto|]. split; [auto|].
    pose proof (pow2_pos _ H1). intros y [->|[Hy|Hy]] Hle; [lia|auto|]. apply pow2_pos in Hy. lia.
Qed.

Lemma ceil_pos x : 0 <= x -> least_above spow2 x (if x =? 0 then 0 else 2 ^ Z.log2_up x).
Proof.
  intros Hx. destruct (Z.eqb_spec x 0) as [->|].
  - split; [left; reflexivity|]. split; [lia|]. intros y Hy H. exact H.
  - destruct (log2up_spec x ltac:(lia)) as (H1 & H2 & H3). split; [right; left; auto|]. split; [auto|].
    intros y [->|[Hy|Hy]] Hle; [lia|auto|]. apply pow2_pos in Hy. lia.
Qed.

Lemma spow2_opp x : spow2 x <-> spow2 (- x).
Proof. unfold spow2. rewrite Z.opp_involutive. intuition lia. Qed.

Lemma floor_opp x r : greatest_below spow2 x r <-> least_above spow2 (- x) (- r).
Proof.
  unfold greatest_below, least_above. rewrite <- spow2_opp. split; intros (H1 & H2 & H3); (split; [auto|split; [lia|]]); intros y Hy Hle.
  - apply spow2_opp in Hy. specialize (H3 _ Hy). lia.
  - apply spow2_opp in Hy. specialize (H3 _ Hy). lia.
Qed.

Lemma floorPow2_lemma t i : in_type t i -> neg_ok t i -> exists r, it_floorPow2 t i = Ret r /\ greatest_below spow2 i r.
Proof.
  intros Hi Hn. destruct (in_type_range t i Hi) as [Hr Hr2]. unfold it_floorPow2. destruct (is_signed t) eqn:Es.
  - destruct (Z.leb_spec 0 i) as [H0|H0].
    + rewrite it_flp2_val by lia. eexists. split; [reflexivity|]. rewrite conv_small; [now apply floor_pos|].
      assert (0 <= flv i <= i) by (destruct (Z.eq_dec i 0) as [->|]; [cbn; lia|pose proof (flv_pos i ltac:(lia)); lia]).
      destruct t; ity_lia.
    + rewrite neg_ok_ret by auto. cbn [obind]. rewrite it_clp2_val by lia. eexists. split; [reflexivity|].
      assert (Hw : utop t = 2 * 2 ^ (bit_num t - 1)) by (destruct t; reflexivity).
      assert (E : clv (bit_num t) (- i) = 2 ^ Z.log2_up (- i)).
      { unfold clv. destruct (Z.eqb_spec (- i) 0); [lia|]. destruct (Z.ltb_spec (2 ^ (bit_num t - 1)) (- i)); [lia|auto]. }
      rewrite E. rewrite conv_small.
      * apply floor_opp. rewrite Z.opp_involutive. pose proof (ceil_pos (- i) ltac:(lia)) as H. destruct (Z.eqb_spec (- i) 0); [lia|auto].
      * assert (2 ^ Z.log2_up (- i) <= 2 ^ (bit_num t - 1)).
        { apply Z.pow_le_mono_r; [lia|]. rewrite <- (Z.log2_up_pow2 (bit_num t - 1)) by (destruct t; cbn; lia).
          apply Z.log2_up_le_mono. lia. }
        assert (0 < 2 ^ Z.log2_up (- i)) by (apply Z.pow_pos_nonneg; [lia|apply Z.log2_up_nonneg]).
        destruct t; ity_lia.
  - assert (0 <= i) by (destruct t; ity_lia).
    rewrite it_flp2_val by lia. eexists. split; [reflexivity|]. now apply floor_pos.
Qed.

Lemma ceilPow2_lemma t i : in_type t i -> neg_ok t i ->
  ((exists r, least_above spow2 i r /\ in_type t r) -> exists r, it_ceilPow2 t i = Ret r /\ least_above spow2 i r) /\
  ((forall r, least_above spow2 i r -> ~ in_type t r) -> it_ceilPow2 t i = Ret (tmin t)).
Proof.
  intros Hi Hn. destruct (in_type_range t i Hi) as [Hr Hr2].
  assert (Hu : forall x r1 r2, least_above spow2 x r1 -> least_above spow2 x r2 -> r1 = r2).
  { intros x r1 r2 (A1 & A2 & A3) (B1 & B2 & B3). specialize (A3 _ B1 B2). specialize (B3 _ A1 A2). lia. }
  assert (Hw : utop t = 2 * 2 ^ (bit_num t - 1)) by (destruct t; reflexivity).
  assert (Hb : 1 < bit_num t) by (destruct t; cbn; lia).
  unfold it_ceilPow2. destruct (Z.leb_spec 0 i) as [H0|H0].
  - pose proof (ceil_pos i H0) as Hc.
    assert (Hv : it_clp2 t i = if 2 ^ (bit_num t - 1) <? i then 0 else if i =? 0 then 0 else 2 ^ Z.log2_up i).
    { rewrite it_clp2_val by lia. unfold clv. destruct (Z.eqb_spec i 0); auto. destruct (_ <? _); auto. }
    rewrite Hv. destruct (is_signed t) eqn:Es.
    + destruct (Z.ltb_spec (2 ^ (bit_num t - 1)) i) as [Hlt|Hge]; [destruct t; ity_lia|].
      split.
      * intros (r & Hr1 & Hr3). eexists. split; [reflexivity|]. rewrite conv_small; [auto|]. now rewrite (Hu _ _ _ Hc Hr1).
      * intros H. specialize (H _ Hc). destruct (Z.eqb_spec i 0); [exfalso; apply H; destruct t; ity_lia|].
        assert (Hle : Z.log2_up i <= bit_num t - 1).
        { rewrite <- (Z.log2_up_pow2 (bit_num t - 1)) by lia. now apply Z.log2_up_le_mono. }
        pose proof (Z.log2_up_nonneg i) as Hnn.
        assert (Z.log2_up i = bit_num t - 1) as ->.
        { destruct (Z.eq_dec (Z.log2_up i) (bit_num t - 1)) as [|Hne]; [auto|]. exfalso. apply H.
          assert (2 ^ Z.log2_up i <= 2 ^ (bit_num t - 2)) by (apply Z.pow_le_mono_r; lia).
          destruct t; ity_lia. }
        f_equal. destruct t; try discriminate; reflexivity.
    + destruct (Z.ltb_spec (2 ^ (bit_num t - 1)) i) as [Hlt|Hge].
      * split; [|intros _; destruct t; cbn in *; try discriminate; reflexivity].
        intros (r & Hr1 & Hr3). exfalso. rewrite <- (Hu _ _ _ Hc Hr1) in Hr3.
        destruct (Z.eqb_spec i 0); [lia|].
        assert (bit_num t - 1 < Z.log2_up i).
        { apply (Z.pow_lt_mono_r_iff 2); [lia|apply Z.log2_up_nonneg|]. destruct Hc as (_ & Hc & _). lia. }
        assert (2 ^ bit_num t <= 2 ^ Z.log2_up i) by (apply Z.pow_le_mono_r; lia).
        destruct t; ity_lia.
      * split; [intros _; eexists; split; [reflexivity|auto]|]. intros H. specialize (H _ Hc). exfalso. apply H.
        destruct (Z.eqb_spec i 0); [destruct t; ity_lia|].
        assert (Z.log2_up i <= bit_num t - 1).
        { rewrite <- (Z.log2_up_pow2 (bit_num t - 1)) by lia. now apply Z.log2_up_le_mono. }
        assert (2 ^ Z.log2_up i <= 2 ^ (bit_num t - 1)) by (apply Z.pow_le_mono_r; lia).
        assert (0 < 2 ^ Z.log2_up i) by (apply Z.pow_pos_nonneg; [lia|apply Z.log2_up_nonneg]).
        destruct t; ity_lia.
  - assert (Es : is_signed t = true) by (unfold in_type in Hi; destruct t; cbn in *; auto; lia). rewrite Es in *.
    rewrite neg_ok_ret by auto. cbn [obind]. rewrite it_flp2_val by lia.
    pose proof (flv_pos (- i) ltac:(lia)) as Hf.
    assert (Hc : least_above spow2 i (- flv (- i))).
    { rewrite <- (Z.opp_involutive i) at 1. apply floor_opp. apply floor_pos. lia. }
    assert (Hit : in_type t (- flv (- i))) by (destruct t; ity_lia).
    split.
    + intros _. eexists. split; [reflexivity|]. now rewrite conv_small.
    + intros H. now destruct (H _ Hc).
Qed.

Lemma pow2traits_refuted_lemma : forall t, t = I32 \/ t = I64 -> greatest_below spow2 (tmin t) (tmin t) /\ in_type t (tmin t) /\
  it_floorPow2 t (tmin t) = UB /\ it_ceilPow2 t (tmin t) = UB.
Proof.
  intros t Ht. assert (Hp : spow2 (tmin t)).
  { right; right. destruct Ht as [->| ->]; [exists 31|exists 63]; split; auto; lia. }
  split; [|split].
  - split; [auto|]. split; [lia|auto].
  - unfold in_type. destruct Ht as [->| ->]; cbn; lia.
  - destruct Ht as [->| ->]; split; reflexivity.
Qed.

(** ** Float fields *)
Lemma shl_ok w x s : 0 <= x -> 0 <= s < w -> x < 2 ^ (w - s) -> shl w x s = Ret (x * 2 ^ s).
Proof.
  intros Hx Hs Hb. unfold shl. rewrite Z.shiftl_mul_pow2 by lia.
  assert (x * 2 ^ s < 2 ^ w).
  { replace w with (w - s + s) at 1 by lia. rewrite Z.pow_add_r by lia. apply Z.mul_lt_mono_pos_r; lia. }
  destruct (Z.ltb_spec x 0), (Z.ltb_spec s 0), (Z.leb_spec w s), (Z.leb_spec (2 ^ w) (x * 2 ^ s)); cbn; auto; lia.
Qed.

Lemma land_ones_l n x : 0 <= n -> Z.land (2 ^ n - 1) x = x mod 2 ^ n.
Proof. intros H. rewrite Z.land_comm. replace (2 ^ n - 1) with (Z.ones n) by (rewrite Z.ones_equiv; lia). now apply Z.land_ones. Qed.

(** Extracting the exponent field. *)
Lemma land_mid a b x : 0 <= a -> 0 <= b -> Z.shiftr (Z.land (Z.shiftl (Z.ones b) a) x) a = (x / 2 ^ a) mod 2 ^ b.
Proof.
  intros Ha Hb. rewrite <- Z.shiftr_div_pow2, <- Z.land_ones by auto. apply Z.bits_inj'. intros i Hi.
  rewrite Z.shiftr_spec, !Z.land_spec, Z.shiftr_spec by auto. rewrite Z.shiftl_spec by lia. replace (i + a - a) with i by lia.
  apply andb_comm.
Qed.

Lemma land_bit n x : 0 <= n -> negb (Z.land (2 ^ n) x =? 0) = Z.testbit x n.
Proof.
  intros Hn. destruct (Z.testbit x n) eqn:E.
  - assert (Z.land (2 ^ n) x <> 0); [|lia]. intros H. assert (Hb : Z.testbit (Z.land (2 ^ n) x) n = true) by (rewrite Z.land_spec, E, Z.pow2_bits_true by auto; auto).
    rewrite H, Z.testbit_0_l in Hb. discriminate.
  - assert (Z.land (2 ^ n) x = 0); [|lia]. apply Z.bits_inj'. intros i Hi. rewrite Z.land_spec, Z.testbit_0_l.
    destruct (Z.eq_dec i n) as [->|Hne]; [rewrite E; apply andb_false_r|]. rewrite Z.pow2_bits_false by auto. reflexivity.
Qed.

(** lor of fields that do not overlap. *)
Lemma lor_fields a x y : 0 <= a -> 0 <= x < 2 ^ a -> 0 <= y -> Z.lor x (y * 2 ^ a) = x + y * 2 ^ a.
Proof.
  intros Ha Hx Hy. rewrite <- Z.shiftl_mul_pow2 by auto. symmetry.
  rewrite <- Z.lxor_lor.
  - apply Z.add_nocarry_lxor. apply Z.bits_inj'. intros i Hi. rewrite Z.land_spec, Z.testbit_0_l.
    destruct (Z.lt_ge_cases i a).
    + rewrite (Z.shiftl_spec_low y) by lia. apply andb_false_r.
    + replace (Z.testbit x i) with false; [reflexivity|]. symmetry.
      destruct (Z.eq_dec x 0) as [->|]; [apply Z.testbit_0_l|]. apply Z.bits_above_log2; [lia|].
      apply Z.lt_le_trans with a; [|auto]. apply Z.log2_lt_pow2; lia.
  - apply Z.bits_inj'. intros i Hi. rewrite Z.land_spec, Z.testbit_0_l.
    destruct (Z.lt_ge_cases i a).
    + rewrite (Z.shiftl_spec_low y) by lia. apply andb_false_r.
    + replace (Z.testbit x i) with false; [reflexivity|]. symmetry.
      destruct (Z.eq_dec x 0) as [->|]; [apply Z.testbit_0_l|]. apply Z.bits_above_log2; [lia|].
      apply Z.lt_le_trans with a; [|auto]. apply Z.log2_lt_pow2; lia.
Qed.

Definition assemble (a b m e : Z) (s : bool) : Z := m + e * 2 ^ a + (if s then 1 else 0) * 2 ^ (a + b).

Lemma fields_of_bits a b i : 0 <= a -> 0 <= b -> 0 <= i < 2 ^ (a + b + 1) ->
  assemble a b (i mod 2 ^ a) ((i / 2 ^ a) mod 2 ^ b) (Z.testbit i (a + b)) = i.
Proof.
  intros Ha Hb Hi. unfold assemble.
  assert (Es : (if Z.testbit i (a + b) then 1 else 0) = i / 2 ^ (a + b)).
  { assert (Hr : 0 <= i / 2 ^ (a + b) < 2).
    { split; [apply Z.div_pos; lia|]. apply Z.div_lt_upper_bound; [lia|]. replace (2 ^ (a + b) * 2) with (2 ^ (a + b + 1)); [lia|].
      rewrite (Z.pow_add_r 2 (a + b) 1) by lia. lia. }
    pose proof (Z.testbit_spec' i (a + b) ltac:(lia)) as Ht. rewrite Z.mod_small in Ht by auto. rewrite <- Ht. now destruct (Z.testbit i (a + b)). }
  rewrite Es. rewrite Z.pow_add_r by lia. rewrite <- Z.div_div by lia.
  pose proof (Z.div_mod i (2 ^ a) ltac:(lia)) as E1. pose proof (Z.div_mod (i / 2 ^ a) (2 ^ b) ltac:(lia)) as E2.
  set (q := i / 2 ^ a) in *. set (r := q / 2 ^ b) in *. rewrite E1 at 2. rewrite E2 at 2. ring.
Qed.

Lemma bits_of_fields a b m e s : 0 <= a -> 0 <= b -> 0 <= m < 2 ^ a -> 0 <= e < 2 ^ b ->
  let i := assemble a b m e s in
  0 <= i < 2 ^ (a + b + 1) /\ i mod 2 ^ a = m /\ (i / 2 ^ a) mod 2 ^ b = e /\ Z.testbit i (a + b) = s.
Proof.
  intros Ha Hb Hm He i. unfold i, assemble. set (S := if s then 1 else 0). assert (HS : 0 <= S <= 1) by (unfold S; destruct s; lia).
  assert (Ep : 2 ^ (a + b + 1) = 2 * 2 ^ a * 2 ^ b) by (rewrite !Z.pow_add_r by lia; ring).
  assert (Eq : 2 ^ (a + b) = 2 ^ b * 2 ^ a) by (rewrite Z.pow_add_r by lia; ring). rewrite Ep, Eq.
  assert (Hx : 0 <= m + e * 2 ^ a < 2 ^ a * 2 ^ b) by nia.
  assert (E1 : (m + e * 2 ^ a + S * (2 ^ b * 2 ^ a)) / 2 ^ a = e + S * 2 ^ b).
  { replace (m + e * 2 ^ a + S * (2 ^ b * 2 ^ a)) with (m + (e + S * 2 ^ b) * 2 ^ a) by ring.
    rewrite Z.div_add by lia. rewrite Z.div_small by lia. ring. }
  split; [nia|]. split; [|split].
  - replace (m + e * 2 ^ a + S * (2 ^ b * 2 ^ a)) with (m + (e + S * 2 ^ b) * 2 ^ a) by ring.
    rewrite Z.mod_add by lia. now apply Z.mod_small.
  - rewrite E1, Z.mod_add by lia. now apply Z.mod_small.
  - pose proof (Z.testbit_spec' (m + e * 2 ^ a + S * (2 ^ b * 2 ^ a)) (a + b) ltac:(lia)) as Ht.
    replace (2 ^ (a + b)) with (2 ^ a * 2 ^ b) in Ht by (rewrite Z.pow_add_r by lia; ring). rewrite <- Z.div_div in Ht by lia.
    rewrite E1, Z.div_add, (Z.div_small e), Z.add_0_l, Z.mod_small in Ht by lia.
    unfold S in Ht. destruct (Z.testbit _ _), s; cbn in Ht; auto; lia.
Qed.

Lemma lor3 a b m e (s : bool) : 0 <= a -> 0 <= b -> 0 <= m < 2 ^ a -> 0 <= e < 2 ^ b ->
  Z.lor (Z.lor m (e * 2 ^ a)) ((if s then 1 else 0) * 2 ^ (a + b)) = assemble a b m e s.
Proof.
  intros Ha Hb Hm He. rewrite (lor_fields a m e) by lia. rewrite lor_fields; [reflexivity|lia| |destruct s; lia].
  rewrite Z.pow_add_r by lia. nia.
Qed.

Definition fmb (f : fty) : Z := ft_mbits f.
Definition feb (f : fty) : Z := match f with F32 => 8 | F64 => 11 end.

Lemma decompose_val f i : ft_decompose f i =
  (i mod 2 ^ fmb f, (i / 2 ^ fmb f) mod 2 ^ feb f - ft_bias f, Z.testbit i (fmb f + feb f)).
Proof.
  destruct f; cbn [ft_decompose fmb ft_mbits feb ft_bias]; unfold getF, getD; f_equal; [f_equal| |f_equal|].
  - apply (land_ones_l 23). lia.
  - f_equal. apply (land_mid 23 8); lia.
  - apply (land_bit 31). lia.
  - apply (land_ones_l 52). lia.
  - f_equal. apply (land_mid 52 11); lia.
  - apply (land_bit 63). lia.
Qed.

Lemma sadd_ok w x y : - 2 ^ (w - 1) <= x + y < 2 ^ (w - 1) -> sadd w x y = Ret (x + y).
Proof. intros H. unfold sadd. destruct (Z.leb_spec (- 2 ^ (w - 1)) (x + y)), (Z.ltb_spec (x + y) (2 ^ (w - 1))); cbn; auto; lia. Qed.

Lemma compose_val f m e s : 0 <= e + ft_bias f < 2 ^ feb f ->
  ft_compose f m e s = Ret (assemble (fmb f) (feb f) (m mod 2 ^ fmb f) (e + ft_bias f) s).
Proof.
  destruct f; cbn [ft_compose fmb ft_mbits feb ft_bias]; unfold setF, setD; intros He.
  - rewrite sadd_ok by lia. cbn [obind]. rewrite shl_ok by lia. cbn [obind]. rewrite shl_ok by (destruct s; lia). cbn [obind].
    change 0x007FFFFF with (2 ^ 23 - 1). rewrite land_ones_l by lia.
    assert (E : wrap 32 m mod 2 ^ 23 = m mod 2 ^ 23).
    { unfold wrap. rewrite (Z.mod_eq m (2 ^ 32)) by lia. replace (m - 2 ^ 32 * (m / 2 ^ 32)) with (m + (- (m / 2 ^ 32) * 2 ^ 9) * 2 ^ 23) by ring.
      now rewrite Z.mod_add by lia. }
    rewrite E. rewrite (lor3 23 8); auto; try lia. apply Z.mod_pos_bound. lia.
  - rewrite sadd_ok by lia. cbn [obind]. rewrite shl_ok by lia. cbn [obind]. rewrite shl_ok by (destruct s; lia). cbn [obind].
    change 0x000FFFFFFFFFFFFF with (2 ^ 52 - 1). rewrite land_ones_l by lia.
    assert (E : wrap 64 m mod 2 ^ 52 = m mod 2 ^ 52).
    { unfold wrap. rewrite (Z.mod_eq m (2 ^ 64)) by lia. replace (m - 2 ^ 64 * (m / 2 ^ 64)) with (m + (- (m / 2 ^ 64) * 2 ^ 12) * 2 ^ 52) by ring.
      now rewrite Z.mod_add by lia. }
    rewrite E. rewrite (lor3 52 11); auto; try lia. apply Z.mod_pos_bound. lia.
Qed.

Lemma float_roundtrip_lemma f :
  (forall i, 0 <= i < 2 ^ ft_bits f -> let '(m, e, s) := ft_decompose f i in ft_compose f m e s = Ret i) /\
  (forall m e s, 0 <= m < 2 ^ ft_mbits f -> - ft_bias f <= e <= ft_bias f + 1 ->
     exists i, 0 <= i < 2 ^ ft_bits f /\ ft_compose f m e s = Ret i /\ ft_decompose f i = (m, e, s)).
Proof.
  assert (Hw : ft_bits f = fmb f + feb f + 1) by (destruct f; reflexivity).
  assert (Ha : 0 <= fmb f) by (destruct f; cbn; lia). assert (Hb : 0 <= feb f) by (destruct f; cbn; lia).
  rewrite Hw. split.
  - intros i Hi. rewrite decompose_val. cbv iota beta.
    pose proof (Z.mod_pos_bound (i / 2 ^ fmb f) (2 ^ feb f) ltac:(lia)) as He.
    rewrite compose_val by lia. rewrite Z.mod_mod by lia.
    replace ((i / 2 ^ fmb f) mod 2 ^ feb f - ft_bias f + ft_bias f) with ((i / 2 ^ fmb f) mod 2 ^ feb f) by ring.
    now rewrite fields_of_bits.
  - intros m e s Hm He.
    assert (He' : 0 <= e + ft_bias f < 2 ^ feb f) by (destruct f; cbn [ft_bias feb] in *; lia).
    destruct (bits_of_fields (fmb f) (feb f) m (e + ft_bias f) s Ha Hb Hm He') as (H1 & H2 & H3 & H4).
    eexists. split; [exact H1|]. rewrite compose_val, (Z.mod_small m) by auto. split; [reflexivity|].
    rewrite decompose_val, H2, H3, H4. f_equal. f_equal. lia.
Qed.

(** Out-of-range exponents. *)
Lemma float_compose_out_lemma :
  (exists i, ft_compose F32 5 129 false = Ret i /\ ft_decompose F32 i = (5, -127, true)) /\
  ft_compose F32 5 (-128) false = UB.
Proof. split; [eexists; split; reflexivity|reflexivity]. Qed.

(** dividePow2: undefined as soon as the exponent exceeds exp2 by more than the mantissa width. *)
Lemma dividePow2_refuted_lemma : exists x, 0 <= x < 2 ^ 32 /\ ft_dividePow2 F32 x 0 = UB.
Proof. exists (151 * 2 ^ 23). split; [lia|reflexivity]. Qed.

Lemma dividePow2_exact_lemma f x exp2 m e s : 0 <= x < 2 ^ ft_bits f -> ft_decompose f x = (m, e, s) ->
  (ft_dividePow2 f x exp2 = UB <-> ft_mbits f < e - exp2) /\
  (exp2 <= e <= exp2 + ft_mbits f -> exists y, ft_dividePow2 f x exp2 = Ret y /\ ft_decompose f y = (m mod 2 ^ (e - exp2), e, s)) /\
  (e < exp2 -> ft_dividePow2 f x exp2 = Ret 0).
Proof.
  intros Hx E. assert (Ha : 0 <= fmb f) by (destruct f; cbn; lia).
  unfold ft_dividePow2. rewrite E.
  assert (Hr : 0 <= m < 2 ^ fmb f /\ - ft_bias f <= e <= ft_bias f + 1).
  { rewrite decompose_val in E. injection E as E1 E2 E3.
    pose proof (Z.mod_pos_bound x (2 ^ fmb f) ltac:(lia)). pose proof (Z.mod_pos_bound (x / 2 ^ fmb f) (2 ^ feb f) ltac:(destruct f; cbn; lia)).
    split; [lia|]. destruct f; cbn [feb ft_bias fmb ft_mbits] in *; lia. }
  assert (Hd : exp2 <= e <= exp2 + ft_mbits f ->
    exists y, ft_compose f (Z.land m (Z.shiftr (ft_mmask f) (ft_mbits f - e + exp2))) e s = Ret y /\ ft_decompose f y = (m mod 2 ^ (e - exp2), e, s)).
  { intros He. assert (Em : Z.land m (Z.shiftr (ft_mmask f) (ft_mbits f - e + exp2)) = m mod 2 ^ (e - exp2)).
    { unfold ft_mmask. replace (2 ^ ft_mbits f - 1) with (Z.ones (ft_mbits f)) by (rewrite Z.ones_equiv; lia).
      rewrite Z.shiftr_div_pow2 by lia. rewrite Z.ones_div_pow2 by (unfold fmb in *; lia).
      rewrite Z.land_ones by lia. f_equal. f_equal. lia. }
    rewrite Em. destruct (float_roundtrip_lemma f) as [_ H].
    assert (Hp : 2 ^ (e - exp2) <= 2 ^ ft_mbits f) by (apply Z.pow_le_mono_r; lia).
    pose proof (Z.mod_pos_bound m (2 ^ (e - exp2)) ltac:(lia)).
    destruct (H (m mod 2 ^ (e - exp2)) e s) as (y & _ & H1 & H2); [lia|lia|]. eauto. }
  destruct (Z.ltb_spec e exp2).
  - split; [|split; [lia|reflexivity]]. split; [discriminate|]. unfold fmb in Ha. lia.
  - destruct (Z.ltb_spec (ft_mbits f - e + exp2) 0); cbn [orb].
    + split; [|split; lia]. split; [lia|auto].
    + assert (ft_mbits f < ft_bits f) by (destruct f; cbn; lia).
      destruct (Z.leb_spec (ft_bits f) (ft_mbits f - e + exp2)); [lia|].
      split; [|split; [intros; now apply Hd|lia]]. destruct (Hd ltac:(lia)) as (y & -> & _). split; [discriminate|lia].
Qed.
