(** * Arithmetic of Coq.Floats.SpecFloat and real numbers, from the correctness theorems of Flocq. *)
From Coq Require Import ZArith Reals Bool Lia Lra.
From Coq Require Import Floats.SpecFloat.
From Flocq Require Import Core BinarySingleNaN.
From Verif Require Import TlsFloatModel TlsFloatSpec.

Section Ieee.
Context (prec emax : Z) (Hp : Prec_gt_0 prec) (Hm : Prec_lt_emax prec emax).
Notation rnd := (nearest prec emax).
Notation st := (stands prec emax).
Notation fmt := (generic_format radix2 (FLT_exp (3 - emax - prec) prec)).
Notation bp := (bpow radix2).

Lemma aux_equiv sx mx ex lx : SpecFloat.binary_round_aux prec emax sx mx ex lx = binary_round_aux prec emax mode_NE sx mx ex lx.
Proof.
  unfold SpecFloat.binary_round_aux, binary_round_aux. destruct (shr_fexp _ _ _ _ _) as [m e].
  assert (E : forall s m l, round_nearest_even m l = choice_mode mode_NE s m l).
  { intros s k [|[]]; try reflexivity. cbn. unfold Round.cond_incr. now destruct (Z.even k). }
  now rewrite (E sx).
Qed.
Lemma round_equiv s m e : SpecFloat.binary_round prec emax s m e = binary_round prec emax mode_NE s m e.
Proof.
  unfold SpecFloat.binary_round, binary_round, shl_align_fexp. destruct (shl_align _ _ _). apply aux_equiv.
Qed.
Lemma normalize_equiv m e z : SpecFloat.binary_normalize prec emax m e z = B2SF (binary_normalize prec emax Hp Hm mode_NE m e z).
Proof. destruct m; [reflexivity|..]; cbn; rewrite B2SF_SF2B; apply round_equiv. Qed.

Lemma lift x v : st x v -> exists b : binary_float prec emax, B2SF b = x /\ is_finite b = true /\ B2R b = v.
Proof.
  intros (H1 & H2 & H3). exists (SF2B x H1). rewrite B2SF_SF2B, is_finite_SF2B, B2R_SF2B. auto.
Qed.
Lemma lower (b : binary_float prec emax) v : is_finite b = true -> B2R b = v -> st (B2SF b) v.
Proof.
  intros H1 H2. split; [apply valid_binary_B2SF|]. split; [now rewrite is_finite_SF_B2SF|]. now rewrite SF2R_B2SF.
Qed.

Lemma add_equiv (x y : binary_float prec emax) : SFadd prec emax (B2SF x) (B2SF y) = B2SF (Bplus mode_NE x y).
Proof.
  destruct x as [sx|sx| |sx mx ex Bx], y as [sy|sy| |sy my ey By]; try (now (trivial || cbn; destruct (Bool.eqb _ _))).
  apply normalize_equiv.
Qed.
Lemma sub_equiv (x y : binary_float prec emax) : SFsub prec emax (B2SF x) (B2SF y) = B2SF (Bminus mode_NE x y).
Proof.
  destruct x as [sx|sx| |sx mx ex Bx], y as [sy|sy| |sy my ey By]; try (now (trivial || cbn; destruct (Bool.eqb _ _))).
  cbn. unfold Zminus. rewrite <- cond_Zopp_negb. apply normalize_equiv.
Qed.
Lemma mul_equiv (x y : binary_float prec emax) : SFmul prec emax (B2SF x) (B2SF y) = B2SF (Bmult mode_NE x y).
Proof.
  destruct x as [sx|sx| |sx mx ex Bx], y as [sy|sy| |sy my ey By]; try (now trivial).
  cbn. rewrite B2SF_SF2B. apply aux_equiv.
Qed.
Lemma div_equiv (x y : binary_float prec emax) : SFdiv prec emax (B2SF x) (B2SF y) = B2SF (Bdiv mode_NE x y).
Proof.
  destruct x as [sx|sx| |sx mx ex Bx], y as [sy|sy| |sy my ey By]; try (now trivial).
  cbn. rewrite B2SF_SF2B. destruct (SFdiv_core_binary _ _ _ _ _ _) as [[mz ez] lz]. apply aux_equiv.
Qed.

Lemma add_ok x y a b : st x a -> st y b -> (Rabs (rnd (a + b)) < bp emax)%R -> st (SFadd prec emax x y) (rnd (a + b)).
Proof.
  intros Hx Hy H. destruct (lift _ _ Hx) as (X & <- & FX & RX), (lift _ _ Hy) as (Y & <- & FY & RY). rewrite add_equiv.
  pose proof (Bplus_correct prec emax Hp Hm mode_NE X Y FX FY) as C. rewrite RX, RY in C. unfold nearest in *.
  change (round_mode mode_NE) with ZnearestE in C. change (SpecFloat.fexp prec emax) with (FLT_exp (3 - emax - prec) prec) in C.
  rewrite Rlt_bool_true in C by exact H. destruct C as (C1 & C2 & _). now apply lower.
Qed.
Lemma sub_ok x y a b : st x a -> st y b -> (Rabs (rnd (a - b)) < bp emax)%R -> st (SFsub prec emax x y) (rnd (a - b)).
Proof.
  intros Hx Hy H. destruct (lift _ _ Hx) as (X & <- & FX & RX), (lift _ _ Hy) as (Y & <- & FY & RY). rewrite sub_equiv.
  pose proof (Bminus_correct prec emax Hp Hm mode_NE X Y FX FY) as C. rewrite RX, RY in C. unfold nearest in *.
  change (round_mode mode_NE) with ZnearestE in C. change (SpecFloat.fexp prec emax) with (FLT_exp (3 - emax - prec) prec) in C.
  rewrite Rlt_bool_true in C by exact H. destruct C as (C1 & C2 & _). now apply lower.
Qed.
Lemma mul_ok x y a b : st x a -> st y b -> (Rabs (rnd (a * b)) < bp emax)%R -> st (SFmul prec emax x y) (rnd (a * b)).
Proof.
  intros Hx Hy H. destruct (lift _ _ Hx) as (X & <- & FX & RX), (lift _ _ Hy) as (Y & <- & FY & RY). rewrite mul_equiv.
  pose proof (Bmult_correct prec emax Hp Hm mode_NE X Y) as C. rewrite RX, RY in C. unfold nearest in *.
  change (round_mode mode_NE) with ZnearestE in C. change (SpecFloat.fexp prec emax) with (FLT_exp (3 - emax - prec) prec) in C.
  rewrite Rlt_bool_true in C by exact H. destruct C as (C1 & C2 & _). apply lower; [now rewrite C2, FX, FY|exact C1].
Qed.
Lemma div_ok x y a b : st x a -> st y b -> b <> 0%R -> (Rabs (rnd (a / b)) < bp emax)%R -> st (SFdiv prec emax x y) (rnd (a / b)).
Proof.
  intros Hx Hy Hb H. destruct (lift _ _ Hx) as (X & <- & FX & RX), (lift _ _ Hy) as (Y & <- & FY & RY). rewrite div_equiv.
  rewrite <- RY in Hb. pose proof (Bdiv_correct prec emax Hp Hm mode_NE X Y Hb) as C. rewrite RX, RY in C. unfold nearest in *.
  change (round_mode mode_NE) with ZnearestE in C. change (SpecFloat.fexp prec emax) with (FLT_exp (3 - emax - prec) prec) in C.
  rewrite Rlt_bool_true in C by exact H. destruct C as (C1 & C2 & _). apply lower; [now rewrite C2, FX|exact C1].
Qed.
Lemma normalize_ok m e : (Rabs (rnd (IZR m * bp e)) < bp emax)%R -> st (SpecFloat.binary_normalize prec emax m e false) (rnd (IZR m * bp e)).
Proof.
  intros H. rewrite normalize_equiv. pose proof (binary_normalize_correct prec emax Hp Hm mode_NE m e false) as C. cbv zeta in C.
  unfold F2R in C. cbn [Fnum Fexp] in C. unfold nearest in *.
  change (round_mode mode_NE) with ZnearestE in C. change (SpecFloat.fexp prec emax) with (FLT_exp (3 - emax - prec) prec) in C.
  rewrite Rlt_bool_true in C by exact H. destruct C as (C1 & C2 & _). now apply lower.
Qed.
Lemma abs_ok x a : st x a -> st (SFabs x) (Rabs a).
Proof.
  intros (H1 & H2 & <-). destruct x as [s|s| |s m e]; try discriminate; cbn.
  - repeat split. cbn. now rewrite Rabs_R0.
  - split; [exact H1|]. split; [reflexivity|]. cbn. rewrite <- F2R_Zabs. now rewrite abs_cond_Zopp.
Qed.
Lemma ltb_ok x y a b : st x a -> st y b -> SFltb x y = Rlt_bool a b.
Proof.
  intros Hx Hy. destruct (lift _ _ Hx) as (X & <- & FX & RX), (lift _ _ Hy) as (Y & <- & FY & RY).
  pose proof (Bltb_correct prec emax X Y FX FY) as C. now rewrite RX, RY in C.
Qed.
Lemma in_format x a : st x a -> fmt a /\ (Rabs a < bp emax)%R.
Proof.
  intros Hx. destruct (lift _ _ Hx) as (X & <- & FX & <-). split; [apply (generic_format_B2R prec emax)|apply abs_B2R_lt_emax].
Qed.
Lemma convert_ok p' e' x a : stands p' e' x a -> fmt a -> (Rabs a < bp emax)%R -> st (convert prec emax x) a.
Proof.
  intros (H1 & H2 & H3) Hf Hb. destruct x as [s|s| |s m e]; try discriminate; cbn [convert]; [now repeat split|].
  rewrite round_equiv. destruct (binary_round_correct prec emax Hp Hm mode_NE s m e) as [V C]. cbv zeta in C. cbn [SF2R] in H3. rewrite H3 in C.
  change (round_mode mode_NE) with ZnearestE in C. change (SpecFloat.fexp prec emax) with (FLT_exp (3 - emax - prec) prec) in C.
  rewrite round_generic in C by (exact Hf || apply valid_rnd_N). rewrite Rlt_bool_true in C by exact Hb. destruct C as (C1 & C2 & _).
  repeat split; assumption.
Qed.
Lemma rnd_id a : fmt a -> rnd a = a.
Proof. intros H. unfold nearest. apply round_generic; [apply valid_rnd_N|exact H]. Qed.
Global Instance flt_valid : Valid_exp (FLT_exp (3 - emax - prec) prec).
Proof. now apply FLT_exp_valid. Qed.
Lemma grid z e : (Z.abs z <= 2 ^ prec)%Z -> (3 - emax - prec <= e)%Z -> fmt (IZR z * bp e).
Proof.
  intros Hz He. destruct (Z.eq_dec (Z.abs z) (2 ^ prec)) as [E|E].
  - assert (P : (0 < prec)%Z) by exact Hp.
    assert (B : IZR (2 ^ prec) = bp prec) by (apply (IZR_Zpower radix2); lia).
    assert (X : exists s, (s = 1 \/ s = -1)%R /\ IZR z = (s * bp prec)%R).
    { rewrite <- B, <- E. destruct (Z.abs_eq_or_opp z) as [A|A]; rewrite A; [exists 1%R|exists (-1)%R]; (split; [auto|]); rewrite ?opp_IZR; ring. }
    destruct X as (s & [-> | ->] & ->); rewrite Rmult_assoc, <- bpow_plus, ?Rmult_1_l.
    + apply generic_format_FLT_bpow; [exact Hp|lia].
    + replace (-1 * bp (prec + e))%R with (- bp (prec + e))%R by ring. apply generic_format_opp, generic_format_FLT_bpow; [exact Hp|lia].
  - apply generic_format_FLT. exists (Float radix2 z e); cbn; [reflexivity|lia|exact He].
Qed.

(** Sizes only. *)
Definition fin (p : Z) (x : ieee) : Prop := exists a, st x a /\ (Rabs a <= bp p)%R.
Lemma rnd_le a p : (3 - emax - prec <= p)%Z -> (Rabs a <= bp p)%R -> (Rabs (rnd a) <= bp p)%R.
Proof.
  intros Hp' H. unfold nearest. apply abs_round_le_generic; [apply flt_valid|apply valid_rnd_N|apply generic_format_FLT_bpow; [exact Hp|exact Hp']|exact H].
Qed.
Lemma rnd_lt a p : (3 - emax - prec <= p < emax)%Z -> (Rabs a <= bp p)%R -> (Rabs (rnd a) < bp emax)%R.
Proof. intros Hp' H. apply Rle_lt_trans with (bp p); [now apply rnd_le|apply bpow_lt; lia]. Qed.
Lemma fin_weaken p q x : (p <= q)%Z -> fin p x -> fin q x.
Proof. intros H (a & S & B). exists a. split; [exact S|]. apply Rle_trans with (1 := B). now apply bpow_le. Qed.
Lemma bp_succ p : bp (p + 1) = (2 * bp p)%R.
Proof. rewrite bpow_plus. cbn. ring. Qed.
Lemma fin_add p x y : (3 - emax - prec <= p < emax - 1)%Z -> fin p x -> fin p y -> fin (p + 1) (SFadd prec emax x y).
Proof.
  intros Hp' (a & S & B) (b & T & C).
  assert (D : (Rabs (a + b) <= bp (p + 1))%R) by (rewrite bp_succ; apply Rle_trans with (1 := Rabs_triang _ _); lra).
  exists (rnd (a + b)). split; [apply add_ok; [exact S|exact T|]|]; [apply (rnd_lt _ (p + 1)); [lia|exact D]|apply rnd_le; [lia|exact D]].
Qed.
Lemma fin_sub p x y : (3 - emax - prec <= p < emax - 1)%Z -> fin p x -> fin p y -> fin (p + 1) (SFsub prec emax x y).
Proof.
  intros Hp' (a & S & B) (b & T & C).
  assert (D : (Rabs (a - b) <= bp (p + 1))%R) by (rewrite bp_succ; unfold Rminus; apply Rle_trans with (1 := Rabs_triang _ _); rewrite Rabs_Ropp; lra).
  exists (rnd (a - b)). split; [apply sub_ok; [exact S|exact T|]|]; [apply (rnd_lt _ (p + 1)); [lia|exact D]|apply rnd_le; [lia|exact D]].
Qed.
Lemma fin_mul p q x y : (3 - emax - prec <= p + q < emax)%Z -> fin p x -> fin q y -> fin (p + q) (SFmul prec emax x y).
Proof.
  intros Hp' (a & S & B) (b & T & C).
  assert (D : (Rabs (a * b) <= bp (p + q))%R) by (rewrite Rabs_mult, bpow_plus; apply Rmult_le_compat; auto using Rabs_pos).
  exists (rnd (a * b)). split; [apply mul_ok; [exact S|exact T|]|]; [apply (rnd_lt _ (p + q)); [lia|exact D]|apply rnd_le; [lia|exact D]].
Qed.
Lemma fin_not_nan p x : fin p x -> nan_bit x = false.
Proof. intros (a & (H1 & H2 & _) & _). now destruct x. Qed.

(** Exact operations. *)
Lemma add_exact x y a b : st x a -> st y b -> fmt (a + b) -> (Rabs (a + b) < bp emax)%R -> st (SFadd prec emax x y) (a + b).
Proof. intros Hx Hy Hf Hb. rewrite <- (rnd_id _ Hf). apply add_ok; [exact Hx|exact Hy|now rewrite rnd_id]. Qed.
Lemma sub_exact x y a b : st x a -> st y b -> fmt (a - b) -> (Rabs (a - b) < bp emax)%R -> st (SFsub prec emax x y) (a - b).
Proof. intros Hx Hy Hf Hb. rewrite <- (rnd_id _ Hf). apply sub_ok; [exact Hx|exact Hy|now rewrite rnd_id]. Qed.
Lemma mul_exact x y a b : st x a -> st y b -> fmt (a * b) -> (Rabs (a * b) < bp emax)%R -> st (SFmul prec emax x y) (a * b).
Proof. intros Hx Hy Hf Hb. rewrite <- (rnd_id _ Hf). apply mul_ok; [exact Hx|exact Hy|now rewrite rnd_id]. Qed.
Lemma div_exact x y a b : st x a -> st y b -> b <> 0%R -> fmt (a / b) -> (Rabs (a / b) < bp emax)%R -> st (SFdiv prec emax x y) (a / b).
Proof. intros Hx Hy H0 Hf Hb. rewrite <- (rnd_id _ Hf). apply div_ok; [exact Hx|exact Hy|exact H0|now rewrite rnd_id]. Qed.
Lemma int_exact z : (Z.abs z <= 2 ^ prec)%Z -> st (SpecFloat.binary_normalize prec emax z 0 false) (IZR z).
Proof.
  intros H. assert (P : (0 < prec)%Z) by exact Hp. assert (Q : (prec < emax)%Z) by exact Hm.
  assert (F : fmt (IZR z)). { replace (IZR z) with (IZR z * bp 0)%R by (cbn; ring). apply grid; lia. }
  assert (B : (Rabs (IZR z) < bp emax)%R).
  { apply Rle_lt_trans with (bp prec); [|apply bpow_lt; lia]. rewrite <- abs_IZR, <- (IZR_Zpower radix2) by lia. now apply IZR_le. }
  assert (E : (IZR z * bp 0 = IZR z)%R) by (cbn; ring).
  pose proof (normalize_ok z 0) as N. rewrite E, rnd_id in N by exact F. now apply N.
Qed.
Lemma zero_is x : st x 0 -> exists s, x = S754_zero s.
Proof.
  intros (H1 & H2 & H3). destruct x as [s|s| |s m e]; try discriminate; [now exists s|]. cbn in H3. apply eq_0_F2R in H3. now destruct s.
Qed.
Lemma power_fits e z p : (Z.abs z <= 2 ^ p)%Z -> (0 <= p)%Z -> (p + e < emax)%Z -> (Rabs (IZR z * bp e) < bp emax)%R.
Proof.
  intros H P Q. rewrite Rabs_mult, (Rabs_pos_eq (bp e)) by apply bpow_ge_0. apply Rle_lt_trans with (bp (p + e)); [|apply bpow_lt; lia].
  rewrite bpow_plus. apply Rmult_le_compat_r; [apply bpow_ge_0|]. rewrite <- abs_IZR, <- (IZR_Zpower radix2) by lia. now apply IZR_le.
Qed.
End Ieee.
