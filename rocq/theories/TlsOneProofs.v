(** * A single measurement, and counterexamples. *)
From Coq Require Import List ZArith Reals Bool Lia Lra Sorting.Sorted Permutation.
From Coq Require Import Floats.SpecFloat.
From Flocq Require Import Core Relative BinarySingleNaN.
From Verif Require Import Base IntervalModel TlsFloatModel TlsFloatSpec TlsFloatProofs IeeeProofs TlsGridProofs.
Import ListNotations.
Open Scope outcome_scope.

Lemma nan_is x : nan_bit x = true -> x = S754_nan.
Proof. now destruct x. Qed.

Section One.
Context (prec emax : Z) (Hp : Prec_gt_0 prec) (Hm : Prec_lt_emax prec emax) (w : spec_float -> spec_float).
Notation A := (ieee_arith prec emax w).
Notation st := (stands prec emax).
Notation bp := (bpow radix2).
Notation rnd := (nearest prec emax).

Lemma rnd_opp x : rnd (- x) = (- rnd x)%R.
Proof. apply round_NE_opp. Qed.
Lemma zero_ok : st (of_int A 0) 0.
Proof. apply int_exact; [assumption..|]. cbn. apply Z.pow_nonneg. lia. Qed.
Lemma zero_add x a : st x a -> st (add A (of_int A 0) x) a.
Proof.
  intros H. destruct (in_format prec emax _ _ H) as [F B]. replace a with (0 + a)%R in * by ring. apply add_exact; [assumption..|exact zero_ok| |assumption|assumption].
  now rewrite Rplus_0_l in H.
Qed.
(** The sign the tag stands for. *)
Lemma unit_ok c : (c = 1 \/ c = -1)%Z -> st (of_int A c) (IZR c).
Proof. intros H. apply int_exact; [assumption..|]. assert (0 < prec)%Z by exact Hp. assert (2 ^ 0 <= 2 ^ prec)%Z by (apply Z.pow_le_mono_r; lia). cbn in H1. lia. Qed.
Lemma unit_mul c x a : (c = 1 \/ c = -1)%Z -> st x a -> st (mul A (of_int A c) x) (IZR c * a).
Proof.
  intros C H. destruct (in_format prec emax _ _ H) as [F B].
  apply mul_exact; [assumption..|now apply unit_ok|exact H| |].
  - destruct C as [-> | ->]; [now rewrite Rmult_1_l|]. replace (-1 * a)%R with (- a)%R by ring. now apply generic_format_opp.
  - rewrite Rabs_mult. destruct C as [-> | ->]; [rewrite Rabs_R1|change (-1)%R with (-(1))%R; rewrite Rabs_Ropp, Rabs_R1]; now rewrite Rmult_1_l.
Qed.

Lemma single_lemma sort v r a b c : orders sort -> st v a -> st r b -> st (w r) c -> c <> 0%R ->
  (Rabs (rnd (a - b)) < bp emax)%R -> (Rabs (rnd (a + b)) < bp emax)%R -> (Rabs (rnd (c * a)) < bp emax)%R -> (Rabs (rnd (rnd (c * a) / c)) < bp emax)%R ->
  exists est, estimate A sort [v] [r] = Ret (est, inlier_flags A est [v] [r]) /\ st est (rnd (rnd (c * a) / c)).
Proof.
  intros Hs V R W C0 B1 B2 B3 B4.
  assert (NN : no_nan (endpoints A 0 [v] [r])).
  { intros x Hx E. cbn in Hx. destruct Hx as [<-|[<-|[]]]; cbn [fst] in E.
    - destruct (sub_ok prec emax Hp Hm _ _ _ _ V R B1) as (_ & F & _). rewrite E in F. discriminate F.
    - destruct (add_ok prec emax Hp Hm _ _ _ _ V R B2) as (_ & F & _). rewrite E in F. discriminate F. }
  destruct (estimate_defined A (conj lt_irrefl lt_trans) sort [v] [r] (Hs _ NN) eq_refl) as (t & j & est & kk & T & L & Nj & _ & Ej & ES); [cbn; lia|cbn; lia| |].
  { intros [x t] Hx. specialize (NN (x, t) Hx). cbn [fst] in *. change (nan_bit x = false). now destruct x. }
  exists est. split; [exact ES|].
  destruct (Hs (endpoints A 0 [v] [r]) NN) as [P _].
  assert (X : exists u (k1 k2 : spec_float), (u = 1 \/ u = -1)%Z /\ sort (endpoints A 0 [v] [r]) = [(k1, u); (k2, (- u)%Z)]).
  { change (endpoints A 0 [v] [r]) with [(SFsub prec emax v r, 1%Z); (SFadd prec emax v r, (-1)%Z)] in *.
    apply Permutation_length_2_inv in P. destruct P as [-> | ->]; [exists 1%Z|exists (-1)%Z]; do 2 eexists; (split; [auto|reflexivity]). }
  destruct X as (u & k1 & k2 & U & ->) in T. clear P.
  assert (T' : exists s1 s2, t = [candidate A s1; candidate A s2] /\ st (vw A s1) (IZR u * rnd (c * a)) /\ st (cw A s1) (IZR u * c) /\ st (vw A s2) 0 /\ st (cw A s2) 0).
  { assert (I1 : (Z.abs u - 1 = 0)%Z) by (destruct U; subst; reflexivity). assert (I2 : (Z.abs (- u) - 1 = 0)%Z) by (destruct U; subst; reflexivity).
    assert (J1 : (if 0 <? u then 1 else -1)%Z = u) by (destruct U; subst; reflexivity). assert (J2 : (if 0 <? - u then 1 else -1)%Z = (- u)%Z) by (destruct U; subst; reflexivity).
    cbn [sweep] in T. unfold step in T. rewrite I1, I2, J1, J2 in T. cbn [zread vread obind Z.ltb Z.compare Z.to_nat nth_error weight ieee_arith] in T.
    injection T as <-. do 2 eexists. split; [reflexivity|]. cbn [vw cw sums0].
    assert (U' : (- u = 1 \/ - u = -1)%Z) by lia.
    pose proof (unit_mul u _ _ U W) as K1. pose proof (unit_mul (- u) _ _ U' W) as K2.
    assert (Q : forall q, (q = 1 \/ q = -1)%Z -> rnd (IZR q * c * a) = (IZR q * rnd (c * a))%R).
    { intros q [-> | ->]; [now rewrite !Rmult_1_l|]. replace (-1 * c * a)%R with (- (c * a))%R by ring. rewrite rnd_opp. ring. }
    assert (Q' : forall q, (q = 1 \/ q = -1)%Z -> (Rabs (rnd (IZR q * c * a)) < bp emax)%R).
    { intros q H. rewrite Q by exact H. rewrite Rabs_mult. destruct H as [-> | ->]; [rewrite Rabs_R1|change (-1)%R with (-(1))%R; rewrite Rabs_Ropp, Rabs_R1]; now rewrite Rmult_1_l. }
    pose proof (mul_ok prec emax Hp Hm _ _ _ _ K1 V (Q' u U)) as M1. pose proof (mul_ok prec emax Hp Hm _ _ _ _ K2 V (Q' (- u)%Z U')) as M2.
    rewrite Q in M1 by exact U. rewrite Q in M2 by exact U'.
    assert (Z1 := zero_add _ _ M1). assert (Z2 := zero_add _ _ K1).
    split; [exact Z1|]. split; [exact Z2|]. split.
    - replace 0%R with (IZR u * rnd (c * a) + IZR (- u) * rnd (c * a))%R by (rewrite opp_IZR; ring).
      apply add_exact; [assumption..| |]; replace (IZR u * rnd (c * a) + IZR (- u) * rnd (c * a))%R with 0%R by (rewrite opp_IZR; ring); [apply generic_format_0|rewrite Rabs_R0; apply bpow_gt_0].
    - replace 0%R with (IZR u * c + IZR (- u) * c)%R by (rewrite opp_IZR; ring).
      apply add_exact; [assumption..| |]; replace (IZR u * c + IZR (- u) * c)%R with 0%R by (rewrite opp_IZR; ring); [apply generic_format_0|rewrite Rabs_R0; apply bpow_gt_0]. }
  destruct T' as (s1 & s2 & -> & V1 & W1 & V2 & W2).
  assert (N2 : snd (candidate A s2) = S754_nan).
  { assert (X : nan_bit (snd (candidate A s2)) = true).
    { apply nan_cost. destruct (zero_is prec emax _ V2) as (x & E1), (zero_is prec emax _ W2) as (y & E2). change (num A) with spec_float in *. now rewrite E1, E2. }
    exact (nan_is _ X). }
  assert (J0 : j = 0%nat). { rewrite Ej. cbn [map min_element min_loop]. rewrite N2. reflexivity. }
  rewrite J0 in Nj. cbn [nth_error] in Nj. injection Nj as <- _.
  assert (D : (IZR u * rnd (c * a) / (IZR u * c) = rnd (c * a) / c)%R) by (field; split; [exact C0|destruct U; subst; apply not_0_IZR; lia]).
  rewrite <- D in *. apply div_ok; [assumption..| |exact B4]. apply Rmult_integral_contrapositive_currified; [destruct U; subst; apply not_0_IZR; lia|exact C0].
Qed.

(** The error. *)
Lemma rel_err x : (bp (2 - emax) <= Rabs x)%R -> (Rabs (rnd x - x) <= bp (- prec) * Rabs x)%R.
Proof.
  intros H. pose proof (relative_error_N_FLT radix2 (3 - emax - prec) prec Hp (fun n => negb (Z.even n)) x) as E.
  replace (3 - emax - prec + prec - 1)%Z with (2 - emax)%Z in E by lia. specialize (E H).
  replace (bp (- prec)) with (/ 2 * bp (- prec + 1))%R by (rewrite bpow_plus; cbn; lra). exact E.
Qed.
Lemma rnd_lower x p : (3 - emax - prec <= p)%Z -> (bp p <= Rabs x)%R -> (bp p <= Rabs (rnd x))%R.
Proof. intros H1 H2. apply abs_round_ge_generic; [now apply flt_valid|apply valid_rnd_N|now apply generic_format_FLT_bpow|exact H2]. Qed.

Lemma one_lemma sort v r a b c W W' V : orders sort -> st v a -> st r b -> st (w r) c ->
  (bp (- W) <= c <= bp W')%R -> (a = 0 \/ bp (- V) <= Rabs a)%R -> (Rabs a <= bp V)%R -> (Rabs b <= bp V)%R ->
  (0 <= V)%Z -> (0 <= W)%Z -> (0 <= W')%Z -> (2 - emax <= - W - V - 1)%Z -> (W' + V + 1 < emax)%Z ->
  exists est, estimate A sort [v] [r] = Ret (est, inlier_flags A est [v] [r]) /\ st est (SF2R radix2 est) /\ (Rabs (SF2R radix2 est - a) <= 3 * bp (- prec) * Rabs a)%R.
Proof.
  intros Hs Sv Sr Sw [C1 C2] A1 A2 B V0 W0 W0' E1 E2. assert (PP : (0 < prec)%Z) by exact Hp. assert (PE : (prec < emax)%Z) by exact Hm.
  assert (Cp : (0 < c)%R) by (apply Rlt_le_trans with (2 := C1); apply bpow_gt_0).
  assert (Bp : forall x y, (Rabs x <= bp V)%R -> (Rabs y <= bp V)%R -> (Rabs (x + y) <= bp (V + 1))%R).
  { intros x y Hx Hy. rewrite bp_succ. apply Rle_trans with (1 := Rabs_triang _ _). lra. }
  assert (CA : (Rabs (c * a) <= bp (W' + V))%R).
  { rewrite Rabs_mult, (Rabs_pos_eq c), bpow_plus by lra. apply Rmult_le_compat; [lra|apply Rabs_pos|exact C2|exact A2]. }
  assert (ERR : (Rabs (rnd (rnd (c * a) / c) - a) <= 3 * bp (- prec) * Rabs a)%R /\ (Rabs (rnd (c * a) / c) <= bp (V + 1))%R).
  { assert (U : (0 < bp (- prec) <= / 2)%R). { split; [apply bpow_gt_0|]. change (/ 2)%R with (bp (-1)). apply bpow_le. lia. }
    set (d := bp (- prec)) in *.
    destruct A1 as [-> |A1].
    - assert (Z0 : rnd (c * 0) = 0%R) by (rewrite Rmult_0_r; apply round_0; apply valid_rnd_N). rewrite Z0. replace (0 / c)%R with 0%R by (unfold Rdiv; ring).
      assert (Z1 : rnd 0 = 0%R) by (apply round_0; apply valid_rnd_N). rewrite Z1, Rminus_0_r, !Rabs_R0. split; [lra|apply bpow_ge_0].
    - assert (CL : (bp (- W - V) <= Rabs (c * a))%R).
      { rewrite Rabs_mult, (Rabs_pos_eq c) by lra. unfold Z.sub. rewrite bpow_plus. apply Rmult_le_compat; [apply bpow_ge_0|apply bpow_ge_0|exact C1|exact A1]. }
      pose proof (rel_err (c * a) (Rle_trans _ _ _ (bpow_le radix2 (2 - emax) (- W - V) ltac:(lia)) CL)) as R1. fold d in R1.
      set (p := rnd (c * a)) in *.
      assert (Q : (p / c - a = (p - c * a) / c)%R) by (field; lra).
      assert (R2 : (Rabs (p / c - a) <= d * Rabs a)%R).
      { rewrite Q. unfold Rdiv. rewrite Rabs_mult, Rabs_inv, (Rabs_pos_eq c) by lra. apply Rmult_le_reg_r with c; [exact Cp|]. rewrite Rmult_assoc, Rinv_l, Rmult_1_r by lra.
        rewrite Rabs_mult, (Rabs_pos_eq c) in R1 by lra. lra. }
      pose proof (Rabs_triang (p / c - a) a) as T1. replace (p / c - a + a)%R with (p / c)%R in T1 by ring.
      pose proof (Rabs_triang (p / c) (- (p / c - a))) as T2. replace (p / c + - (p / c - a))%R with a in T2 by ring. rewrite Rabs_Ropp in T2.
      assert (AP := Rabs_pos a). assert (DA : (d * Rabs a <= / 2 * Rabs a)%R) by (apply Rmult_le_compat_r; lra).
      assert (PL : (bp (- V - 1) <= Rabs (p / c))%R).
      { unfold Z.sub. rewrite bpow_plus. change (bp (-(1))) with (/ 2)%R. lra. }
      pose proof (rel_err (p / c) (Rle_trans _ _ _ (bpow_le radix2 (2 - emax) (- V - 1) ltac:(lia)) PL)) as R3. fold d in R3.
      split; [|rewrite bp_succ; lra].
      replace (rnd (p / c) - a)%R with ((rnd (p / c) - p / c) + (p / c - a))%R by ring. apply Rle_trans with (1 := Rabs_triang _ _).
      assert (d * Rabs (p / c) <= d * (2 * Rabs a))%R by (apply Rmult_le_compat_l; lra). lra. }
  destruct ERR as [ERR QB].
  destruct (single_lemma sort v r a b c Hs Sv Sr Sw) as (est & EQ & SE).
  - lra.
  - apply (rnd_lt prec emax Hp _ (V + 1)); [lia|]. apply Bp; [exact A2|now rewrite Rabs_Ropp].
  - apply (rnd_lt prec emax Hp _ (V + 1)); [lia|]. now apply Bp.
  - apply (rnd_lt prec emax Hp _ (W' + V)); [lia|exact CA].
  - apply (rnd_lt prec emax Hp _ (V + 1)); [lia|exact QB].
  - exists est. split; [exact EQ|]. destruct SE as (S1 & S2 & S3). rewrite S3. split; [now repeat split|exact ERR].
Qed.
End One.

(** ** Weights of any range *)
Section Convert.
Context (prec emax : Z) (Hp : Prec_gt_0 prec) (Hm : Prec_lt_emax prec emax).
Lemma convert_rnd p' e' x a : stands p' e' x a -> (Rabs (nearest prec emax a) < bpow radix2 emax)%R -> stands prec emax (convert prec emax x) (nearest prec emax a).
Proof.
  intros (H1 & H2 & H3) Hb. destruct x as [s|s| |s m e]; try discriminate; cbn [convert].
  - cbn in H3. subst a. assert (E : nearest prec emax 0 = 0%R) by (apply round_0, valid_rnd_N). rewrite E. now repeat split.
  - rewrite round_equiv. destruct (binary_round_correct prec emax Hp Hm mode_NE s m e) as [V C]. cbv zeta in C. cbn [SF2R] in H3. rewrite H3 in C.
    change (round_mode mode_NE) with ZnearestE in C. change (SpecFloat.fexp prec emax) with (FLT_exp (3 - emax - prec) prec) in C.
    rewrite Rlt_bool_true in C by exact Hb. destruct C as (C1 & C2 & _). repeat split; assumption.
Qed.
Lemma rnd_range x p q : (3 - emax - prec <= p <= q)%Z -> (bpow radix2 p <= x <= bpow radix2 q)%R -> (bpow radix2 p <= nearest prec emax x <= bpow radix2 q)%R.
Proof.
  intros H B. apply nearest_between; [assumption..| | |exact B]; (apply generic_format_FLT_bpow; [exact Hp|lia]).
Qed.
Lemma range_lt x p q : (q < emax)%Z -> (bpow radix2 p <= x <= bpow radix2 q)%R -> (Rabs x < bpow radix2 emax)%R.
Proof. intros H [B1 B2]. rewrite Rabs_pos_eq by (apply Rle_trans with (2 := B1), bpow_ge_0). apply Rle_lt_trans with (1 := B2). now apply bpow_lt. Qed.
End Convert.
Lemma mul_range x y p q p' q' : (bpow radix2 p <= x <= bpow radix2 q)%R -> (bpow radix2 p' <= y <= bpow radix2 q')%R -> (bpow radix2 (p + p') <= x * y <= bpow radix2 (q + q'))%R.
Proof.
  intros [A B] [C D]. rewrite !bpow_plus. pose proof (bpow_ge_0 radix2 p). pose proof (bpow_ge_0 radix2 p'). split; apply Rmult_le_compat; lra.
Qed.
Lemma inv_range x p q : (bpow radix2 p <= x <= bpow radix2 q)%R -> (bpow radix2 (- q) <= 1 / x <= bpow radix2 (- p))%R.
Proof.
  intros [A B]. pose proof (bpow_gt_0 radix2 p). rewrite !bpow_opp. unfold Rdiv. rewrite Rmult_1_l. split; apply Rinv_le; lra || assumption.
Qed.
Lemma tera_is : stands 53 1024 d_tera (IZR 1000000000000).
Proof. apply (int_exact 53 1024 _ _ 1000000000000). cbn. lia. Qed.
Lemma tera_range p : (p <= 39)%Z -> (bpow radix2 p <= IZR 1000000000000 <= bpow radix2 40)%R.
Proof.
  intros H. split; [apply Rle_trans with (bpow radix2 39); [now apply bpow_le|]|]; cbn; lra.
Qed.
Lemma micro_ge b : (IZR 4722366482869645 * bpow radix2 (-72) <= b)%R -> (bpow radix2 (-20) <= b)%R.
Proof.
  intros H. apply Rle_trans with (2 := H). replace (bpow radix2 (-20)) with (IZR (2 ^ 52) * bpow radix2 (-72))%R by (rewrite (IZR_Zpower radix2) by lia; rewrite <- bpow_plus; reflexivity).
  apply Rmult_le_compat_r; [apply bpow_ge_0|]. apply IZR_le. lia.
Qed.

Lemma weight_range_double r b : stands 53 1024 r b -> (0 < b <= bpow radix2 300)%R ->
  exists c, stands 53 1024 (weight double r) c /\ (bpow radix2 (- 600) <= c <= bpow radix2 40)%R.
Proof.
  intros R [B0 B1]. cbn [weight double]. pose proof (abs_ok 53 1024 _ _ R) as RA. rewrite Rabs_pos_eq in RA by lra.
  rewrite (ltb_ok 53 1024 _ _ _ _ RA micro_is). destruct (Rlt_bool_spec b (IZR 4722366482869645 * bpow radix2 (-72))) as [L|L].
  - exists (IZR 1000000000000). split; [exact tera_is|apply tera_range; lia].
  - apply micro_ge in L. pose proof (mul_range b b (-20) 300 (-20) 300 (conj L B1) (conj L B1)) as Q.
    pose proof (rnd_range 53 1024 _ _ (-20 + -20) (300 + 300) ltac:(lia) Q) as Q'.
    pose proof (mul_ok 53 1024 _ _ _ _ _ _ R R (range_lt 1024 _ (-20 + -20) (300 + 300) ltac:(lia) Q')) as S.
    pose proof (inv_range _ _ _ Q') as I. pose proof (rnd_range 53 1024 _ _ (- (300 + 300)) (- (-20 + -20)) ltac:(lia) I) as I'.
    eexists. split; [|exact I']. apply div_ok; [exact _..|apply (int_exact 53 1024 _ _ 1); cbn; lia|exact S| |exact (range_lt 1024 _ _ (- (-20 + -20)) ltac:(lia) I')].
    apply Rgt_not_eq. apply Rlt_le_trans with (2 := proj1 Q'). apply bpow_gt_0.
Qed.
Lemma widen x b : stands 24 128 x b -> stands 53 1024 (convert 53 1024 x) b.
Proof.
  intros H. destruct (in_format 24 128 _ _ H) as [F B]. apply (convert_ok 53 1024 _ _ 24 128); [exact H| |].
  - apply FLT_format_generic in F; [|exact _]. destruct F as [f F1 F2 F3]. apply generic_format_FLT. exists f; [exact F1|cbn in *; lia|cbn in *; lia].
  - apply Rlt_trans with (1 := B). apply bpow_lt. lia.
Qed.
Lemma weight_range_single r b : stands 24 128 r b -> (0 < b <= bpow radix2 40)%R ->
  exists c, stands 24 128 (weight single r) c /\ (bpow radix2 (- 80) <= c <= bpow radix2 40)%R.
Proof.
  intros R [B0 B1]. cbn [weight single]. pose proof (abs_ok 24 128 _ _ R) as RA. rewrite Rabs_pos_eq in RA by lra.
  rewrite (ltb_ok 53 1024 _ _ _ _ (widen _ _ RA) micro_is). destruct (Rlt_bool_spec b (IZR 4722366482869645 * bpow radix2 (-72))) as [L|L].
  - pose proof (rnd_range 24 128 _ _ (-80) 40 ltac:(lia) (tera_range (-80) ltac:(lia))) as T.
    eexists. split; [|exact T]. apply (convert_rnd 24 128 _ _ 53 1024); [exact tera_is|exact (range_lt 128 _ _ 40 ltac:(lia) T)].
  - apply micro_ge in L. pose proof (mul_range b b (-20) 40 (-20) 40 (conj L B1) (conj L B1)) as Q.
    pose proof (rnd_range 24 128 _ _ (-20 + -20) (40 + 40) ltac:(lia) Q) as Q'.
    pose proof (mul_ok 24 128 _ _ _ _ _ _ R R (range_lt 128 _ (-20 + -20) (40 + 40) ltac:(lia) Q')) as S. apply widen in S.
    pose proof (inv_range _ _ _ Q') as I. pose proof (rnd_range 53 1024 _ _ (- (40 + 40)) (- (-20 + -20)) ltac:(lia) I) as I'.
    pose proof (rnd_range 24 128 _ _ (- (40 + 40)) (- (-20 + -20)) ltac:(lia) I') as I2.
    eexists. split; [|exact I2]. apply (convert_rnd 24 128 _ _ 53 1024); [|exact (range_lt 128 _ _ (- (-20 + -20)) ltac:(lia) I2)].
    apply div_ok; [exact _..|apply (int_exact 53 1024 _ _ 1); cbn; lia|exact S| |exact (range_lt 1024 _ _ (- (-20 + -20)) ltac:(lia) I')].
    apply Rgt_not_eq. apply Rlt_le_trans with (2 := proj1 Q'). apply bpow_gt_0.
Qed.
