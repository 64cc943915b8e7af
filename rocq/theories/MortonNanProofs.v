(** * Proofs: Morton comparison of floats with NaN. *)
From Coq Require Import List ZArith Bool Lia.
From Verif Require Import Base BaseLemmas BitsModel BitsSpec BitsProofs MortonModel MortonSpec MortonProofs MortonFloatModel MortonFloatSpec MortonFloatProofs MortonNanModel MortonNanSpec.
Import ListNotations.
Open Scope outcome_scope.
Open Scope Z_scope.

Lemma is_nan_s x : single x -> is_nan F32 x = (s_exp x =? 255) && negb (s_man x =? 0).
Proof. intros H. unfold is_nan. rewrite dec_s by auto. cbn [ft_bias]. replace (s_exp x - 127 + 127) with (s_exp x) by lia. reflexivity. Qed.
Lemma nan_true x : s_nan x -> is_nan F32 x = true.
Proof. intros (H & E & M). rewrite is_nan_s, E by auto. destruct (Z.eqb_spec (s_man x) 0); [contradiction|reflexivity]. Qed.
Lemma nan_false x : s_finite x -> is_nan F32 x = false.
Proof. intros (H & E). rewrite is_nan_s by auto. destruct (Z.eqb_spec (s_exp x) 255); [lia|reflexivity]. Qed.

Lemma xor_nan_finite x y : s_finite x -> s_finite y -> xorFloat_nan F32 x y = xorFloat F32 x y.
Proof. intros Hx Hy. unfold xorFloat_nan, fabs_gt. rewrite !nan_false by auto. reflexivity. Qed.

(** The exclusive-or of finite numbers is not NaN. *)
Lemma xor_not_nan x y r m e : s_finite x -> s_finite y -> xorFloat F32 x y = Ret (r, m, e) -> is_nan F32 r = false.
Proof.
  intros [Hx Fx] [Hy Fy] E. destruct (bool_dec (s_neg x) (s_neg y)) as [Hs|Hs].
  2:{ rewrite xor_opposite in E by auto. injection E as <- _ _. reflexivity. }
  destruct (Z.eq_dec (man2 x y) 0) as [M0|M0].
  - destruct (s_neg x) eqn:Nx; [rewrite xor_negative_ub in E by auto; discriminate|].
    pose proof (sdiff_range x y ltac:(congruence)) as R. revert E. rewrite xor_same_sign by congruence. destruct (Z.eqb_spec (sdiff x y) 0) as [E0|E0].
    + intros E. injection E as <- _ _. reflexivity.
    + rewrite it_log2_32 by lia. cbn [obind]. destruct (shl 32 _ _) as [sh| | |]; try discriminate. cbn [obind].
      assert (L : Z.log2 (sdiff x y) < 24) by (apply Z.log2_lt_pow2; lia). pose proof (big_is_max x y) as B.
      destruct (Z.le_gt_cases 0 (s_exp (big x y) - 23 + Z.log2 (sdiff x y))) as [P|P].
      * assert (ML : 0 <= Z.land sh (2 ^ 23 - 1) < 2 ^ 23) by (change (2 ^ 23 - 1) with (Z.ones 23); rewrite Z.land_ones by lia; apply Z.mod_pos_bound; lia).
        destruct (comp_s (Z.land sh (2 ^ 23 - 1)) (s_exp (big x y) - 23 + Z.log2 (sdiff x y)) ML) as (r' & C & Sr & _ & Er & _); [lia|]. cbn [ft_compose] in C.
        replace (s_exp (big x y) - 127 - (23 - Z.log2 (sdiff x y))) with (s_exp (big x y) - 23 + Z.log2 (sdiff x y) - 127) by lia. rewrite C. cbn [obind]. intros E. injection E as <- _ _.
        rewrite is_nan_s, Er by auto. destruct (Z.eqb_spec (s_exp (big x y) - 23 + Z.log2 (sdiff x y)) 255); [lia|reflexivity].
      * unfold setF at 1, sadd. destruct (_ && _); [|discriminate]. cbn [obind]. unfold shl at 1.
        destruct (Z.ltb_spec (s_exp (big x y) - 127 - (23 - Z.log2 (sdiff x y)) + 127) 0); [|lia]. discriminate.
  - pose proof (sdiff_range x y ltac:(auto)) as R. revert E. rewrite xor_same_sign by congruence. destruct (Z.eqb_spec (sdiff x y) 0) as [E0|E0].
    + intros E. injection E as <- _ _. reflexivity.
    + rewrite it_log2_32 by lia. cbn [obind]. destruct (shl 32 _ _) as [sh| | |]; try discriminate. cbn [obind].
      assert (L : Z.log2 (sdiff x y) < 24) by (apply Z.log2_lt_pow2; lia). pose proof (big_is_max x y) as B.
      destruct (Z.le_gt_cases 0 (s_exp (big x y) - 23 + Z.log2 (sdiff x y))) as [P|P].
      * assert (ML : 0 <= Z.land sh (2 ^ 23 - 1) < 2 ^ 23) by (change (2 ^ 23 - 1) with (Z.ones 23); rewrite Z.land_ones by lia; apply Z.mod_pos_bound; lia).
        destruct (comp_s (Z.land sh (2 ^ 23 - 1)) (s_exp (big x y) - 23 + Z.log2 (sdiff x y)) ML) as (r' & C & Sr & _ & Er & _); [lia|]. cbn [ft_compose] in C.
        replace (s_exp (big x y) - 127 - (23 - Z.log2 (sdiff x y))) with (s_exp (big x y) - 23 + Z.log2 (sdiff x y) - 127) by lia. rewrite C. cbn [obind]. intros E. injection E as <- _ _.
        rewrite is_nan_s, Er by auto. destruct (Z.eqb_spec (s_exp (big x y) - 23 + Z.log2 (sdiff x y)) 255); [lia|reflexivity].
      * unfold setF at 1, sadd. destruct (_ && _); [|discriminate]. cbn [obind]. unfold shl at 1.
        destruct (Z.ltb_spec (s_exp (big x y) - 127 - (23 - Z.log2 (sdiff x y)) + 127) 0); [|lia]. discriminate.
Qed.

Lemma loop_agree r : Forall (fun p => s_finite (fst p) /\ s_finite (snd p)) r -> forall d ld lx le, is_nan F32 lx = false ->
  fcmp_loop_nan F32 d r ld lx le = fcmp_loop F32 d r ld lx le.
Proof.
  induction 1 as [|[x y] r [Hx Hy] _ IH]; intros d ld lx le Hl; [reflexivity|]. cbn [fst snd] in *. cbn [fcmp_loop_nan fcmp_loop]. rewrite xor_nan_finite by auto.
  destruct (xorFloat F32 x y) as [[[r1 m1] e1]| | |] eqn:E; try reflexivity. cbn [obind]. pose proof (xor_not_nan x y r1 m1 e1 Hx Hy E) as N.
  unfold flt. rewrite Hl, N. cbn [negb andb]. destruct (_ && _); apply IH; auto.
Qed.
Lemma cmp_agree v1 v2 : length v1 = length v2 -> Forall s_finite v1 -> Forall s_finite v2 -> mortonCmpFloat_nan F32 v1 v2 = mortonCmpFloat F32 v1 v2.
Proof.
  intros L F1 F2. assert (F : Forall (fun p => s_finite (fst p) /\ s_finite (snd p)) (combine v1 v2)).
  { apply Forall_forall. intros [a b] H. rewrite Forall_forall in F1, F2. split; [apply F1; eapply in_combine_l; eauto|apply F2; eapply in_combine_r; eauto]. }
  unfold mortonCmpFloat_nan, mortonCmpFloat. destruct (combine v1 v2) as [|[x y] r]; [reflexivity|]. inversion_clear F as [|? ? [Hx Hy] Fr]. cbn [fst snd] in *.
  rewrite xor_nan_finite by auto. destruct (xorFloat F32 x y) as [[[r1 m1] e1]| | |] eqn:E; try reflexivity. cbn [obind]. pose proof (xor_not_nan x y r1 m1 e1 Hx Hy E) as N.
  rewrite loop_agree by auto. destruct (fcmp_loop F32 1 r 0 r1 e1) as [k| | |]; try reflexivity. cbn [obind]. unfold vread.
  destruct (nth_error v1 k) as [a|] eqn:E1; [|reflexivity]. cbn [obind]. destruct (nth_error v2 k) as [b|] eqn:E2; [|reflexivity]. cbn [obind].
  rewrite Forall_forall in F1, F2. unfold flt. rewrite !nan_false by (eauto using nth_error_In). reflexivity.
Qed.

(** NaN on the left. *)
Lemma xor_nan_left x y : s_nan x -> s_finite y -> s_neg x = s_neg y -> xorFloat_nan F32 x y = UB.
Proof.
  intros Nx [Hy Fy] Hs. pose proof Nx as (Hx & Ex & Mx). unfold xorFloat_nan, fabs_gt. rewrite nan_true by auto. cbn [negb andb]. rewrite !dec_s by auto. rewrite Hs, xorb_nilpotent.
  cbn [ft_bits]. destruct (Z.ltb_spec (s_exp y - 127) (s_exp x - 127 + 32)); [|lia]. destruct (Z.ltb_spec (s_exp y - 127 - (s_exp x - 127)) 0); [|lia]. reflexivity.
Qed.
Lemma pure_xor_nan f x y : pure (xorFloat_nan f x y).
Proof.
  unfold xorFloat_nan. destruct (if fabs_gt f x y then (x, y) else (y, x)) as [f1 f2].
  destruct (ft_decompose f f1) as [[m1 e1] s1]. destruct (ft_decompose f f2) as [[m2 e2] s2].
  destruct (xorb s1 s2); [apply pure_bind; [apply pure_compose|intros; exact I]|]. cbv zeta.
  apply pure_bind; [destruct (_ <? _); [destruct (_ <? _)|]; exact I|]. intros fm2.
  destruct (_ =? 0); [apply pure_bind; [apply pure_compose|intros; exact I]|].
  apply pure_bind.
  - unfold it_log2Mod, neg. destruct (ft_ity f); cbn [is_signed]; repeat match goal with |- context [if ?c then _ else _] => destruct c end; exact I.
  - intros l. apply pure_bind; [unfold shl; destruct (_ || _); exact I|]. intros sh. apply pure_bind; [apply pure_compose|intros; exact I].
Qed.
Lemma loop_nan_ub f r : forall d ld lx le, (exists p, In p r /\ xorFloat_nan f (fst p) (snd p) = UB) -> fcmp_loop_nan f d r ld lx le = UB.
Proof.
  induction r as [|[x y] r IH]; intros d ld lx le (p & Hp & E); [destruct Hp|]. cbn [fcmp_loop_nan]. pose proof (pure_xor_nan f x y) as HP.
  destruct (xorFloat_nan f x y) as [[[r1 m1] e1]| | |] eqn:EX; cbn [obind]; try reflexivity; try contradiction.
  destruct Hp as [<-|Hp]; [cbn [fst snd] in E; congruence|]. destruct (_ && _); apply IH; eauto.
Qed.
Lemma cmp_nan_left v1 v2 i : length v1 = length v2 -> (i < length v1)%nat -> s_nan (nth i v1 0) -> s_finite (nth i v2 0) -> s_neg (nth i v1 0) = s_neg (nth i v2 0) ->
  mortonCmpFloat_nan F32 v1 v2 = UB.
Proof.
  intros Hl Hi N F Hs.
  assert (Hin : exists p, In p (combine v1 v2) /\ xorFloat_nan F32 (fst p) (snd p) = UB).
  { exists (nth i (combine v1 v2) (0, 0)). split; [apply nth_In; rewrite combine_length; lia|]. rewrite combine_nth by auto. cbn [fst snd]. now apply xor_nan_left. }
  unfold mortonCmpFloat_nan. destruct (combine v1 v2) as [|[x y] r]; [reflexivity|].
  pose proof (pure_xor_nan F32 x y) as HP.
  destruct Hin as (p & [<-|Hp] & Ep).
  - cbn [fst snd] in Ep. rewrite Ep. reflexivity.
  - destruct (xorFloat_nan F32 x y) as [[[r1 m1] e1]| | |] eqn:EX; cbn [obind]; try reflexivity; try contradiction.
    rewrite loop_nan_ub by eauto. reflexivity.
Qed.

(** NaN on the right, non-negative sign: larger magnitude pattern, so the exclusive-or is that of the patterns. *)
Lemma nan_mag x y : s_finite x -> s_nan y -> s_mag x < s_mag y.
Proof. intros [_ H] (_ & E & _). apply s_mag_le. lia. Qed.
Lemma xor_nan_right x y : s_finite x -> s_nan y -> xorFloat_nan F32 x y = xorFloat F32 x y.
Proof.
  intros Hx Ny. pose proof (nan_mag x y Hx Ny) as M. unfold xorFloat_nan, fabs_gt, xorFloat. rewrite (nan_true y Ny). rewrite andb_false_r. cbn [andb].
  rewrite !fmag_s by (apply Hx || apply Ny). destruct (Z.ltb_spec (s_mag y) (s_mag x)); [lia|]. reflexivity.
Qed.
Lemma xor_right_ret x y : s_finite x -> s_nan y -> s_neg x = false -> s_neg y = false -> exists r, xorFloat_nan F32 x y = Ret r.
Proof.
  intros Hx Ny Px Py. rewrite xor_nan_right by auto. pose proof Hx as [Sx Fx]. pose proof Ny as (Sy & Ey & My). rewrite xor_same_sign by congruence.
  destruct (Z.eqb_spec (sdiff x y) 0) as [E0|E0]; [eexists; reflexivity|]. pose proof (sdiff_range x y ltac:(congruence)) as R. rewrite it_log2_32 by lia. cbn [obind].
  assert (L : Z.log2 (sdiff x y) < 24) by (apply Z.log2_lt_pow2; lia). pose proof (Z.log2_nonneg (sdiff x y)) as L0. pose proof (big_is_max x y) as B. pose proof (s_ranges x) as [_ Rx].
  assert (S : exists sh, shl 32 (sdiff x y) (23 - Z.log2 (sdiff x y)) = Ret sh).
  { unfold shl. destruct (Z.ltb_spec (sdiff x y) 0); [lia|]. destruct (Z.ltb_spec (23 - Z.log2 (sdiff x y)) 0); [lia|]. destruct (Z.leb_spec 32 (23 - Z.log2 (sdiff x y))); [lia|].
    rewrite Z.shiftl_mul_pow2 by lia. pose proof (proj2 (Z.log2_spec (sdiff x y) ltac:(lia))) as U.
    assert (sdiff x y * 2 ^ (23 - Z.log2 (sdiff x y)) < 2 ^ 24).
    { replace (2 ^ 24) with (2 ^ Z.succ (Z.log2 (sdiff x y)) * 2 ^ (23 - Z.log2 (sdiff x y))) by (rewrite <- Z.pow_add_r by lia; f_equal; lia). apply Z.mul_lt_mono_pos_r; [apply Z.pow_pos_nonneg; lia|exact U]. }
    destruct (Z.leb_spec (2 ^ 32) (sdiff x y * 2 ^ (23 - Z.log2 (sdiff x y)))); [lia|]. cbn [orb]. eauto. }
  destruct S as (sh & ->). cbn [obind].
  assert (ML : 0 <= Z.land sh (2 ^ 23 - 1) < 2 ^ 23) by (change (2 ^ 23 - 1) with (Z.ones 23); rewrite Z.land_ones by lia; apply Z.mod_pos_bound; lia).
  destruct (comp_s (Z.land sh (2 ^ 23 - 1)) (s_exp (big x y) - 23 + Z.log2 (sdiff x y)) ML) as (r' & C & _); [lia|]. cbn [ft_compose] in C.
  replace (s_exp (big x y) - 127 - (23 - Z.log2 (sdiff x y))) with (s_exp (big x y) - 23 + Z.log2 (sdiff x y) - 127) by lia. rewrite C. cbn [obind]. eauto.
Qed.
Lemma cmp_nan_right x y : s_finite x -> s_nan y -> s_neg x = false -> s_neg y = false -> mortonCmpFloat_nan F32 [x] [y] = Ret false.
Proof.
  intros Hx Ny Px Py. unfold mortonCmpFloat_nan. cbn [combine]. destruct (xor_right_ret x y Hx Ny Px Py) as ([[r m] e] & ->). cbn [obind fcmp_loop_nan vread nth_error].
  unfold flt. rewrite (nan_true y Ny), andb_false_r. reflexivity.
Qed.
Lemma nan_refuted_lemma : exists v1 v2, length v1 = length v2 /\ (exists i, s_nan (nth i v1 0)) /\ Forall s_finite v2 /\
  mortonCmpFloat_nan F32 v1 v2 = UB /\ mortonCmpFloat_nan F32 v2 v1 = Ret false.
Proof.
  exists [0x3F800000; 0x7FC00000], [0x3F800000; 0x40000000]. split; [reflexivity|]. split; [exists 1%nat; cbn [nth]; repeat split; vm_compute; congruence|].
  split; [repeat constructor; vm_compute; congruence|]. split; vm_compute; reflexivity.
Qed.
