(** Proofs about the floating point Morton functions. *)
From Coq Require Import List ZArith Bool Lia ZifyBool Arith.
From Verif Require Import Base BaseLemmas BitsModel BitsSpec BitsProofs MortonModel MortonSpec MortonProofs MortonFloatModel MortonFloatSpec.
Import ListNotations.
Open Scope outcome_scope.
Open Scope Z_scope.

(** ** Fields *)
Lemma dec_s x : single x -> ft_decompose F32 x = (s_man x, s_exp x - 127, s_neg x).
Proof.
  intros Hx. rewrite decompose_val. cbn [fmb feb ft_bias ft_mbits]. unfold s_man, s_exp, s_neg. f_equal.
  change (23 + 8) with 31. pose proof (Z.testbit_spec' x 31 ltac:(lia)) as E. unfold single in Hx.
  destruct (Z.leb_spec (2 ^ 31) x).
  - replace (x / 2 ^ 31) with 1 in E by (apply (Z.div_unique _ _ _ (x - 2 ^ 31)); lia). destruct (Z.testbit x 31); [auto|cbn in E; lia].
  - rewrite Z.div_small in E by lia. destruct (Z.testbit x 31); [cbn in E; lia|auto].
Qed.

Lemma s_ranges x : 0 <= s_man x < 2 ^ 23 /\ 0 <= s_exp x < 256.
Proof. unfold s_man, s_exp. split; apply Z.mod_pos_bound; lia. Qed.

Lemma s_split x : single x -> x = s_man x + 2 ^ 23 * s_exp x + (if s_neg x then 2 ^ 31 else 0).
Proof.
  intros H. unfold single in H. unfold s_man, s_exp, s_neg.
  pose proof (Z.div_mod x (2 ^ 23) ltac:(lia)) as D1. pose proof (Z.div_mod (x / 2 ^ 23) (2 ^ 8) ltac:(lia)) as D2.
  rewrite Z.div_div, <- Z.pow_add_r in D2 by lia. change (23 + 8) with 31 in D2.
  destruct (Z.leb_spec (2 ^ 31) x).
  - replace (x / 2 ^ 31) with 1 in D2 by (apply (Z.div_unique _ _ _ (x - 2 ^ 31)); lia). lia.
  - rewrite (Z.div_small x (2 ^ 31)) in D2 by lia. lia.
Qed.

Lemma s_ext x y : single x -> single y -> s_man x = s_man y -> s_exp x = s_exp y -> s_neg x = s_neg y -> x = y.
Proof. intros Hx Hy E1 E2 E3. rewrite (s_split x Hx), (s_split y Hy). now rewrite E1, E2, E3. Qed.

Lemma fmag_s x : single x -> fmag F32 x = s_mag x.
Proof.
  intros H. unfold fmag, s_mag. rewrite dec_s by auto. cbn [ft_bias ft_mbits]. replace (s_exp x - 127 + 127) with (s_exp x) by lia.
  reflexivity.
Qed.

Lemma fval_s x : single x -> fval F32 x = s_val x.
Proof. intros H. unfold fval, s_val. rewrite dec_s, fmag_s by auto. reflexivity. Qed.

Lemma s_mag_le x y : s_exp y < s_exp x -> s_mag y < s_mag x.
Proof.
  intros H. pose proof (s_ranges x) as [M1 E1]. pose proof (s_ranges y) as [M2 E2]. unfold s_mag.
  destruct (Z.eqb_spec (s_exp x) 0); [lia|]. destruct (Z.eqb_spec (s_exp y) 0).
  - assert (1 <= 2 ^ (s_exp x - 1)) by (apply Z.lt_pred_le; lia). nia.
  - assert (Hp : 2 * 2 ^ (s_exp y - 1) <= 2 ^ (s_exp x - 1)) by (rewrite <- Z.pow_succ_r by lia; apply Z.pow_le_mono_r; lia).
    assert (0 < 2 ^ (s_exp y - 1)) by lia. nia.
Qed.

Lemma s_mag_exp x y : s_mag y <= s_mag x -> s_exp y <= s_exp x.
Proof. intros H. destruct (Z.le_gt_cases (s_exp y) (s_exp x)); [auto|]. pose proof (s_mag_le y x ltac:(lia)). lia. Qed.

Lemma s_mag_man x y : s_exp x = s_exp y -> (s_mag y <= s_mag x <-> s_man y <= s_man x).
Proof.
  intros E. unfold s_mag. rewrite E. destruct (Z.eqb_spec (s_exp y) 0); [reflexivity|].
  assert (0 < 2 ^ (s_exp y - 1)) by (pose proof (s_ranges y); lia). nia.
Qed.

Lemma s_mag_inj x y : s_mag x = s_mag y -> s_exp x = s_exp y /\ s_man x = s_man y.
Proof.
  intros E. pose proof (s_mag_exp x y ltac:(lia)). pose proof (s_mag_exp y x ltac:(lia)). assert (EE : s_exp x = s_exp y) by lia. split; [auto|].
  pose proof (proj1 (s_mag_man x y EE) ltac:(lia)). pose proof (proj1 (s_mag_man y x (eq_sym EE)) ltac:(lia)). lia.
Qed.

(** Assembling a result. *)
Lemma comp_s m E : 0 <= m < 2 ^ 23 -> 0 <= E < 256 ->
  exists r, ft_compose F32 m (E - 127) false = Ret r /\ single r /\ s_man r = m /\ s_exp r = E /\ s_neg r = false.
Proof.
  intros Hm HE. destruct (float_roundtrip_lemma F32) as [_ H]. destruct (H m (E - 127) false) as (r & Hr & H1 & H2); [exact Hm|cbn; lia|].
  exists r. split; [auto|]. assert (Hs : single r) by exact Hr. split; [auto|]. rewrite dec_s in H2 by auto. injection H2. intros. repeat split; auto; lia.
Qed.

(** ** xorFloat<float> *)
(** The larger and the smaller operand. *)
Definition big (x y : Z) : Z := if s_mag y <? s_mag x then x else y.
Definition small (x y : Z) : Z := if s_mag y <? s_mag x then y else x.

Lemma big_small x y : (big x y = x /\ small x y = y) \/ (big x y = y /\ small x y = x).
Proof. unfold big, small. destruct (s_mag y <? s_mag x); auto. Qed.

Lemma big_mag x y : s_mag (small x y) <= s_mag (big x y).
Proof. unfold big, small. destruct (Z.ltb_spec (s_mag y) (s_mag x)); lia. Qed.

Lemma big_exp x y : s_exp (small x y) <= s_exp (big x y).
Proof. apply s_mag_exp, big_mag. Qed.

Definition man1 (x y : Z) : Z := 2 ^ 23 + s_man (big x y).
Definition man2 (x y : Z) : Z := (2 ^ 23 + s_man (small x y)) / 2 ^ (s_exp (big x y) - s_exp (small x y)).
Definition sdiff (x y : Z) : Z := if s_neg x then Z.lxor (- man1 x y) (- man2 x y) else Z.lxor (man1 x y) (man2 x y).

Lemma man_ranges x y : 2 ^ 23 <= man1 x y < 2 ^ 24 /\ 0 <= man2 x y < 2 ^ 24.
Proof.
  unfold man1, man2. pose proof (s_ranges (big x y)). pose proof (s_ranges (small x y)). pose proof (big_exp x y).
  split; [lia|]. split; [apply Z.div_pos; lia|]. apply Z.div_lt_upper_bound; [lia|].
  assert (1 <= 2 ^ (s_exp (big x y) - s_exp (small x y))) by (apply Z.lt_pred_le; lia). nia.
Qed.

Lemma lxor_opp a b : Z.lxor (- a) (- b) = Z.lxor (a - 1) (b - 1).
Proof.
  replace (- a) with (Z.lnot (a - 1)) by (unfold Z.lnot; lia). replace (- b) with (Z.lnot (b - 1)) by (unfold Z.lnot; lia). apply Z.lxor_lnot_lnot.
Qed.

Lemma sdiff_range x y : (s_neg x = true -> man2 x y <> 0) -> 0 <= sdiff x y < 2 ^ 24.
Proof.
  intros H. pose proof (man_ranges x y) as [M1 M2]. unfold sdiff. destruct (s_neg x).
  - specialize (H eq_refl). rewrite lxor_opp. apply lxor_range; lia.
  - apply lxor_range; lia.
Qed.

Lemma sdiff_0 x y : s_neg x = s_neg y -> single x -> single y -> sdiff x y = 0 -> x = y.
Proof.
  intros Hs Hx Hy H. pose proof (man_ranges x y) as [M1 M2].
  assert (E : man1 x y = man2 x y) by (unfold sdiff in H; destruct (s_neg x); apply Z.lxor_eq in H; lia).
  pose proof (big_exp x y) as He. pose proof (s_ranges (small x y)) as [R1 R2]. pose proof (s_ranges (big x y)) as [R3 R4].
  unfold man1, man2 in *. set (d := s_exp (big x y) - s_exp (small x y)) in *.
  assert (Hd : d = 0).
  { destruct (Z.eq_dec d 0); [auto|]. exfalso. assert (2 <= 2 ^ d) by (change 2 with (2 ^ 1) at 1; apply Z.pow_le_mono_r; lia).
    assert ((2 ^ 23 + s_man (small x y)) / 2 ^ d < 2 ^ 23) by (apply Z.div_lt_upper_bound; nia). lia. }
  rewrite Hd in E. rewrite Z.div_1_r in E.
  assert (Ee : s_exp (big x y) = s_exp (small x y)) by (unfold d in Hd; lia).
  assert (Em : s_man (big x y) = s_man (small x y)) by lia.
  destruct (big_small x y) as [[B S]|[B S]]; rewrite B, S in Ee, Em; apply s_ext; auto.
Qed.

Lemma lor_implicit m : 0 <= m < 2 ^ 23 -> Z.lor m (2 ^ 23) = 2 ^ 23 + m.
Proof. intros H. rewrite Z.lor_comm. replace (2 ^ 23) with (2 ^ 23 * 1) by lia. apply lor_low; lia. Qed.

Lemma it_log2_32 d : 0 < d < 2 ^ 24 -> it_log2Mod I32 d = Ret (Z.log2 d).
Proof.
  intros H. destruct (log2Mod_lemma I32 d) as (l & E & Hl); [discriminate|split; cbn; lia|cbn; lia|lia|].
  rewrite E. f_equal. destruct Hl as [H1 H2]. rewrite Z.abs_eq in H2 by lia. symmetry. apply Z.log2_unique; [auto|]. now rewrite <- Z.add_1_r.
Qed.

(** Normalised form of the difference. *)
Lemma xor_same_sign x y : single x -> single y -> s_neg x = s_neg y ->
  xorFloat F32 x y =
    if sdiff x y =? 0 then let! r := setF 0 (-127) false in Ret (r, 0, -127)
    else let! l := it_log2Mod I32 (sdiff x y) in
         let! sh := shl 32 (sdiff x y) (23 - l) in
         let! r := setF (Z.land sh (2 ^ 23 - 1)) (s_exp (big x y) - 127 - (23 - l)) false in
         Ret (r, Z.land sh (2 ^ 23 - 1), s_exp (big x y) - 127 - (23 - l)).
Proof.
  intros Hx Hy Hs. unfold xorFloat. rewrite !fmag_s by auto.
  replace (if s_mag y <? s_mag x then (x, y) else (y, x)) with (big x y, small x y) by (unfold big, small; destruct (s_mag y <? s_mag x); reflexivity).
  assert (Hb : single (big x y)) by (destruct (big_small x y) as [[-> _]|[-> _]]; auto).
  assert (Hm : single (small x y)) by (destruct (big_small x y) as [[_ ->]|[_ ->]]; auto).
  assert (Nb : s_neg (big x y) = s_neg x) by (destruct (big_small x y) as [[-> _]|[-> _]]; auto).
  assert (Nm : s_neg (small x y) = s_neg x) by (destruct (big_small x y) as [[_ ->]|[_ ->]]; auto).
  rewrite !dec_s by auto. rewrite Nb, Nm, xorb_nilpotent. cbn [ft_implicit ft_bits ft_mbits ft_bias ft_compose ft_ity ft_mmask]. unfold ft_implicit, ft_mmask. cbn [ft_mbits].
  pose proof (s_ranges (big x y)) as [R1 R2]. pose proof (s_ranges (small x y)) as [R3 R4]. pose proof (big_exp x y) as He.
  rewrite !lor_implicit by auto. fold (man1 x y).
  assert (E2 : (if s_exp (big x y) - 127 <? s_exp (small x y) - 127 + 32
     then if s_exp (big x y) - 127 - (s_exp (small x y) - 127) <? 0 then UB
          else Ret (Z.shiftr (2 ^ 23 + s_man (small x y)) (s_exp (big x y) - 127 - (s_exp (small x y) - 127))) else Ret 0) = Ret (man2 x y)).
  { replace (s_exp (big x y) - 127 - (s_exp (small x y) - 127)) with (s_exp (big x y) - s_exp (small x y)) by lia.
    destruct (Z.ltb_spec (s_exp (big x y) - 127) (s_exp (small x y) - 127 + 32)).
    - destruct (Z.ltb_spec (s_exp (big x y) - s_exp (small x y)) 0); [lia|]. rewrite Z.shiftr_div_pow2 by lia. reflexivity.
    - unfold man2. rewrite Z.div_small; [reflexivity|]. split; [lia|].
      assert (2 ^ 24 <= 2 ^ (s_exp (big x y) - s_exp (small x y))) by (apply Z.pow_le_mono_r; lia). lia. }
  rewrite E2. cbn [obind]. fold (sdiff x y).
  replace (Z.lxor (if s_neg x then - man1 x y else man1 x y) (if s_neg x then - man2 x y else man2 x y)) with (sdiff x y)
    by (unfold sdiff; destruct (s_neg x); reflexivity).
  destruct (Z.eqb_spec (sdiff x y) 0) as [E0|E0]; [rewrite E0; reflexivity|]. reflexivity.
Qed.

(** The main case. *)
Lemma xor_nonzero x y : single x -> single y -> s_neg x = s_neg y -> x <> y -> (s_neg x = true -> man2 x y <> 0) ->
  1 <= s_exp (big x y) - 23 + Z.log2 (sdiff x y) -> s_exp (big x y) < 255 ->
  exists r m, xorFloat F32 x y = Ret (r, m, s_exp (big x y) - 150 + Z.log2 (sdiff x y)) /\ single r /\ s_neg r = false /\
    1 <= s_exp r < 255 /\ s_mag r = sdiff x y * 2 ^ (s_exp (big x y) - 1) /\ m = s_man r.
Proof.
  intros Hx Hy Hs Hne Hn Hexp Hfin. pose proof (sdiff_range x y Hn) as HR.
  assert (H0 : sdiff x y <> 0) by (intros E; apply Hne; apply sdiff_0; auto).
  rewrite xor_same_sign by auto. destruct (Z.eqb_spec (sdiff x y) 0); [lia|]. rewrite it_log2_32 by lia. cbn [obind].
  pose proof (Z.log2_spec (sdiff x y) ltac:(lia)) as [L1 L2]. pose proof (Z.log2_nonneg (sdiff x y)) as L0.
  assert (L3 : Z.log2 (sdiff x y) < 24) by (apply Z.log2_lt_pow2; lia).
  set (D := sdiff x y) in *. set (l := Z.log2 D) in *. set (E1 := s_exp (big x y)) in *.
  assert (P1 : 2 ^ 23 = 2 ^ l * 2 ^ (23 - l)) by (rewrite <- Z.pow_add_r by lia; f_equal; lia).
  assert (P2 : 2 ^ 24 = 2 ^ Z.succ l * 2 ^ (23 - l)) by (rewrite <- Z.pow_add_r by lia; f_equal; lia).
  assert (Hsh : 2 ^ 23 <= D * 2 ^ (23 - l) < 2 ^ 24) by nia.
  assert (Es : shl 32 D (23 - l) = Ret (D * 2 ^ (23 - l))).
  { unfold shl. rewrite Z.shiftl_mul_pow2 by lia.
    destruct (Z.ltb_spec D 0); [lia|]. destruct (Z.ltb_spec (23 - l) 0); [lia|]. destruct (Z.leb_spec 32 (23 - l)); [lia|].
    destruct (Z.leb_spec (2 ^ 32) (D * 2 ^ (23 - l))); [lia|]. reflexivity. }
  rewrite Es. cbn [obind]. rewrite (Z.land_comm _ (2 ^ 23 - 1)), land_ones_l by lia.
  assert (Em : (D * 2 ^ (23 - l)) mod 2 ^ 23 = D * 2 ^ (23 - l) - 2 ^ 23) by (symmetry; apply (Z.mod_unique _ _ 1); lia).
  rewrite Em. destruct (comp_s (D * 2 ^ (23 - l) - 2 ^ 23) (E1 - 23 + l)) as (r & Er & Hr1 & Hr2 & Hr3 & Hr4); [lia|lia|].
  cbn [ft_compose] in Er. replace (E1 - 127 - (23 - l)) with (E1 - 23 + l - 127) by lia. rewrite Er. cbn [obind].
  exists r, (s_man r). split; [rewrite Hr2; f_equal; f_equal; lia|]. split; [auto|]. split; [auto|]. split; [lia|]. split; [|reflexivity].
  unfold s_mag. rewrite Hr2, Hr3. destruct (Z.eqb_spec (E1 - 23 + l) 0); [lia|].
  replace (2 ^ 23 + (D * 2 ^ (23 - l) - 2 ^ 23)) with (D * 2 ^ (23 - l)) by lia.
  rewrite <- Z.mul_assoc, <- Z.pow_add_r by lia. f_equal. f_equal. lia.
Qed.

Lemma xor_equal x : single x -> xorFloat F32 x x = Ret (0, 0, -127).
Proof.
  intros Hx. rewrite xor_same_sign by auto.
  assert (E : sdiff x x = 0).
  { unfold sdiff, man1, man2. assert (big x x = x /\ small x x = x) as [-> ->] by (unfold big, small; destruct (s_mag x <? s_mag x); auto).
    rewrite Z.sub_diag, Z.div_1_r. destruct (s_neg x); apply Z.lxor_nilpotent. }
  rewrite E. reflexivity.
Qed.

Lemma xor_opposite x y : single x -> single y -> s_neg x <> s_neg y -> xorFloat F32 x y = Ret (0x7F800000, 0, 128).
Proof.
  intros Hx Hy Hs. unfold xorFloat. rewrite !fmag_s by auto.
  destruct (s_mag y <? s_mag x); rewrite !dec_s by auto.
  - replace (xorb (s_neg x) (s_neg y)) with true by (destruct (s_neg x), (s_neg y); auto; congruence). reflexivity.
  - replace (xorb (s_neg y) (s_neg x)) with true by (destruct (s_neg x), (s_neg y); auto; congruence). reflexivity.
Qed.

(** Two negative numbers of very different magnitude: a negative number is shifted. *)
Lemma xor_negative_ub x y : single x -> single y -> s_neg x = true -> s_neg y = true -> man2 x y = 0 -> xorFloat F32 x y = UB.
Proof.
  intros Hx Hy Nx Ny H. rewrite xor_same_sign by congruence. unfold sdiff. rewrite Nx, H. change (- 0) with 0. rewrite Z.lxor_0_r.
  pose proof (man_ranges x y) as [M1 _]. generalize dependent (man1 x y). intros A M1. destruct (Z.eqb_spec (- A) 0); [lia|].
  destruct (log2Mod_lemma I32 (- A)) as (l & E & _); [discriminate|unfold in_type; cbn [tmin tmax]; lia|cbn [neg_ok tmin]; lia|lia|].
  rewrite E. cbn [obind]. unfold shl. destruct (Z.ltb_spec (- A) 0); [reflexivity|lia].
Qed.

(** In terms of the expansions. *)

Lemma big_is_max x y : s_exp (big x y) = Z.max (s_exp x) (s_exp y).
Proof. pose proof (big_exp x y). destruct (big_small x y) as [[B S]|[B S]]; rewrite B, S in *; lia. Qed.

Lemma s_mag_normal x : 1 <= s_exp x -> s_mag x = (2 ^ 23 + s_man x) * 2 ^ (s_exp x - 1).
Proof. intros H. unfold s_mag. destruct (Z.eqb_spec (s_exp x) 0); [lia|reflexivity]. Qed.

Lemma cut_big x y : 1 <= s_exp x -> 1 <= s_exp y -> cut (ulp_exp x y) (s_mag (big x y)) = man1 x y * 2 ^ ulp_exp x y /\
  cut (ulp_exp x y) (s_mag (small x y)) = man2 x y * 2 ^ ulp_exp x y.
Proof.
  intros Hx Hy. pose proof (big_exp x y) as He. pose proof (big_is_max x y) as Hm. unfold ulp_exp. rewrite <- Hm.
  assert (1 <= s_exp (big x y) /\ 1 <= s_exp (small x y)) as [Hb Hs] by (destruct (big_small x y) as [[B S]|[B S]]; rewrite B, S; auto).
  unfold cut. rewrite !s_mag_normal by auto. split.
  - rewrite Z.div_mul by lia. reflexivity.
  - f_equal. unfold man2. replace (s_exp (big x y) - 1) with ((s_exp (small x y) - 1) + (s_exp (big x y) - s_exp (small x y))) by lia.
    rewrite Z.pow_add_r by lia. rewrite <- Z.div_div by lia. rewrite Z.div_mul by lia. reflexivity.
Qed.


Lemma lxor_shift a b k : 0 <= k -> Z.lxor (a * 2 ^ k) (b * 2 ^ k) = Z.lxor a b * 2 ^ k.
Proof. intros H. rewrite <- !Z.shiftl_mul_pow2 by auto. symmetry. apply Z.shiftl_lxor. Qed.

Lemma xor_cut_val x y : 1 <= s_exp x -> 1 <= s_exp y -> xor_cut x y = sdiff x y * 2 ^ ulp_exp x y.
Proof.
  intros Hx Hy. destruct (cut_big x y Hx Hy) as [C1 C2]. unfold xor_cut, sdiff. cbv zeta.
  assert (Hk : 0 <= ulp_exp x y) by (unfold ulp_exp; lia).
  destruct (big_small x y) as [[B S]|[B S]]; rewrite B, S in *; rewrite C1, C2; destruct (s_neg x).
  - rewrite <- !Z.mul_opp_l. apply lxor_shift; auto.
  - apply lxor_shift; auto.
  - rewrite Z.lxor_comm, <- !Z.mul_opp_l. apply lxor_shift; auto.
  - rewrite Z.lxor_comm. apply lxor_shift; auto.
Qed.

Lemma xor_float_lemma x y : s_normal x -> s_normal y -> s_neg x = s_neg y ->
  (s_neg x = true -> 0 < cut (ulp_exp x y) (s_mag x) /\ 0 < cut (ulp_exp x y) (s_mag y)) ->
  (x <> y -> 2 ^ 23 <= xor_cut x y) ->
  exists r m e, xorFloat F32 x y = Ret (r, m, e) /\ s_finite r /\ s_neg r = false /\ s_mag r = xor_cut x y /\
    (x = y -> e = -127) /\ (x <> y -> e = Z.log2 (xor_cut x y) - 149).
Proof.
  intros [Hx Ex] [Hy Ey] Hs Hneg Hbig. assert (Hk : 0 <= ulp_exp x y) by (unfold ulp_exp; lia).
  pose proof (xor_cut_val x y ltac:(lia) ltac:(lia)) as HX. destruct (cut_big x y ltac:(lia) ltac:(lia)) as [C1 C2].
  pose proof (big_is_max x y) as HB.
  destruct (Z.eq_dec x y) as [<-|Hne].
  - rewrite xor_equal by auto. exists 0, 0, (-127). split; [reflexivity|]. split; [split; [split; [lia|lia]|reflexivity]|].
    split; [reflexivity|]. split; [|split; [auto|congruence]]. unfold xor_cut. cbv zeta. change (s_mag 0) with 0. destruct (s_neg x); now rewrite Z.lxor_nilpotent.
  - assert (Hn : s_neg x = true -> man2 x y <> 0).
    { intros N. destruct (Hneg N) as [N1 N2]. destruct (big_small x y) as [[B S]|[B S]]; rewrite B, S in *; nia. }
    specialize (Hbig Hne). assert (HD : 0 < sdiff x y) by (pose proof (sdiff_range x y Hn); nia).
    assert (HL : Z.log2 (xor_cut x y) = Z.log2 (sdiff x y) + ulp_exp x y) by (rewrite HX, Z.log2_mul_pow2 by lia; lia).
    assert (HL2 : 23 <= Z.log2 (xor_cut x y)) by (apply Z.log2_le_pow2; lia).
    destruct (xor_nonzero x y Hx Hy Hs Hne Hn) as (r & m & E & R1 & R2 & R3 & R4 & R5); [rewrite HB; unfold ulp_exp in HL; lia|lia|].
    exists r, m, (s_exp (big x y) - 150 + Z.log2 (sdiff x y)). split; [auto|]. split; [split; [auto|lia]|]. split; [auto|].
    split; [rewrite R4, HX, HB; unfold ulp_exp; reflexivity|]. split; [congruence|]. intros _. rewrite HL, HB. unfold ulp_exp. lia.
Qed.

(** ** xorFloat<double> *)
Lemma log2Mod64_big i : in_type I64 i -> i <> tmin I64 -> i <> 0 -> exists l, it_log2Mod I64 i = Ret l /\ 55 <= l.
Proof.
  intros H1 H2 H3. destruct (log2Mod64_lemma i H1 H2 H3) as (l & E & A & B). exists l. split; [auto|].
  destruct (Z.eq_dec (Z.abs i mod 256) 0) as [H|H]; [rewrite (A H); lia|]. destruct (B H) as [B1 _]. lia.
Qed.

Definition d_man (x : Z) : Z := x mod 2 ^ 52.

Lemma dec_d x : double x -> ft_decompose F64 x = (d_man x, d_exp x - 1023, d_neg x).
Proof.
  intros Hx. rewrite decompose_val. cbn [fmb feb ft_bias ft_mbits]. unfold d_man, d_exp, d_neg. f_equal.
  change (52 + 11) with 63. pose proof (Z.testbit_spec' x 63 ltac:(lia)) as E. unfold double in Hx.
  destruct (Z.leb_spec (2 ^ 63) x).
  - replace (x / 2 ^ 63) with 1 in E by (apply (Z.div_unique _ _ _ (x - 2 ^ 63)); lia). destruct (Z.testbit x 63); [auto|cbn in E; lia].
  - rewrite Z.div_small in E by lia. destruct (Z.testbit x 63); [cbn in E; lia|auto].
Qed.

Lemma d_ranges x : 0 <= d_man x < 2 ^ 52 /\ 0 <= d_exp x < 2048.
Proof. unfold d_man, d_exp. split; apply Z.mod_pos_bound; lia. Qed.

Lemma d_split x : double x -> x = d_man x + 2 ^ 52 * d_exp x + (if d_neg x then 2 ^ 63 else 0).
Proof.
  intros H. unfold double in H. unfold d_man, d_exp, d_neg.
  pose proof (Z.div_mod x (2 ^ 52) ltac:(lia)) as D1. pose proof (Z.div_mod (x / 2 ^ 52) (2 ^ 11) ltac:(lia)) as D2.
  rewrite Z.div_div, <- Z.pow_add_r in D2 by lia. change (52 + 11) with 63 in D2.
  destruct (Z.leb_spec (2 ^ 63) x).
  - replace (x / 2 ^ 63) with 1 in D2 by (apply (Z.div_unique _ _ _ (x - 2 ^ 63)); lia). lia.
  - rewrite (Z.div_small x (2 ^ 63)) in D2 by lia. lia.
Qed.

Lemma lor_implicit_d m : 0 <= m < 2 ^ 52 -> Z.lor m (2 ^ 52) = 2 ^ 52 + m.
Proof. intros H. rewrite Z.lor_comm. replace (2 ^ 52) with (2 ^ 52 * 1) by lia. apply lor_low; lia. Qed.

(** Body for two doubles of equal sign, in either order of the arguments. *)
Lemma xor_double_body f1 f2 : double f1 -> double f2 -> d_neg f1 = d_neg f2 -> f1 <> f2 ->
  (let fm1 := Z.lor (d_man f1) (2 ^ 52) in
    let! fm2 := if d_exp f1 - 1023 <? d_exp f2 - 1023 + 64
                then if d_exp f1 - 1023 - (d_exp f2 - 1023) <? 0 then UB else Ret (Z.shiftr (Z.lor (d_man f2) (2 ^ 52)) (d_exp f1 - 1023 - (d_exp f2 - 1023)))
                else Ret 0 in
    let fm1 := if d_neg f1 then - fm1 else fm1 in
    let fm2 := if d_neg f1 then - fm2 else fm2 in
    let mantissaDiff := Z.lxor fm1 fm2 in
    if mantissaDiff =? 0 then
      let! r := setD mantissaDiff (- 1023) false in Ret (r, mantissaDiff, - 1023)
    else
      let! l := it_log2Mod I64 mantissaDiff in
      let msbPos := 52 - l in
      let exponentDiff := d_exp f1 - 1023 - msbPos in
      let! sh := shl 64 mantissaDiff msbPos in
      let mantissaDiff := Z.land sh (2 ^ 52 - 1) in
      let! r := setD mantissaDiff exponentDiff false in Ret (r, mantissaDiff, exponentDiff)) = UB.
Proof.
  intros H1 H2 Hs Hne. cbv zeta. pose proof (d_ranges f1) as [R1 R2]. pose proof (d_ranges f2) as [R3 R4].
  rewrite !lor_implicit_d by auto. replace (d_exp f1 - 1023 - (d_exp f2 - 1023)) with (d_exp f1 - d_exp f2) by lia.
  assert (Hin : forall fm2, 0 <= fm2 < 2 ^ 53 -> (fm2 = 2 ^ 52 + d_man f1 -> False) ->
     let D := Z.lxor (if d_neg f1 then - (2 ^ 52 + d_man f1) else 2 ^ 52 + d_man f1) (if d_neg f1 then - fm2 else fm2) in
     D <> 0 /\ in_type I64 D /\ D <> tmin I64).
  { intros fm2 Hf Hd. cbv zeta. set (D := Z.lxor _ _).
    assert (D <> 0) by (unfold D; intros E; apply Z.lxor_eq in E; destruct (d_neg f1); lia).
    assert (- 2 ^ 53 <= D < 2 ^ 53).
    { unfold D. destruct (d_neg f1).
      - destruct (Z.eq_dec fm2 0) as [->|]; [change (- 0) with 0; rewrite Z.lxor_0_r; lia|]. rewrite lxor_opp.
        pose proof (lxor_range 53 (2 ^ 52 + d_man f1 - 1) (fm2 - 1)). lia.
      - pose proof (lxor_range 53 (2 ^ 52 + d_man f1) fm2). lia. }
    unfold in_type. cbn [tmin tmax]. lia. }
  assert (Hcase : exists o, (if d_exp f1 - 1023 <? d_exp f2 - 1023 + 64 then if d_exp f1 - d_exp f2 <? 0 then UB
             else Ret (Z.shiftr (2 ^ 52 + d_man f2) (d_exp f1 - d_exp f2)) else Ret 0) = o /\
     (o = UB \/ exists fm2, o = Ret fm2 /\ 0 <= fm2 < 2 ^ 53 /\ (fm2 = 2 ^ 52 + d_man f1 -> False))).
  { eexists. split; [reflexivity|]. destruct (Z.ltb_spec (d_exp f1 - 1023) (d_exp f2 - 1023 + 64)).
    - destruct (Z.ltb_spec (d_exp f1 - d_exp f2) 0); [auto|]. right. eexists. split; [reflexivity|].
      rewrite Z.shiftr_div_pow2 by lia. assert (0 < 2 ^ (d_exp f1 - d_exp f2)) by lia.
      split; [split; [apply Z.div_pos; lia|apply Z.div_lt_upper_bound; nia]|].
      intros E. destruct (Z.eq_dec (d_exp f1 - d_exp f2) 0) as [E0|E0].
      + rewrite E0, Z.div_1_r in E. apply Hne. rewrite (d_split f1 H1), (d_split f2 H2), Hs. lia.
      + assert (2 <= 2 ^ (d_exp f1 - d_exp f2)) by (change 2 with (2 ^ 1) at 1; apply Z.pow_le_mono_r; lia).
        assert ((2 ^ 52 + d_man f2) / 2 ^ (d_exp f1 - d_exp f2) < 2 ^ 52) by (apply Z.div_lt_upper_bound; nia). lia.
    - right. exists 0. split; [reflexivity|]. lia. }
  destruct Hcase as (o & -> & [->|(fm2 & -> & F1 & F2)]); [reflexivity|]. cbn [obind].
  destruct (Hin fm2 F1 F2) as (D0 & D1 & D2). set (D := Z.lxor _ _) in *. destruct (Z.eqb_spec D 0); [contradiction|].
  destruct (log2Mod64_big D D1 D2 D0) as (l & -> & Hl). cbn [obind]. unfold shl.
  destruct (Z.ltb_spec (52 - l) 0); [|lia]. rewrite orb_true_r. reflexivity.
Qed.

Lemma xor_double_lemma x y : double x -> double y ->
  (d_neg x = d_neg y -> x <> y -> xorFloat F64 x y = UB) /\
  (x = y -> xorFloat F64 x y = Ret (0, 0, -1023)) /\
  (d_neg x <> d_neg y -> xorFloat F64 x y = Ret (0x0FF0000000000000, 0, -768)).
Proof.
  intros Hx Hy. split; [|split].
  - intros Hs Hne. unfold xorFloat. destruct (fmag F64 y <? fmag F64 x); rewrite !dec_d by auto.
    + rewrite Hs, xorb_nilpotent. rewrite <- Hs. apply xor_double_body; auto.
    + rewrite Hs, xorb_nilpotent. apply xor_double_body; auto.
  - intros <-. unfold xorFloat. replace (if fmag F64 x <? fmag F64 x then (x, x) else (x, x)) with (x, x) by (destruct (fmag F64 x <? fmag F64 x); auto).
    rewrite !dec_d by auto. rewrite xorb_nilpotent. cbn [ft_implicit ft_bits ft_mbits ft_bias ft_compose ft_ity ft_mmask]. unfold ft_implicit. cbn [ft_mbits].
    pose proof (d_ranges x) as [R1 R2]. rewrite lor_implicit_d by auto. rewrite Z.sub_diag.
    destruct (Z.ltb_spec (d_exp x - 1023) (d_exp x - 1023 + 64)); [|lia]. cbn [Z.ltb Z.compare obind]. rewrite Z.shiftr_0_r, Z.lxor_nilpotent. reflexivity.
  - intros Hs. unfold xorFloat. destruct (fmag F64 y <? fmag F64 x); rewrite !dec_d by auto.
    + replace (xorb (d_neg x) (d_neg y)) with true by (destruct (d_neg x), (d_neg y); auto; congruence). reflexivity.
    + replace (xorb (d_neg y) (d_neg x)) with true by (destruct (d_neg x), (d_neg y); auto; congruence). reflexivity.
Qed.

(** ** Order on plain points *)
Lemma plain_single x : plain x -> single x.
Proof. unfold plain, single. lia. Qed.

Lemma plain_neg x : plain x -> s_neg x = false.
Proof. intros H. unfold s_neg. unfold plain in H. apply Z.leb_gt. lia. Qed.

Lemma plain_mag x : plain x -> (x = 0 /\ s_mag x = 0 /\ s_exp x = 0 /\ s_man x = 0) \/ (24 <= s_exp x < 255 /\ s_mag x = (2 ^ 23 + s_man x) * 2 ^ (s_exp x - 1)).
Proof. intros [->|[H1 H2]]; [left; repeat split; reflexivity|right]. split; [auto|]. apply s_mag_normal. lia. Qed.

Lemma s_mag_nonneg x : 0 <= s_mag x.
Proof. unfold s_mag. pose proof (s_ranges x). destruct (Z.eqb_spec (s_exp x) 0); [lia|]. assert (0 < 2 ^ (s_exp x - 1)) by lia. nia. Qed.

Lemma plain_bound x : plain x -> 0 <= s_mag x < 2 ^ 277.
Proof.
  intros H. split; [apply s_mag_nonneg|]. destruct (plain_mag x H) as [(_ & -> & _)|[HE ->]]; [lia|].
  pose proof (s_ranges x) as [M _]. assert (2 ^ (s_exp x - 1) <= 2 ^ 253) by (apply Z.pow_le_mono_r; lia). nia.
Qed.

Lemma plain_val x : plain x -> fval F32 x = s_mag x.
Proof. intros H. rewrite fval_s by now apply plain_single. unfold s_val. now rewrite plain_neg. Qed.

Lemma plain_inj x y : plain x -> plain y -> s_mag x = s_mag y -> x = y.
Proof. intros Hx Hy E. apply s_mag_inj in E as [E1 E2]. apply s_ext; auto using plain_single. now rewrite !plain_neg. Qed.

(** Level of the exclusive or of the expansions. *)
Lemma plain_xor x y : plain x -> plain y ->
  exists r m e, xorFloat F32 x y = Ret (r, m, e) /\ single r /\ s_neg r = false /\
    ((x = y /\ s_mag r = 0 /\ e = -127) \/ (x <> y /\ e = bl (Z.lxor (s_mag x) (s_mag y)) - 150 /\ 24 <= bl (Z.lxor (s_mag x) (s_mag y)) /\
       2 ^ (e + 149) <= s_mag r < 2 ^ (e + 150))).
Proof.
  intros Hx Hy. pose proof (plain_single x Hx) as Sx. pose proof (plain_single y Hy) as Sy.
  destruct (Z.eq_dec x y) as [<-|Hne].
  { rewrite xor_equal by auto. exists 0, 0, (-127). repeat split; try lia; auto. }
  assert (Nx : s_neg x = s_neg y) by now rewrite !plain_neg.
  assert (Hb : plain (big x y)) by (destruct (big_small x y) as [[-> _]|[-> _]]; auto).
  assert (Hm : plain (small x y)) by (destruct (big_small x y) as [[_ ->]|[_ ->]]; auto).
  pose proof (s_ranges (big x y)) as [R1 R2]. pose proof (s_ranges (small x y)) as [R3 R4].
  assert (HE : 24 <= s_exp (big x y) < 255 /\ s_mag (big x y) = (2 ^ 23 + s_man (big x y)) * 2 ^ (s_exp (big x y) - 1)).
  { destruct (plain_mag _ Hb) as [(E0 & E1 & E2 & E3)|H]; [|auto]. exfalso. apply Hne. pose proof (big_mag x y) as L. rewrite E1 in L.
    pose proof (s_mag_nonneg (small x y)). assert (Es : s_mag (small x y) = s_mag (big x y)) by lia. apply plain_inj in Es; auto.
    destruct (big_small x y) as [[B S]|[B S]]; rewrite B, S in Es; auto. }
  destruct HE as [HE HM]. set (k := s_exp (big x y) - 1) in *.
  assert (C1 : s_mag (big x y) / 2 ^ k = man1 x y) by (rewrite HM; apply Z.div_mul; lia).
  assert (C2 : s_mag (small x y) / 2 ^ k = man2 x y).
  { unfold man2. destruct (plain_mag _ Hm) as [(E0 & E1 & E2 & E3)|[H ->]].
    - rewrite E1, E2, E3, Z.div_0_l by lia. symmetry. apply Z.div_small. split; [lia|].
      assert (2 ^ 24 <= 2 ^ (s_exp (big x y) - 0)) by (apply Z.pow_le_mono_r; lia). lia.
    - unfold k. pose proof (big_exp x y). replace (s_exp (big x y) - 1) with ((s_exp (small x y) - 1) + (s_exp (big x y) - s_exp (small x y))) by lia.
      rewrite Z.pow_add_r by lia. rewrite <- Z.div_div by lia. rewrite Z.div_mul by lia. reflexivity. }
  assert (CX : Z.lxor (s_mag x) (s_mag y) / 2 ^ k = sdiff x y).
  { rewrite <- Z.shiftr_div_pow2, Z.shiftr_lxor, !Z.shiftr_div_pow2 by lia. unfold sdiff. rewrite (plain_neg x Hx).
    destruct (big_small x y) as [[B S]|[B S]]; rewrite B in C1; rewrite S in C2; rewrite C1, C2; [reflexivity|apply Z.lxor_comm]. }
  assert (Hn : s_neg x = true -> man2 x y <> 0) by (rewrite plain_neg by auto; discriminate).
  pose proof (sdiff_range x y Hn) as DR. assert (D0 : sdiff x y <> 0) by (intros E; apply Hne; apply sdiff_0; auto).
  pose proof (Z.log2_nonneg (sdiff x y)) as L0.
  assert (XP : 0 < Z.lxor (s_mag x) (s_mag y)).
  { pose proof (s_mag_nonneg x). pose proof (s_mag_nonneg y). assert (0 <= Z.lxor (s_mag x) (s_mag y)) by (apply Z.lxor_nonneg; lia).
    destruct (Z.eq_dec (Z.lxor (s_mag x) (s_mag y)) 0) as [E|]; [|lia]. rewrite E in CX. rewrite Z.div_0_l in CX by lia. lia. }
  assert (HL : Z.log2 (Z.lxor (s_mag x) (s_mag y)) = Z.log2 (sdiff x y) + k).
  { pose proof (Z.log2_shiftr (Z.lxor (s_mag x) (s_mag y)) k XP) as E. rewrite Z.shiftr_div_pow2, CX in E by lia.
    destruct (Z.max_spec 0 (Z.log2 (Z.lxor (s_mag x) (s_mag y)) - k)) as [[_ M]|[M1 M]]; [lia|].
    assert (1 <= sdiff x y) by lia. rewrite <- CX in H.
    assert (2 ^ k <= Z.lxor (s_mag x) (s_mag y)) by (pose proof (Z.mul_div_le (Z.lxor (s_mag x) (s_mag y)) (2 ^ k) ltac:(lia)); nia).
    assert (k <= Z.log2 (Z.lxor (s_mag x) (s_mag y))) by (apply Z.log2_le_pow2; lia). lia. }
  assert (HB : bl (Z.lxor (s_mag x) (s_mag y)) = Z.log2 (sdiff x y) + k + 1) by (unfold bl; destruct (Z.eqb_spec (Z.lxor (s_mag x) (s_mag y)) 0); lia).
  destruct (xor_nonzero x y Sx Sy Nx Hne Hn) as (r & m & E & Q1 & Q2 & Q3 & Q4 & Q5); [lia|lia|].
  exists r, m, (s_exp (big x y) - 150 + Z.log2 (sdiff x y)). split; [auto|]. split; [auto|]. split; [auto|]. right. split; [auto|].
  split; [rewrite HB; unfold k; lia|]. split; [rewrite HB; lia|].
  rewrite Q4. pose proof (Z.log2_spec (sdiff x y) ltac:(lia)) as [S1 S2].
  replace (s_exp (big x y) - 150 + Z.log2 (sdiff x y) + 149) with (Z.log2 (sdiff x y) + k) by lia.
  replace (s_exp (big x y) - 150 + Z.log2 (sdiff x y) + 150) with (Z.succ (Z.log2 (sdiff x y)) + k) by lia.
  rewrite !Z.pow_add_r by lia. fold k. assert (0 < 2 ^ k) by lia. nia.
Qed.

(** ** Interleaved order of non-negative numbers *)
Definition glv (a b : list Z) (i : nat) : Z := bl (Z.lxor (nth i a 0) (nth i b 0)).
Definition gpoint (w n : nat) (a : list Z) : Prop := length a = n /\ Forall (fun x => 0 <= x < 2 ^ Z.of_nat w) a.

Lemma g_nth w n a i : gpoint w n a -> (i < n)%nat -> 0 <= nth i a 0 < 2 ^ Z.of_nat w.
Proof. intros [Hl H] Hi. rewrite Forall_forall in H. apply H. apply nth_In. lia. Qed.

Lemma ikey_intro w n v1 v2 b D : length v1 = n -> length v2 = n -> (b < w)%nat -> (D < n)%nat ->
  (forall i k, (i < n)%nat -> (b < k)%nat -> Z.testbit (nth i v1 0) (Z.of_nat k) = Z.testbit (nth i v2 0) (Z.of_nat k)) ->
  (forall i, (i < D)%nat -> Z.testbit (nth i v1 0) (Z.of_nat b) = Z.testbit (nth i v2 0) (Z.of_nat b)) ->
  Z.testbit (nth D v1 0) (Z.of_nat b) = false -> Z.testbit (nth D v2 0) (Z.of_nat b) = true ->
  lex_lt (ikey w v1) (ikey w v2).
Proof.
  intros Hl1 Hl2 Hb HD Habove Hrow Hf Ht. unfold ikey. rewrite (seq_split_at _ b Hb), !map_app, !concat_app. cbn [map concat].
  replace (map (fun b => map (fun x => Z.testbit x (Z.of_nat b)) v1) (rev (seq (S b) (w - S b))))
    with (map (fun b => map (fun x => Z.testbit x (Z.of_nat b)) v2) (rev (seq (S b) (w - S b)))).
  - apply lex_app_r. apply lex_app_l. apply (lex_row (fun x => Z.testbit x (Z.of_nat b)) v1 v2 D); auto; lia.
  - apply map_ext_in. intros k Hk. apply in_rev, in_seq in Hk.
    apply nth_ext with (d := false) (d' := false); rewrite !map_length; [lia|]. intros i Hi.
    rewrite !(nth_indep _ false (Z.testbit 0 (Z.of_nat k))) by (rewrite map_length; lia).
    rewrite !(map_nth (fun x => Z.testbit x (Z.of_nat k))). symmetry. apply Habove; lia.
Qed.

Lemma g_lex w n a b D : gpoint w n a -> gpoint w n b -> first_max (glv a b) n D -> nth D a 0 < nth D b 0 -> lex_lt (ikey w a) (ikey w b).
Proof.
  intros H1 H2 (HD & Hlt & Hle) Hx.
  assert (Hu1 := fun i => g_nth w n a i H1). assert (Hu2 := fun i => g_nth w n b i H2).
  set (K := glv a b D) in *.
  assert (Hnn : 0 <= Z.lxor (nth D a 0) (nth D b 0)) by (apply Z.lxor_nonneg; specialize (Hu1 D HD); specialize (Hu2 D HD); lia).
  assert (HK1 : K <> 0) by (unfold K, glv; intros E; apply bl_0 in E; [|auto]; apply Z.lxor_eq in E; lia).
  assert (HK0 : 0 <= K) by apply bl_nonneg.
  assert (HKw : K <= Z.of_nat w) by (unfold K, glv; apply bl_le; [auto|lia|]; apply lxor_range; auto; lia).
  assert (Hag : forall i k, (i < n)%nat -> 0 <= k -> (glv a b i <= k <-> nth i a 0 / 2 ^ k = nth i b 0 / 2 ^ k)).
  { intros i k Hi Hk. unfold glv. apply bl_xor_le; [auto|apply Hu1; auto|apply Hu2; auto]. }
  assert (Hbits : Z.testbit (nth D a 0) (K - 1) = false /\ Z.testbit (nth D b 0) (K - 1) = true).
  { apply bit_decides; [lia|apply Hu1; auto| | |auto].
    - replace (K - 1 + 1) with K by lia. apply Hag; auto; unfold K; lia.
    - rewrite <- Hag by (auto; lia). unfold K. lia. }
  apply (ikey_intro w n a b (Z.to_nat (K - 1)) D); try (destruct H1, H2; lia).
  - intros i k Hi Hk. apply (div_testbit _ _ K); [lia|]. apply Hag; auto.
  - intros i Hi. rewrite Z2Nat.id by lia. apply (div_testbit _ _ (K - 1)); [lia|]. apply Hag; [lia|lia|]. specialize (Hlt i Hi). lia.
  - rewrite Z2Nat.id by lia. tauto.
  - rewrite Z2Nat.id by lia. tauto.
Qed.

Lemma g_eq w n a b D : gpoint w n a -> gpoint w n b -> first_max (glv a b) n D -> nth D a 0 = nth D b 0 -> a = b.
Proof.
  intros H1 H2 (HD & _ & Hle) E. pose proof H1 as [L1 F1]. pose proof H2 as [L2 F2].
  apply nth_ext with (d := 0) (d' := 0); [congruence|]. intros i Hi. rewrite L1 in Hi. specialize (Hle i Hi).
  assert (Hz : glv a b D = 0) by (unfold glv; rewrite E, Z.lxor_nilpotent; reflexivity).
  pose proof (g_nth w n a i H1 Hi). pose proof (g_nth w n b i H2 Hi).
  assert (Hn : 0 <= Z.lxor (nth i a 0) (nth i b 0)) by (apply Z.lxor_nonneg; lia).
  rewrite Hz in Hle. unfold glv in Hle. pose proof (bl_nonneg (Z.lxor (nth i a 0) (nth i b 0))).
  assert (Hbz : bl (Z.lxor (nth i a 0) (nth i b 0)) = 0) by lia.
  apply bl_0 in Hbz; auto. now apply Z.lxor_eq in Hbz.
Qed.

Lemma glv_sym a b n D : first_max (glv a b) n D -> first_max (glv b a) n D.
Proof.
  assert (E : forall i, glv b a i = glv a b i) by (intros i; unfold glv; now rewrite Z.lxor_comm).
  intros (H1 & H2 & H3). split; [auto|]. split; intros i Hi; rewrite !E; auto.
Qed.

(** ** The comparison loop *)
Definition ppair (p : Z * Z) : Prop := plain (fst p) /\ plain (snd p).
Definition ml (p : Z * Z) : Z := bl (Z.lxor (s_mag (fst p)) (s_mag (snd p))).
Definition xres (p : Z * Z) (r e : Z) : Prop := exists m, xorFloat F32 (fst p) (snd p) = Ret (r, m, e).

Lemma ml_0 p : fst p = snd p -> ml p = 0.
Proof. intros E. unfold ml. rewrite E, Z.lxor_nilpotent. reflexivity. Qed.

Lemma plain_step p q r1 e1 r2 e2 : ppair p -> ppair q -> xres p r1 e1 -> xres q r2 e2 ->
  (fval F32 r1 <? fval F32 r2) && (e1 <? e2) = (ml p <? ml q).
Proof.
  intros [P1 P2] [Q1 Q2] [m1 E1] [m2 E2].
  destruct (plain_xor _ _ P1 P2) as (r & m & e & E & S1 & N1 & C1). rewrite E1 in E. injection E as <- <- <-.
  destruct (plain_xor _ _ Q1 Q2) as (r & m & e & E & S2 & N2 & C2). rewrite E2 in E. injection E as <- <- <-.
  rewrite !fval_s by auto. unfold s_val. rewrite N1, N2. fold (ml p) (ml q) in *.
  destruct C1 as [(A1 & A2 & A3)|(A1 & A2 & A3 & A4)], C2 as [(B1 & B2 & B3)|(B1 & B2 & B3 & B4)].
  - rewrite (ml_0 p), (ml_0 q) by auto. lia.
  - rewrite (ml_0 p) by auto. fold (ml q) in *. assert (0 < 2 ^ (e2 + 149)) by lia. lia.
  - rewrite (ml_0 q) by auto. fold (ml p) in *. lia.
  - fold (ml p) in A2, A3. fold (ml q) in B2, B3.
    assert (e1 < e2 -> s_mag r1 < s_mag r2).
    { intros H. assert (2 ^ (e1 + 150) <= 2 ^ (e2 + 149)) by (apply Z.pow_le_mono_r; lia). lia. }
    lia.
Qed.

Definition pml (L : list (Z * Z)) (i : nat) : Z := ml (nth i L (0, 0)).

Lemma nth_ppair L i : Forall ppair L -> (i < length L)%nat -> ppair (nth i L (0, 0)).
Proof. intros H Hi. rewrite Forall_forall in H. apply H. now apply nth_In. Qed.

Lemma fcmp_loop_spec r : forall P D lx le, Forall ppair (P ++ r) -> first_max (pml P) (length P) D -> xres (nth D P (0, 0)) lx le ->
  exists D', fcmp_loop F32 (length P) r D lx le = Ret D' /\ first_max (pml (P ++ r)) (length (P ++ r)) D'.
Proof.
  induction r as [|p r IH]; intros P D lx le Hok HM HX; pose proof HM as (HD & H1 & H2).
  - exists D. rewrite app_nil_r. split; [reflexivity|auto].
  - replace (P ++ p :: r) with ((P ++ [p]) ++ r) in * by (rewrite <- app_assoc; reflexivity).
    assert (Hlen2 : length (P ++ [p]) = S (length P)) by (rewrite app_length; simpl; lia).
    assert (HokP : Forall ppair P /\ ppair p) by (apply Forall_app in Hok as [Hok _]; apply Forall_app in Hok as [Hok1 Hok2]; split; auto; now inversion Hok2).
    destruct HokP as [HokP Hp].
    assert (Hold : forall i, (i < length P)%nat -> nth i (P ++ [p]) (0, 0) = nth i P (0, 0)) by (intros i Hi; now rewrite app_nth1).
    assert (Hnew : nth (length P) (P ++ [p]) (0, 0) = p) by (rewrite app_nth2, Nat.sub_diag by lia; reflexivity).
    destruct p as [x y]. cbn [fcmp_loop]. destruct (plain_xor x y (proj1 Hp) (proj2 Hp)) as (rr & m & e & E & _). rewrite E. cbn [obind].
    assert (HXp : xres (x, y) rr e) by (exists m; exact E).
    rewrite (plain_step (nth D P (0, 0)) (x, y)) by (auto using nth_ppair).
    destruct (Z.ltb_spec (ml (nth D P (0, 0))) (ml (x, y))) as [Hlt|Hge].
    + rewrite <- Hlen2. destruct (IH (P ++ [(x, y)]) (length P) rr e Hok) as (D' & E' & HM').
      * split; [lia|]. unfold pml. rewrite Hnew. split; intros i Hi.
        -- rewrite Hold by auto. specialize (H2 i Hi). unfold pml in H2. lia.
        -- destruct (Nat.eq_dec i (length P)) as [->|]; [rewrite Hnew; lia|]. rewrite Hold by lia. specialize (H2 i ltac:(lia)). unfold pml in H2. lia.
      * now rewrite Hnew.
      * exists D'. auto.
    + rewrite <- Hlen2. destruct (IH (P ++ [(x, y)]) D lx le Hok) as (D' & E' & HM').
      * split; [lia|]. unfold pml. rewrite Hold by auto. split; intros i Hi; [rewrite Hold by lia; apply H1; auto|].
        destruct (Nat.eq_dec i (length P)) as [->|]; [rewrite Hnew; lia|]. rewrite Hold by lia. apply H2. lia.
      * now rewrite Hold.
      * exists D'. auto.
Qed.

Lemma fcmp_char n v1 v2 : plain_point n v1 -> plain_point n v2 -> (0 < n)%nat ->
  exists D, first_max (glv (map s_mag v1) (map s_mag v2)) n D /\
    mortonCmpFloat F32 v1 v2 = Ret (nth D (map s_mag v1) 0 <? nth D (map s_mag v2) 0).
Proof.
  intros [L1 F1] [L2 F2] Hn.
  assert (Hok : Forall ppair (combine v1 v2)).
  { apply Forall_forall. intros [x y] H. rewrite Forall_forall in F1, F2. split; [apply F1; eapply in_combine_l; eauto|apply F2; eapply in_combine_r; eauto]. }
  assert (Hl : length (combine v1 v2) = n) by (rewrite combine_length; lia).
  assert (Hnth : forall i, nth i (combine v1 v2) (0, 0) = (nth i v1 0, nth i v2 0)) by (intros; apply combine_nth; lia).
  assert (Hml : forall i, pml (combine v1 v2) i = glv (map s_mag v1) (map s_mag v2) i).
  { intros i. unfold pml. rewrite Hnth. unfold ml, glv. cbn [fst snd]. now rewrite <- !(map_nth s_mag). }
  unfold mortonCmpFloat. destruct (combine v1 v2) as [|[x y] r] eqn:EC; [simpl in Hl; lia|].
  assert (Hp : ppair (x, y)) by now inversion Hok.
  destruct (plain_xor x y (proj1 Hp) (proj2 Hp)) as (rr & m & e & E & _). rewrite E. cbn [obind].
  destruct (fcmp_loop_spec r [(x, y)] 0 rr e) as (D & ED & HD).
  - exact Hok.
  - split; [simpl; lia|]. split; [lia|]. intros i Hi. simpl in Hi. replace i with O by lia. lia.
  - exists m. exact E.
  - cbn [length app] in *. rewrite ED. cbn [obind]. simpl in Hl. destruct HD as (HD1 & HD2 & HD3).
    exists D. split; [split; [lia|]; split; intros i Hi; rewrite <- !Hml; [auto|apply HD3; lia]|].
    assert (HDn : (D < n)%nat) by lia.
    unfold vread. rewrite !(nth_error_nth' _ 0) by lia. cbn [obind].
    rewrite Forall_forall in F1, F2. rewrite (plain_val (nth D v1 0)) by (apply F1, nth_In; lia). rewrite (plain_val (nth D v2 0)) by (apply F2, nth_In; lia).
    rewrite (nth_indep (map s_mag v1) 0 (s_mag 0)), (nth_indep (map s_mag v2) 0 (s_mag 0)) by (rewrite map_length; lia). rewrite !map_nth. reflexivity.
Qed.

Lemma plain_gpoint n v : plain_point n v -> gpoint 277 n (map s_mag v).
Proof.
  intros [L F]. split; [now rewrite map_length|]. apply Forall_forall. intros x Hx. apply in_map_iff in Hx as (y & <- & Hy).
  rewrite Forall_forall in F. apply (plain_bound y). auto.
Qed.

Lemma plain_map_inj n a b : plain_point n a -> plain_point n b -> map s_mag a = map s_mag b -> a = b.
Proof.
  intros [L1 F1] [L2 F2] E. apply nth_ext with (d := 0) (d' := 0); [congruence|]. intros i Hi.
  rewrite Forall_forall in F1, F2. apply plain_inj; [apply F1, nth_In; lia|apply F2, nth_In; lia|].
  rewrite <- !(map_nth s_mag). now rewrite E.
Qed.

Lemma fzorder_lemma n v1 v2 : plain_point n v1 -> plain_point n v2 -> (0 < n)%nat ->
  exists b, mortonCmpFloat F32 v1 v2 = Ret b /\ (b = true <-> lex_lt (ikey 277 (map s_mag v1)) (ikey 277 (map s_mag v2))) /\
    (b = false <-> v1 = v2 \/ lex_lt (ikey 277 (map s_mag v2)) (ikey 277 (map s_mag v1))).
Proof.
  intros H1 H2 Hn. destruct (fcmp_char n v1 v2 H1 H2 Hn) as (D & HD & E). rewrite E.
  pose proof (plain_gpoint n v1 H1) as G1. pose proof (plain_gpoint n v2 H2) as G2.
  eexists. split; [reflexivity|].
  destruct (Z.ltb_spec (nth D (map s_mag v1) 0) (nth D (map s_mag v2) 0)) as [Hlt|Hge].
  - pose proof (g_lex 277 n _ _ D G1 G2 HD Hlt) as HL. split; [tauto|]. split; [discriminate|].
    intros [->|H]; [now apply lex_irrefl in HL|now apply lex_asym in HL].
  - destruct (Z.eq_dec (nth D (map s_mag v1) 0) (nth D (map s_mag v2) 0)) as [Heq|Hne].
    + pose proof (g_eq 277 n _ _ D G1 G2 HD Heq) as Em. rewrite Em. split; [split; [discriminate|intros H; now apply lex_irrefl in H]|].
      split; [intros _; left; eapply plain_map_inj; eauto|auto].
    + assert (HL : lex_lt (ikey 277 (map s_mag v2)) (ikey 277 (map s_mag v1))) by (apply (g_lex 277 n _ _ D); auto; [now apply glv_sym|lia]).
      split; [|tauto]. split; [discriminate|]. intros H. now apply lex_asym in H.
Qed.

Lemma ftotal_lemma n : (0 < n)%nat ->
  (forall a, plain_point n a -> mortonCmpFloat F32 a a = Ret false) /\
  (forall a b c, plain_point n a -> plain_point n b -> plain_point n c ->
     mortonCmpFloat F32 a b = Ret true -> mortonCmpFloat F32 b c = Ret true -> mortonCmpFloat F32 a c = Ret true) /\
  (forall a b, plain_point n a -> plain_point n b -> a <> b ->
     (mortonCmpFloat F32 a b = Ret true /\ mortonCmpFloat F32 b a = Ret false) \/ (mortonCmpFloat F32 a b = Ret false /\ mortonCmpFloat F32 b a = Ret true)).
Proof.
  intros Hn. assert (Z := fun v1 v2 H1 H2 => fzorder_lemma n v1 v2 H1 H2 Hn).
  split; [|split].
  - intros a Ha. destruct (Z a a Ha Ha) as (b & E & H1 & H2). rewrite E. f_equal. apply H2. auto.
  - intros a b c Ha Hb Hc Eab Ebc. destruct (Z a b Ha Hb) as (b1 & E1 & H1 & _). destruct (Z b c Hb Hc) as (b2 & E2 & H2 & _).
    destruct (Z a c Ha Hc) as (b3 & E3 & H3 & _). rewrite E3. f_equal. apply H3.
    eapply lex_trans; [apply H1; congruence|apply H2; congruence].
  - intros a b Ha Hb Hne. destruct (Z a b Ha Hb) as (b1 & E1 & H1 & H1'). destruct (Z b a Hb Ha) as (b2 & E2 & H2 & H2').
    rewrite E1, E2. destruct b1.
    + left. split; [auto|]. f_equal. apply H2'. right. now apply H1.
    + right. split; [auto|]. f_equal. apply H2. destruct H1' as [H1' _]. destruct (H1' eq_refl); [congruence|auto].
Qed.

(** ** Distance *)
Lemma fdist_loop_spec l : forall m, Forall ppair l -> -127 <= m ->
  exists d, fdist_loop F32 l m = Ret d /\ m <= d /\
    forall k, -127 <= k -> (d <= k <-> m <= k /\ forall p, In p l -> ml p <= k + 150 \/ ml p = 0).
Proof.
  induction l as [|[x y] l IH]; intros m Hok Hm; cbn [fdist_loop].
  - exists m. split; [reflexivity|]. split; [lia|]. intros k Hk. split; [intros H; split; [auto|intros p []]|tauto].
  - inversion Hok as [|? ? Hp Hok']; subst. destruct (plain_xor x y (proj1 Hp) (proj2 Hp)) as (r & mm & e & E & _ & _ & C). rewrite E. cbn [obind].
    assert (He : -127 <= e /\ forall k, -127 <= k -> (e <= k <-> ml (x, y) <= k + 150 \/ ml (x, y) = 0)).
    { destruct C as [(C1 & C2 & C3)|(C1 & C2 & C3 & C4)].
      - rewrite (ml_0 (x, y)) by auto. split; [lia|]. intros k Hk. lia.
      - change (bl (Z.lxor (s_mag x) (s_mag y))) with (ml (x, y)) in *. split; [lia|]. intros k Hk. lia. }
    destruct He as [He1 He2].
    destruct (IH (if m <? e then e else m) Hok') as (d & Ed & Hd1 & Hd2); [destruct (m <? e); auto|].
    exists d. split; [auto|]. split; [destruct (Z.ltb_spec m e); lia|]. intros k Hk. rewrite (Hd2 k Hk). split.
    + intros [G1 G2]. assert (m <= k /\ e <= k) as [G3 G4] by (destruct (Z.ltb_spec m e); lia). split; [auto|].
      intros p [<-|Hin]; [apply He2; auto|auto].
    + intros [G1 G2]. split; [|intros p Hin; apply G2; simpl; auto]. pose proof (proj2 (He2 k Hk) (G2 (x, y) (or_introl eq_refl))). destruct (m <? e); auto.
Qed.

Lemma fdist_lemma n v1 v2 : plain_point n v1 -> plain_point n v2 ->
  exists d, mortonDistanceFloat F32 v1 v2 = Ret d /\ -127 <= d /\
    forall k, -127 <= k -> (d <= k <-> forall i, (i < n)%nat -> nth i v1 0 = nth i v2 0 \/ s_mag (nth i v1 0) / 2 ^ (k + 150) = s_mag (nth i v2 0) / 2 ^ (k + 150)).
Proof.
  intros [L1 F1] [L2 F2]. rewrite Forall_forall in F1, F2.
  assert (Hok : Forall ppair (combine v1 v2)).
  { apply Forall_forall. intros [x y] H. split; [apply F1; eapply in_combine_l; eauto|apply F2; eapply in_combine_r; eauto]. }
  destruct (fdist_loop_spec (combine v1 v2) (-127) Hok ltac:(lia)) as (d & E & H1 & H2).
  exists d. split; [exact E|]. split; [auto|]. intros k Hk. rewrite (H2 k Hk).
  assert (Hnth : forall i, nth i (combine v1 v2) (0, 0) = (nth i v1 0, nth i v2 0)) by (intros; apply combine_nth; lia).
  assert (Hc : forall x y, plain x -> plain y -> (ml (x, y) <= k + 150 \/ ml (x, y) = 0 <-> x = y \/ s_mag x / 2 ^ (k + 150) = s_mag y / 2 ^ (k + 150))).
  { intros x y Px Py. pose proof (plain_bound x Px). pose proof (plain_bound y Py). unfold ml. cbn [fst snd].
    rewrite (bl_xor_le (k + 150)) by lia. split; intros [H'|H']; auto.
    - left. apply plain_inj; auto. apply Z.lxor_eq. apply bl_0; auto. apply Z.lxor_nonneg. lia.
    - subst. auto. }
  split.
  - intros [_ H] i Hi. apply Hc; [apply F1, nth_In; lia|apply F2, nth_In; lia|]. apply H. rewrite <- Hnth. apply nth_In. rewrite combine_length. lia.
  - intros H. split; [lia|]. intros p Hp. apply In_nth with (d := (0, 0)) in Hp as (i & Hi & <-). rewrite Hnth. rewrite combine_length in Hi.
    apply Hc; [apply F1, nth_In; lia|apply F2, nth_In; lia|]. apply H. lia.
Qed.

Lemma fdist_metric_lemma n a b c : plain_point n a -> plain_point n b -> plain_point n c ->
  exists dab dba dac dbc, mortonDistanceFloat F32 a b = Ret dab /\ mortonDistanceFloat F32 b a = Ret dba /\
    mortonDistanceFloat F32 a c = Ret dac /\ mortonDistanceFloat F32 b c = Ret dbc /\
    dab = dba /\ (dab = -127 <-> a = b) /\ dac <= Z.max dab dbc.
Proof.
  intros Ha Hb Hc. destruct (fdist_lemma n a b Ha Hb) as (dab & E1 & B1 & S1). destruct (fdist_lemma n b a Hb Ha) as (dba & E2 & B2 & S2).
  destruct (fdist_lemma n a c Ha Hc) as (dac & E3 & B3 & S3). destruct (fdist_lemma n b c Hb Hc) as (dbc & E4 & B4 & S4).
  exists dab, dba, dac, dbc. do 4 (split; [auto|]).
  assert (Hmon : forall k k' x y, 0 <= k <= k' -> x / 2 ^ k = y / 2 ^ k -> x / 2 ^ k' = y / 2 ^ k') by (intros; eapply div_mono_exp; eauto).
  split; [|split].
  - apply Z.le_antisymm.
    + apply S1; auto. intros i Hi. destruct (proj1 (S2 dba B2) ltac:(lia) i Hi); auto.
    + apply S2; auto. intros i Hi. destruct (proj1 (S1 dab B1) ltac:(lia) i Hi); auto.
  - split.
    + intros E. pose proof (proj1 (S1 (-127) ltac:(lia)) ltac:(lia)) as H. destruct Ha as [La Fa], Hb as [Lb Fb]. rewrite Forall_forall in Fa, Fb.
      apply nth_ext with (d := 0) (d' := 0); [congruence|]. intros i Hi. rewrite La in Hi. destruct (H i Hi) as [|G]; [auto|].
      (* plain numbers that agree above 2^-127 are equal: their spacing is at least 2^-126 *)
      assert (Px : plain (nth i a 0)) by (apply Fa, nth_In; lia). assert (Py : plain (nth i b 0)) by (apply Fb, nth_In; lia).
      destruct (plain_xor _ _ Px Py) as (r & m & e & _ & _ & _ & C). destruct C as [(C & _)|(C1 & C2 & C3 & C4)]; [auto|].
      exfalso. pose proof (plain_bound _ Px). pose proof (plain_bound _ Py).
      apply (bl_xor_le (-127 + 150)) in G; lia.
    + intros ->. apply Z.le_antisymm; [|auto]. apply S1; [lia|]. auto.
  - apply S3; [lia|]. intros i Hi. destruct (proj1 (S1 dab B1) ltac:(lia) i Hi) as [G1|G1], (proj1 (S4 dbc B4) ltac:(lia) i Hi) as [G2|G2].
    + left. congruence.
    + right. rewrite G1. eapply (Hmon (dbc + 150)); [lia|auto].
    + right. rewrite <- G2. eapply (Hmon (dab + 150)); [lia|auto].
    + right. transitivity (s_mag (nth i b 0) / 2 ^ (Z.max dab dbc + 150)); [eapply (Hmon (dab + 150))|eapply (Hmon (dbc + 150))]; auto; lia.
Qed.

(** ** Witnesses *)
(** -1, -4; -1.5, -(2 + 2^-22); -(1 + 2^-23), -(2 + 2^-21). *)
Lemma cycle_lemma : exists a b c, Forall s_normal (a ++ b ++ c) /\ length a = 2%nat /\ length b = 2%nat /\ length c = 2%nat /\
  mortonCmpFloat F32 a b = Ret true /\ mortonCmpFloat F32 b c = Ret true /\ mortonCmpFloat F32 c a = Ret true.
Proof.
  exists [0xBF800000; 0xC0800000], [0xBFC00000; 0xC0000001], [0xBF800001; 0xC0000002].
  split; [|vm_compute; repeat split; reflexivity].
  apply Forall_forall. intros x Hx. cbn [app In] in Hx.
  repeat match goal with H : _ \/ _ |- _ => destruct H as [<-|Hx] end; try contradiction; (split; split; vm_compute; congruence).
Qed.

Lemma zero_lemma : exists a b c, mortonCmpFloat F32 a b = Ret false /\ mortonCmpFloat F32 b a = Ret false /\
  mortonCmpFloat F32 b c = Ret false /\ mortonCmpFloat F32 c b = Ret false /\ mortonCmpFloat F32 a c = Ret true /\ Forall s_finite (a ++ b ++ c).
Proof.
  (* (-0,1), (+0,5), (-0,2) *)
  exists [0x80000000; 0x3F800000], [0; 0x40A00000], [0x80000000; 0x40000000].
  do 5 (split; [vm_compute; reflexivity|]).
  apply Forall_forall. intros x Hx. cbn [app In] in Hx.
  repeat match goal with H : _ \/ _ |- _ => destruct H as [<-|Hx] end; try contradiction; (split; [split|]; vm_compute; congruence).
Qed.

Lemma float_ub_lemma :
  (exists x y, s_normal x /\ s_normal y /\ s_neg x = true /\ s_neg y = true /\ xorFloat F32 x y = UB) /\
  (exists x y, s_normal x /\ s_normal y /\ s_neg x = false /\ s_neg y = false /\ xorFloat F32 x y = UB).
Proof.
  split.
  - exists 0xCB800000, 0xBF000000. split; [split; split; vm_compute; congruence|]. split; [split; split; vm_compute; congruence|]. repeat split; vm_compute; reflexivity.
  - exists 0x00800000, 0x00800001. split; [split; split; vm_compute; congruence|]. split; [split; split; vm_compute; congruence|]. repeat split; vm_compute; reflexivity.
Qed.

(** Subnormal operands get the implicit bit. *)
Lemma subnormal_lemma : exists x y r m e, s_finite x /\ s_finite y /\ s_neg x = false /\ s_neg y = false /\
  xorFloat F32 x y = Ret (r, m, e) /\ s_mag r <> Z.lxor (s_mag x) (s_mag y).
Proof.
  exists 0x01000000, 1. do 3 eexists. split; [split; [split|]; vm_compute; congruence|]. split; [split; [split|]; vm_compute; congruence|].
  split; [vm_compute; reflexivity|]. split; [vm_compute; reflexivity|]. split; [vm_compute; reflexivity|]. vm_compute. discriminate.
Qed.

(** ** intervalPow2Float<float> *)
Lemma ishl1_small s : 0 <= s <= 30 -> ishl1 s = Ret (2 ^ s).
Proof.
  intros H. unfold ishl1. destruct (Z.ltb_spec s 0); [lia|]. destruct (Z.leb_spec 32 s); [lia|]. destruct (Z.eqb_spec s 31); [lia|]. reflexivity.
Qed.

Lemma comp_any m E s : 0 <= m < 2 ^ 23 -> 0 <= E < 256 ->
  exists r, ft_compose F32 m (E - 127) s = Ret r /\ single r /\ s_man r = m /\ s_exp r = E /\ s_neg r = s.
Proof.
  intros Hm HE. destruct (float_roundtrip_lemma F32) as [_ H]. destruct (H m (E - 127) s) as (r & Hr & H1 & H2); [exact Hm|cbn; lia|].
  exists r. split; [auto|]. assert (Hs : single r) by exact Hr. split; [auto|]. rewrite dec_s in H2 by auto. injection H2. intros. repeat split; auto; lia.
Qed.

(** A bound of the block: magnitude in units of the last place of the second argument. *)
Lemma bound_val M E s : M = 0 \/ 2 ^ 23 <= M < 2 ^ 24 -> 1 <= E < 255 ->
  exists r, bound F32 M (E - 127) s = Ret r /\ s_finite r /\ s_neg r = s /\ s_mag r = M * 2 ^ (E - 1).
Proof.
  intros HM HE. unfold bound. cbn [ft_bias]. destruct (Z.eqb_spec M 0) as [->|Hn]; cbn [negb].
  - destruct (comp_any 0 0 s) as (r & Er & R1 & R2 & R3 & R4); [lia|lia|]. exists r. split; [exact Er|]. split; [split; [auto|lia]|]. split; [auto|].
    unfold s_mag. rewrite R3, R2. reflexivity.
  - destruct HM as [HM|HM]; [lia|]. unfold ft_implicit. cbn [ft_mbits].
    assert (EX : Z.lxor M (2 ^ 23) = M - 2 ^ 23).
    { replace M with ((M - 2 ^ 23) + 2 ^ 23) at 1 by lia. rewrite <- (lxor_top 23) by lia. rewrite Z.lxor_assoc, Z.lxor_nilpotent, Z.lxor_0_r. reflexivity. }
    rewrite EX. destruct (comp_any (M - 2 ^ 23) E s) as (r & Er & R1 & R2 & R3 & R4); [lia|lia|].
    exists r. split; [exact Er|]. split; [split; [auto|lia]|]. split; [auto|]. unfold s_mag. rewrite R3, R2. destruct (Z.eqb_spec E 0); [lia|]. f_equal. lia.
Qed.

Lemma interval_float_lemma x y : s_normal x -> s_normal y -> s_neg x = s_neg y -> s_mag x < s_mag y ->
  exists lev near mid far, 
    intervalPow2Float F32 x y = (if s_neg x then Ret (lev, far, mid, near) else Ret (lev, near, mid, far)) /\
    s_finite near /\ s_finite mid /\ s_finite far /\ s_neg near = s_neg x /\ s_neg mid = s_neg x /\ s_neg far = s_neg x /\
    1 <= lev + 149 /\ (exists q, s_mag near = q * 2 ^ (lev + 149)) /\
    s_mag near <= s_mag x /\ s_mag x < s_mag mid /\ s_mag mid <= s_mag y /\ s_mag y <= s_mag far /\
    s_mag mid = s_mag near + 2 ^ (lev + 148) /\ s_mag far = s_mag near + 2 ^ (lev + 149) - 2 ^ (s_exp y - 1).
Proof.
  intros [Sx Ex] [Sy Ey] Hs Hlt. unfold intervalPow2Float. rewrite !dec_s by auto. rewrite <- Hs, xorb_nilpotent.
  pose proof (s_mag_exp y x ltac:(lia)) as HE. pose proof (s_ranges x) as [Mx _]. pose proof (s_ranges y) as [My _].
  assert (Hsw : (s_exp y - 127 <? s_exp x - 127) || ((s_exp x - 127 =? s_exp y - 127) && (s_man y <? s_man x)) = false).
  { destruct (Z.ltb_spec (s_exp y - 127) (s_exp x - 127)); [lia|]. cbn [orb]. destruct (Z.eqb_spec (s_exp x - 127) (s_exp y - 127)) as [EE|]; [|reflexivity].
    pose proof (proj1 (s_mag_man y x ltac:(lia)) ltac:(lia)). cbn [andb]. apply Z.ltb_ge. lia. }
  rewrite Hsw. cbv zeta. unfold ft_implicit. cbn [ft_mbits ft_ity bit_num ft_bias]. rewrite !lor_implicit by auto.
  replace (s_exp y - 127 - (s_exp x - 127)) with (s_exp y - s_exp x) by lia.
  set (d := s_exp y - s_exp x). set (A := 2 ^ 23 + s_man y). set (B := (2 ^ 23 + s_man x) / 2 ^ d).
  assert (Pd : 0 < 2 ^ d) by (unfold d; lia).
  assert (HA : 2 ^ 23 <= A < 2 ^ 24) by (unfold A; lia).
  assert (HB : 0 <= B < 2 ^ 24) by (unfold B; split; [apply Z.div_pos; lia|apply Z.div_lt_upper_bound; nia]).
  (* the level *)
  assert (EL : (if d <=? 23 then 32 - it_nlz I32 (Z.lxor A (Z.shiftr (2 ^ 23 + s_man x) d)) else 32 - it_nlz I32 A) = bl (Z.lxor A B)).
  { assert (Hn : forall z, 0 <= z < 2 ^ 24 -> 32 - it_nlz I32 z = bl z).
    { intros z Hz. rewrite it_nlz_val by (unfold utop; cbn; lia). unfold lzv, bl. cbn [fst snd bit_num]. destruct (Z.eqb_spec z 0); lia. }
    destruct (Z.leb_spec d 23).
    - rewrite Z.shiftr_div_pow2 by (unfold d; lia). fold B. apply Hn. apply lxor_range; lia.
    - assert (B0 : B = 0).
      { unfold B. apply Z.div_small. split; [lia|]. assert (2 ^ 24 <= 2 ^ d) by (apply Z.pow_le_mono_r; lia). lia. }
      rewrite B0, Z.lxor_0_r. apply Hn. lia. }
  rewrite EL.
  (* cut of the magnitudes *)
  assert (VA : s_mag y = A * 2 ^ (s_exp y - 1)) by (apply s_mag_normal; lia).
  assert (VB : B * 2 ^ (s_exp y - 1) <= s_mag x < (B + 1) * 2 ^ (s_exp y - 1)).
  { rewrite (s_mag_normal x) by lia. pose proof (Z.div_mod (2 ^ 23 + s_man x) (2 ^ d) ltac:(lia)) as Dm. pose proof (Z.mod_pos_bound (2 ^ 23 + s_man x) (2 ^ d) ltac:(lia)) as Mm.
    fold B in Dm. replace (2 ^ (s_exp y - 1)) with (2 ^ d * 2 ^ (s_exp x - 1)) by (rewrite <- Z.pow_add_r by (unfold d; lia); f_equal; unfold d; lia).
    assert (0 < 2 ^ (s_exp x - 1)) by lia. nia. }
  assert (Pu : 0 < 2 ^ (s_exp y - 1)) by lia.
  assert (HAB : B < A).
  { assert (B <= A) by nia. assert (B <> A); [|lia]. intros E.
    assert (d = 0).
    { destruct (Z.eq_dec d 0); [auto|]. exfalso. assert (2 <= 2 ^ d) by (change 2 with (2 ^ 1) at 1; apply Z.pow_le_mono_r; unfold d in *; lia).
      assert (B < 2 ^ 23) by (unfold B; apply Z.div_lt_upper_bound; nia). lia. }
    assert (EE : s_exp x = s_exp y) by (unfold d in *; lia).
    rewrite (s_mag_normal x) in Hlt by lia. rewrite VA in Hlt. unfold B in E. rewrite H0, Z.div_1_r in E. rewrite E, EE in Hlt. lia. }
  set (L := bl (Z.lxor A B)).
  assert (HXn : 0 <= Z.lxor A B < 2 ^ 24) by (apply lxor_range; lia).
  assert (HL : 1 <= L <= 24).
  { unfold L. split; [|apply bl_le; lia]. pose proof (bl_nonneg (Z.lxor A B)). destruct (Z.eq_dec (bl (Z.lxor A B)) 0) as [E|]; [|lia].
    apply bl_0 in E; [|lia]. apply Z.lxor_eq in E. lia. }
  rewrite !ishl1_small by lia. cbn [obind]. assert (PL : 0 < 2 ^ L) by lia. destruct (Z.eqb_spec (2 ^ L) (- 2 ^ 31)); [lia|].
  rewrite land_lnot_mask by lia.
  assert (EP : 2 ^ L = 2 * 2 ^ (L - 1)) by (rewrite <- Z.pow_succ_r by lia; f_equal; lia).
  rewrite !lor_low by lia.
  set (Q := A / 2 ^ L).
  assert (QB : B / 2 ^ L = Q) by (symmetry; apply bl_xor_le; try lia; unfold L; lia).
  assert (Qn : A / 2 ^ (L - 1) <> B / 2 ^ (L - 1)).
  { intros E. apply bl_xor_le in E; unfold L in *; lia. }
  pose proof (Z.div_mod A (2 ^ L) ltac:(lia)) as DA. pose proof (Z.mod_pos_bound A (2 ^ L) ltac:(lia)) as MA. fold Q in DA.
  pose proof (Z.div_mod B (2 ^ L) ltac:(lia)) as DB. pose proof (Z.mod_pos_bound B (2 ^ L) ltac:(lia)) as MB. rewrite QB in DB.
  assert (Hmid : B < 2 ^ L * Q + 2 ^ (L - 1) <= A).
  { assert (Hd : forall R, 0 <= R < 2 ^ L -> (2 ^ L * Q + R) / 2 ^ (L - 1) = 2 * Q + (if R <? 2 ^ (L - 1) then 0 else 1)).
    { intros R HR. symmetry. destruct (Z.ltb_spec R (2 ^ (L - 1))).
      - apply (Z.div_unique _ _ _ R); [lia|]. rewrite EP. ring.
      - apply (Z.div_unique _ _ _ (R - 2 ^ (L - 1))); [lia|]. rewrite EP. ring. }
    rewrite DA, DB, !Hd in Qn by auto.
    destruct (Z.ltb_spec (A mod 2 ^ L) (2 ^ (L - 1))), (Z.ltb_spec (B mod 2 ^ L) (2 ^ (L - 1))); lia. }
  assert (Hupp : 2 ^ L * Q + (2 ^ L - 1) < 2 ^ 24).
  { assert (E24 : 2 ^ 24 = 2 ^ L * 2 ^ (24 - L)) by (rewrite <- Z.pow_add_r by lia; f_equal; lia).
    assert (HQ : Q + 1 <= 2 ^ (24 - L)) by (apply Z.le_succ_l; unfold Q; apply Z.div_lt_upper_bound; lia).
    pose proof (Z.mul_le_mono_nonneg_l _ _ (2 ^ L) ltac:(lia) HQ). lia. }
  assert (Hlow : 2 ^ L * Q = 0 \/ 2 ^ 23 <= 2 ^ L * Q).
  { destruct (Z.eq_dec L 24) as [E|].
    - left. unfold Q. rewrite E, Z.div_small by lia. lia.
    - right. assert (E23 : 2 ^ 23 = 2 ^ L * 2 ^ (23 - L)) by (rewrite <- Z.pow_add_r by lia; f_equal; lia).
      assert (HQ : 2 ^ (23 - L) <= Q) by (unfold Q; apply Z.div_le_lower_bound; lia).
      rewrite E23. apply Z.mul_le_mono_nonneg_l; lia. }
  assert (Hmid2 : 2 ^ 23 <= 2 ^ L * Q + 2 ^ (L - 1)).
  { destruct Hlow as [E|]; [|lia]. apply Z.mul_eq_0 in E as [E|E]; [lia|]. rewrite E in *. destruct (Z.eq_dec L 24) as [->|]; [lia|]. exfalso.
    assert (2 ^ L <= 2 ^ 23) by (apply Z.pow_le_mono_r; lia). lia. }
  destruct (bound_val (2 ^ L * Q) (s_exp y) (s_neg x)) as (near & E1 & F1 & N1 & V1); [lia|lia|].
  destruct (bound_val (2 ^ L * Q + 2 ^ (L - 1)) (s_exp y) (s_neg x)) as (mid & E2 & F2 & N2 & V2); [lia|lia|].
  destruct (bound_val (2 ^ L * Q + (2 ^ L - 1)) (s_exp y) (s_neg x)) as (far & E3 & F3 & N3 & V3); [lia|lia|].
  rewrite E1, E2, E3. cbn [obind].
  exists (s_exp y - 127 + L - 23), near, mid, far.
  split; [reflexivity|]. do 6 (split; [auto|]). split; [lia|].
  replace (s_exp y - 127 + L - 23 + 149) with (L + (s_exp y - 1)) by lia. replace (s_exp y - 127 + L - 23 + 148) with ((L - 1) + (s_exp y - 1)) by lia.
  rewrite !Z.pow_add_r by lia. rewrite V1, V2, V3, VA.
  split; [exists Q; ring|]. set (U := 2 ^ (s_exp y - 1)) in *.
  assert (Hm : forall a b, a <= b -> a * U <= b * U) by (intros a b Hab; apply Z.mul_le_mono_nonneg_r; lia).
  pose proof (Hm (2 ^ L * Q) B ltac:(lia)) as G1. pose proof (Hm (B + 1) (2 ^ L * Q + 2 ^ (L - 1)) ltac:(lia)) as G2.
  pose proof (Hm (2 ^ L * Q + 2 ^ (L - 1)) A ltac:(lia)) as G3. pose proof (Hm A (2 ^ L * Q + (2 ^ L - 1)) ltac:(lia)) as G4.
  split; [lia|]. split; [lia|]. split; [lia|]. split; [lia|]. split; ring.
Qed.

Lemma interval_float_ub x y : single x -> single y -> s_neg x = s_neg y -> s_mag y <= s_mag x -> intervalPow2Float F32 x y = UB.
Proof.
  intros Sx Sy Hs H. unfold intervalPow2Float. rewrite !dec_s by auto. rewrite <- Hs, xorb_nilpotent.
  pose proof (s_mag_exp x y H) as HE. pose proof (s_ranges x) as [Mx Ex]. pose proof (s_ranges y) as [My Ey].
  destruct ((s_exp y - 127 <? s_exp x - 127) || ((s_exp x - 127 =? s_exp y - 127) && (s_man y <? s_man x))) eqn:E; [reflexivity|].
  apply orb_false_iff in E as [E1 E2]. apply Z.ltb_ge in E1. assert (EE : s_exp x = s_exp y) by lia.
  rewrite EE, Z.eqb_refl in E2. cbn [andb] in E2. apply Z.ltb_ge in E2. pose proof (proj1 (s_mag_man x y EE) H). assert (EM : s_man x = s_man y) by lia.
  cbv zeta. rewrite EE, EM, Z.sub_diag. cbn [ft_mbits]. change (0 <=? 23) with true. cbv iota. rewrite Z.shiftr_0_r, Z.lxor_nilpotent.
  vm_compute. destruct (s_neg y); reflexivity.
Qed.

(** ** mortonSplitFloat *)
Definition pure {A} (o : outcome A) : Prop := match o with Ret _ | UB => True | _ => False end.
Lemma pure_bind {A B} (o : outcome A) (k : A -> outcome B) : pure o -> (forall a, pure (k a)) -> pure (obind o k).
Proof. destruct o; simpl; auto. Qed.

Lemma pure_compose f m e s : pure (ft_compose f m e s).
Proof.
  destruct f; cbn [ft_compose]; unfold setF, setD, sadd, shl; repeat (apply pure_bind; [|intros]);
    repeat match goal with |- context [if ?c then _ else _] => destruct c end; exact I.
Qed.

Lemma pure_interval f x y : pure (intervalPow2Float f x y).
Proof.
  unfold intervalPow2Float. destruct (ft_decompose f x) as [[m1 e1] s1]. destruct (ft_decompose f y) as [[m2 e2] s2].
  destruct (xorb s1 s2); [exact I|]. destruct (_ || _); [exact I|]. cbv zeta.
  apply pure_bind; [unfold ishl1; destruct (_ || _); exact I|]. intros p. destruct (_ =? _); [exact I|].
  apply pure_bind; [unfold ishl1; destruct (_ || _); exact I|]. intros h.
  repeat (apply pure_bind; [unfold bound; destruct (negb _); apply pure_compose|intros]). destruct s2; exact I.
Qed.

Lemma fsplit_loop_ub f r : forall ds lev low mid upp, (ds < length low)%nat ->
  (exists p, In p r /\ intervalPow2Float f (fst p) (snd p) = UB) -> fsplit_loop f r ds lev low mid upp = UB.
Proof.
  induction r as [|[x y] r IH]; intros ds lev low mid upp Hd (p & Hp & E); [destruct Hp|].
  cbn [fsplit_loop]. pose proof (pure_interval f x y) as HP.
  destruct (intervalPow2Float f x y) as [[[[lv' lo] mi] up]| | |] eqn:EI; cbn [obind]; try reflexivity; try contradiction.
  destruct Hp as [<-|Hp]; [cbn [fst snd] in E; congruence|].
  destruct (lev <? lv').
  - unfold vread. destruct (nth_error low ds) eqn:En; [|apply nth_error_None in En; lia]. cbn [obind]. apply IH; eauto. rewrite app_length. simpl. lia.
  - apply IH; eauto. rewrite app_length. simpl. lia.
Qed.

Lemma fsplit_ub_lemma v1 v2 i : length v1 = length v2 -> (i < length v1)%nat -> single (nth i v1 0) -> single (nth i v2 0) ->
  s_neg (nth i v1 0) = s_neg (nth i v2 0) -> s_mag (nth i v2 0) <= s_mag (nth i v1 0) -> mortonSplitFloat F32 v1 v2 = UB.
Proof.
  intros Hl Hi S1 S2 Hs Hm.
  assert (Hin : exists p, In p (combine v1 v2) /\ intervalPow2Float F32 (fst p) (snd p) = UB).
  { exists (nth i (combine v1 v2) (0, 0)). split; [apply nth_In; rewrite combine_length; lia|]. rewrite combine_nth by auto. cbn [fst snd]. apply interval_float_ub; auto. }
  unfold mortonSplitFloat. destruct (combine v1 v2) as [|[x y] r]; [reflexivity|].
  pose proof (pure_interval F32 x y) as HP.
  destruct Hin as (p & [<-|Hp] & Ep).
  - cbn [fst snd] in Ep. rewrite Ep. reflexivity.
  - destruct (intervalPow2Float F32 x y) as [[[[lv' lo] mi] up]| | |] eqn:EI; cbn [obind]; try reflexivity; try contradiction.
    apply fsplit_loop_ub; eauto; simpl; lia.
Qed.

Lemma fsplit_order_lemma : exists a b, Forall s_normal (a ++ b) /\ length a = 2%nat /\ length b = 2%nat /\
  (exists r, mortonSplitFloat F32 a b = Ret r) /\ mortonSplitFloat F32 b a = UB.
Proof.
  (* (1, 2) and (1.5, 3) *)
  exists [0x3F800000; 0x40000000], [0x3FC00000; 0x40400000].
  split; [apply Forall_forall; intros x Hx; cbn [app In] in Hx;
    repeat match goal with H : _ \/ _ |- _ => destruct H as [<-|Hx] end; try contradiction; (split; split; vm_compute; congruence)|].
  split; [reflexivity|]. split; [reflexivity|]. split; [eexists; vm_compute; reflexivity|vm_compute; reflexivity].
Qed.

(** mortonCmpFloat<double>. *)
Lemma pure_xor f x y : pure (xorFloat f x y).
Proof.
  unfold xorFloat. destruct (if fmag f y <? fmag f x then (x, y) else (y, x)) as [f1 f2].
  destruct (ft_decompose f f1) as [[m1 e1] s1]. destruct (ft_decompose f f2) as [[m2 e2] s2].
  destruct (xorb s1 s2); [apply pure_bind; [apply pure_compose|intros; exact I]|]. cbv zeta.
  apply pure_bind; [destruct (_ <? _); [destruct (_ <? _)|]; exact I|]. intros fm2.
  destruct (_ =? 0); [apply pure_bind; [apply pure_compose|intros; exact I]|].
  apply pure_bind.
  - unfold it_log2Mod, neg. destruct (ft_ity f); cbn [is_signed]; repeat match goal with |- context [if ?c then _ else _] => destruct c end; exact I.
  - intros l. apply pure_bind; [unfold shl; destruct (_ || _); exact I|]. intros sh. apply pure_bind; [apply pure_compose|intros; exact I].
Qed.

Lemma fcmp_loop_ub f r : forall d ld lx le, (exists p, In p r /\ xorFloat f (fst p) (snd p) = UB) -> fcmp_loop f d r ld lx le = UB.
Proof.
  induction r as [|[x y] r IH]; intros d ld lx le (p & Hp & E); [destruct Hp|]. cbn [fcmp_loop]. pose proof (pure_xor f x y) as HP.
  destruct (xorFloat f x y) as [[[r1 m1] e1]| | |] eqn:EX; cbn [obind]; try reflexivity; try contradiction.
  destruct Hp as [<-|Hp]; [cbn [fst snd] in E; congruence|]. destruct (_ && _); apply IH; eauto.
Qed.

Lemma fcmp_double_lemma v1 v2 i : length v1 = length v2 -> (i < length v1)%nat -> double (nth i v1 0) -> double (nth i v2 0) ->
  d_neg (nth i v1 0) = d_neg (nth i v2 0) -> nth i v1 0 <> nth i v2 0 -> mortonCmpFloat F64 v1 v2 = UB.
Proof.
  intros Hl Hi S1 S2 Hs Hm.
  assert (Hin : exists p, In p (combine v1 v2) /\ xorFloat F64 (fst p) (snd p) = UB).
  { exists (nth i (combine v1 v2) (0, 0)). split; [apply nth_In; rewrite combine_length; lia|]. rewrite combine_nth by auto. cbn [fst snd]. now apply xor_double_lemma. }
  unfold mortonCmpFloat. destruct (combine v1 v2) as [|[x y] r]; [reflexivity|].
  pose proof (pure_xor F64 x y) as HP.
  destruct Hin as (p & [<-|Hp] & Ep).
  - cbn [fst snd] in Ep. rewrite Ep. reflexivity.
  - destruct (xorFloat F64 x y) as [[[r1 m1] e1]| | |] eqn:EX; cbn [obind]; try reflexivity; try contradiction.
    rewrite fcmp_loop_ub by eauto. reflexivity.
Qed.

(** Two doubles of opposite sign are closer than two positive ones. *)
Lemma double_sign_lemma : exists x y r, d_neg x <> d_neg y /\ d_normal x /\ d_normal y /\ xorFloat F64 x y = Ret (r, 0, -768) /\ fmag F64 r = 2 ^ 306.
Proof.
  (* 1.0 and -1.0 *)
  exists 0x3FF0000000000000, 0xBFF0000000000000, 0x0FF0000000000000.
  split; [vm_compute; discriminate|]. split; [split; split; vm_compute; congruence|]. split; [split; split; vm_compute; congruence|]. split; vm_compute; reflexivity.
Qed.

(** xorFloat<float> in one statement for positive numbers: domain of definition. *)
Lemma xor_small_ub x y : single x -> single y -> s_neg x = s_neg y -> x <> y -> (s_neg x = true -> man2 x y <> 0) ->
  s_exp (big x y) - 23 + Z.log2 (sdiff x y) < 0 -> xorFloat F32 x y = UB.
Proof.
  intros Hx Hy Hs Hne Hn Hexp. pose proof (sdiff_range x y Hn) as HR.
  assert (H0 : sdiff x y <> 0) by (intros E; apply Hne; apply sdiff_0; auto).
  rewrite xor_same_sign by auto. destruct (Z.eqb_spec (sdiff x y) 0); [lia|]. rewrite it_log2_32 by lia. cbn [obind].
  destruct (shl 32 (sdiff x y) (23 - Z.log2 (sdiff x y))) eqn:E; cbn [obind]; try reflexivity; try (unfold shl in E; destruct (_ || _) in E; discriminate).
  unfold setF, sadd. destruct (_ && _); [|reflexivity]. cbn [obind]. unfold shl at 1.
  destruct (Z.ltb_spec (s_exp (big x y) - 127 - (23 - Z.log2 (sdiff x y)) + 127) 0); [reflexivity|lia].
Qed.

Lemma xor_far_negative_ub x y : single x -> single y -> s_neg x = true -> s_neg y = true -> 24 <= Z.abs (s_exp x - s_exp y) -> xorFloat F32 x y = UB.
Proof.
  intros Hx Hy Nx Ny H. apply xor_negative_ub; auto. pose proof (big_exp x y) as He. unfold man2.
  pose proof (s_ranges (small x y)) as [M _]. apply Z.div_small. split; [lia|].
  assert (24 <= s_exp (big x y) - s_exp (small x y)) by (destruct (big_small x y) as [[B S]|[B S]]; rewrite B, S in *; lia).
  apply Z.lt_le_trans with (2 ^ 24); [lia|]. apply Z.pow_le_mono_r; lia.
Qed.

Lemma interval_ub_witness : exists x y, s_normal x /\ s_normal y /\ s_neg x = s_neg y /\ intervalPow2Float F32 x y = UB.
Proof. exists 0x40A00000, 0x3F800000. repeat split; vm_compute; congruence. Qed.

Lemma distance_ub_witness :
  (exists a b, Forall s_normal (a ++ b) /\ length a = 1%nat /\ length b = 1%nat /\ mortonDistanceFloat F32 a b = UB) /\
  (exists a b, Forall d_normal (a ++ b) /\ length a = 1%nat /\ length b = 1%nat /\ mortonDistanceFloat F64 a b = UB).
Proof.
  split.
  - exists [0xCB800000], [0xBF000000]. split; [|repeat split; vm_compute; reflexivity].
    cbn [app]. repeat constructor; vm_compute; congruence.
  - exists [0x3FF0000000000000], [0x4000000000000000]. split; [|repeat split; vm_compute; reflexivity].
    cbn [app]. repeat constructor; vm_compute; congruence.
Qed.

(** *** The split *)
Lemma finite_mag z : s_finite z -> s_mag z <= (2 ^ 24 - 1) * 2 ^ 253.
Proof.
  intros [Hs He]. pose proof (s_ranges z) as [Hm He0]. unfold s_mag. destruct (Z.eqb_spec (s_exp z) 0).
  - assert (0 < 2 ^ 253) by lia. nia.
  - assert (2 ^ (s_exp z - 1) <= 2 ^ 253) by (apply Z.pow_le_mono_r; lia). assert (0 < 2 ^ (s_exp z - 1)) by lia. nia.
Qed.

Lemma fblock_exists x y : fhandled x y -> exists lev lo mi up, intervalPow2Float F32 x y = Ret (lev, lo, mi, up) /\ fblock x y lev lo mi up.
Proof.
  intros (Hx & Hy & Hm). unfold fblock. destruct (Bool.eqb (s_neg x) (s_neg y)) eqn:E.
  - apply eqb_prop in E. destruct (interval_float_lemma x y Hx Hy E (Hm E)) as (lev & near & mid & far & E1 & H).
    destruct (s_neg x) eqn:En; (do 4 eexists; split; [exact E1|]; exists near, far; split; [reflexivity|exact H]).
  - apply eqb_false_iff in E. exists 129, 0xFF7FFFFF, 0, 0x7F7FFFFF. split.
    + unfold intervalPow2Float. rewrite !dec_s by (apply Hx || apply Hy).
      replace (xorb (s_neg x) (s_neg y)) with true by (destruct (s_neg x), (s_neg y); auto; congruence). reflexivity.
    + split; [reflexivity|]. split; [reflexivity|]. split; [split; [split|]; vm_compute; congruence|]. split; [split; [split|]; vm_compute; congruence|].
      intros z Hz. pose proof (finite_mag z Hz). pose proof (s_mag_nonneg z).
      replace (s_val 0xFF7FFFFF) with (- ((2 ^ 24 - 1) * 2 ^ 253)) by (vm_compute; reflexivity).
      replace (s_val 0x7F7FFFFF) with ((2 ^ 24 - 1) * 2 ^ 253) by (vm_compute; reflexivity).
      unfold s_val. destruct (s_neg z); lia.
Qed.

Notation quad := (Z * Z * Z * Z)%type.
Definition q_lev (q : quad) : Z := fst (fst (fst q)).
Definition q_lo (q : quad) : Z := snd (fst (fst q)).
Definition q_mi (q : quad) : Z := snd (fst q).
Definition q_up (q : quad) : Z := snd q.
Definition q0 : quad := (0, 0, 0, 0).

Lemma fsplit_loop_spec r : forall Q Q' D, Forall2 (fun p q => intervalPow2Float F32 (fst p) (snd p) = Ret q) r Q' ->
  first_max (fun i => q_lev (nth i Q q0)) (length Q) D ->
  exists D', fsplit_loop F32 r D (q_lev (nth D Q q0)) (map q_lo Q) (lset (map q_lo Q) D (q_mi (nth D Q q0))) (map q_up Q)
    = Ret (map q_lo (Q ++ Q'), lset (map q_lo (Q ++ Q')) D' (q_mi (nth D' (Q ++ Q') q0)), map q_up (Q ++ Q')) /\
    first_max (fun i => q_lev (nth i (Q ++ Q') q0)) (length (Q ++ Q')) D'.
Proof.
  induction r as [|[x y] r IH]; intros Q Q' D H2 HM; pose proof HM as (HD & M1 & M2); inversion H2; subst.
  - exists D. rewrite app_nil_r. auto.
  - rename y0 into q, l' into Qr.
    replace (Q ++ q :: Qr) with ((Q ++ [q]) ++ Qr) by (rewrite <- app_assoc; reflexivity).
    assert (Hlen2 : length (Q ++ [q]) = S (length Q)) by (rewrite app_length; simpl; lia).
    assert (Hold : forall i, (i < length Q)%nat -> nth i (Q ++ [q]) q0 = nth i Q q0) by (intros i Hi; now rewrite app_nth1).
    assert (Hnew : nth (length Q) (Q ++ [q]) q0 = q) by (rewrite app_nth2, Nat.sub_diag by lia; reflexivity).
    cbn [fsplit_loop]. cbn [fst snd] in H1. rewrite H1. cbn [obind]. destruct q as [[[lev lo] mi] up].
    destruct (Z.ltb_spec (q_lev (nth D Q q0)) lev) as [Hlt|Hge].
    + assert (Hv : nth_error (map q_lo Q) D = Some (q_lo (nth D Q q0))) by (rewrite nth_error_map, (nth_error_nth' Q q0 HD); reflexivity).
      unfold vread. rewrite Hv. cbn [obind]. rewrite (lset_back _ _ _ _ Hv).
      destruct (IH (Q ++ [(lev, lo, mi, up)]) Qr (length Q) H4) as (D' & E' & HM').
      * split; [lia|]. rewrite Hnew. split; intros i Hi.
        -- rewrite Hold by auto. specialize (M2 i Hi). cbv beta in M2. change (q_lev (lev, lo, mi, up)) with lev. lia.
        -- destruct (Nat.eq_dec i (length Q)) as [->|]; [rewrite Hnew; lia|]. rewrite Hold by lia. specialize (M2 i ltac:(lia)). cbv beta in M2.
           change (q_lev (lev, lo, mi, up)) with lev. lia.
      * exists D'. split; [|auto]. rewrite <- E'. rewrite Hnew, !map_app. cbn [map]. rewrite map_length. rewrite <- (map_length q_lo Q) at 3. rewrite lset_app_end. reflexivity.
    + destruct (IH (Q ++ [(lev, lo, mi, up)]) Qr D H4) as (D' & E' & HM').
      * split; [lia|]. rewrite Hold by auto. split; intros i Hi; [rewrite Hold by lia; auto|].
        destruct (Nat.eq_dec i (length Q)) as [->|]; [rewrite Hnew; exact Hge|]. rewrite Hold by lia. apply M2. lia.
      * exists D'. split; [|auto]. rewrite <- E'. rewrite Hold, !map_app by auto. cbn [map]. rewrite lset_app_l by (rewrite map_length; auto). reflexivity.
Qed.

Lemma fblocks l : Forall (fun p => fhandled (fst p) (snd p)) l ->
  exists Q, Forall2 (fun p q => intervalPow2Float F32 (fst p) (snd p) = Ret q) l Q /\
    Forall2 (fun p q => fblock (fst p) (snd p) (q_lev q) (q_lo q) (q_mi q) (q_up q)) l Q.
Proof.
  induction 1 as [|[x y] l H Hl IH]; [exists []; split; constructor|]. destruct IH as (Q & I1 & I2).
  destruct (fblock_exists x y H) as (lev & lo & mi & up & E & B). exists ((lev, lo, mi, up) :: Q). split; constructor; auto.
Qed.

Lemma Forall2_nth_pair (R : Z * Z -> quad -> Prop) l Q i : Forall2 R l Q -> (i < length l)%nat -> R (nth i l (0, 0)) (nth i Q q0).
Proof. intros H. revert i. induction H; intros [|i] Hi; simpl in *; try lia; auto. apply IHForall2. lia. Qed.

Lemma fsplit_lemma n v1 v2 : (0 < n)%nat -> length v1 = n -> length v2 = n -> (forall i, (i < n)%nat -> fhandled (nth i v1 0) (nth i v2 0)) ->
  exists low mid upp, mortonSplitFloat F32 v1 v2 = Ret (low, mid, upp) /\ length low = n /\ length mid = n /\ length upp = n /\
  exists D lev m, (D < n)%nat /\
    (forall i, (i < n)%nat -> fblock (nth i v1 0) (nth i v2 0) (lev i) (nth i low 0) (m i) (nth i upp 0)) /\
    (forall i, (i < D)%nat -> lev i < lev D) /\ (forall i, (i < n)%nat -> lev i <= lev D) /\
    nth D mid 0 = m D /\ forall i, (i < n)%nat -> i <> D -> nth i mid 0 = nth i low 0.
Proof.
  intros Hn L1 L2 H.
  assert (Hl : length (combine v1 v2) = n) by (rewrite combine_length; lia).
  assert (HF : Forall (fun p => fhandled (fst p) (snd p)) (combine v1 v2)).
  { apply Forall_forall. intros p Hp. apply In_nth with (d := (0, 0)) in Hp as (i & Hi & <-). rewrite combine_nth by lia. apply H. lia. }
  destruct (fblocks _ HF) as (Q & I1 & I2). assert (LQ : length (combine v1 v2) = length Q) by (clear -I1; induction I1; simpl; congruence).
  assert (E : exists D, mortonSplitFloat F32 v1 v2 = Ret (map q_lo Q, lset (map q_lo Q) D (q_mi (nth D Q q0)), map q_up Q) /\ first_max (fun i => q_lev (nth i Q q0)) n D).
  { unfold mortonSplitFloat. destruct I1 as [|[x y] q l Q E I1]; [simpl in Hl; lia|]. cbn [fst snd] in E. rewrite E. cbn [obind].
    destruct q as [[[lev lo] mi] up]. destruct (fsplit_loop_spec l [(lev, lo, mi, up)] Q 0 I1) as (D & E' & HM).
    - split; [simpl; lia|]. split; [lia|]. intros i Hi. simpl in Hi. replace i with O by lia. lia.
    - exists D. cbn [app] in *. split; [exact E'|]. replace n with (length ((lev, lo, mi, up) :: Q)) by lia. exact HM. }
  destruct E as (D & E & HD & M1 & M2). do 3 eexists. split; [exact E|].
  split; [rewrite map_length; lia|]. split; [rewrite length_lset, map_length; lia|]. split; [rewrite map_length; lia|].
  assert (Hlo : forall g i, (i < n)%nat -> nth i (map g Q) 0 = g (nth i Q q0)).
  { intros g i Hi. rewrite (nth_indep _ 0 (g q0)) by (rewrite map_length; lia). apply map_nth. }
  exists D, (fun i => q_lev (nth i Q q0)), (fun i => q_mi (nth i Q q0)). split; [exact HD|]. split.
  - intros i Hi. rewrite !Hlo by auto. pose proof (Forall2_nth_pair _ _ _ i I2 ltac:(lia)) as B. rewrite combine_nth in B by lia. exact B.
  - split; [exact M1|]. split; [exact M2|]. split.
    + rewrite nth_lset by (rewrite map_length; lia). rewrite Nat.eqb_refl. reflexivity.
    + intros i Hi Hne. rewrite nth_lset by (rewrite map_length; lia). destruct (Nat.eqb_spec i D); [contradiction|reflexivity].
Qed.
