(** * Proofs about double arithmetic. *)
From Coq Require Import Reals ZArith Lra Lia Psatz QArith Qreals.
From Flocq Require Import Core Relative.
From Verif Require Import FunctionsModel FunctionsSpec FunctionsProofs PiBounds FastTrigProofs FastSinProofs DoubleModel DoubleSpec.
Open Scope R_scope.

(** ** Pi with twenty digits *)
Lemma PI_digits : 314159265358979323846 / 100000000000000000000 < PI < 314159265358979323847 / 100000000000000000000.
Proof.
  pose proof (PI_2_3_7_ineq 11) as [H1 H2]. rewrite <- !qsums_ok in H1, H2.
  assert (L : (314159265358979323846 # 400000000000000000000 < qsums (S (2 * 11)))%Q) by (vm_compute; reflexivity).
  assert (U : (qsums (2 * 11) < 314159265358979323847 # 400000000000000000000)%Q) by (vm_compute; reflexivity).
  apply Qlt_Rlt in L. apply Qlt_Rlt in U. unfold Q2R in L at 1. unfold Q2R in U at 2. cbn [Qnum Qden] in L, U. lra.
Qed.

(** ** Rounding *)
Definition fexp := FLT_exp (-1074) 53.
Lemma prec53 : Prec_gt_0 53. Proof. reflexivity. Qed.
#[local] Existing Instance prec53.
#[local] Instance fexp_valid : Valid_exp fexp := FLT_exp_valid (-1074) 53.
Lemma rnd_le x y : x <= y -> rnd x <= rnd y.
Proof. apply round_le; [exact fexp_valid|apply valid_rnd_N]. Qed.
Lemma rnd_format x : generic_format radix2 fexp (rnd x).
Proof. apply generic_format_round; [exact fexp_valid|apply valid_rnd_N]. Qed.
Lemma rnd_id x : generic_format radix2 fexp x -> rnd x = x.
Proof. apply round_generic, valid_rnd_N. Qed.
Lemma format_scaled m e : (Z.abs m < 2 ^ 53)%Z -> (-1074 <= e)%Z -> generic_format radix2 fexp (IZR m * bpow radix2 e).
Proof.
  intros M E. apply generic_format_FLT. exists (Float radix2 m e); [reflexivity|exact M|exact E].
Qed.
Lemma format_int m : (Z.abs m <= 2 ^ 53)%Z -> generic_format radix2 fexp (IZR m).
Proof.
  intros M. destruct (Z.eq_dec (Z.abs m) (2 ^ 53)) as [E|E].
  - assert (C : m = (2 ^ 53)%Z \/ m = (- 2 ^ 53)%Z) by lia. destruct C as [-> | ->].
    + replace (IZR (2 ^ 53)) with (IZR 1 * bpow radix2 53) by (cbn; lra). apply format_scaled; lia.
    + replace (IZR (- 2 ^ 53)) with (IZR (-1) * bpow radix2 53) by (cbn; lra). apply format_scaled; lia.
  - replace (IZR m) with (IZR m * bpow radix2 0) by (cbn; lra). apply format_scaled; lia.
Qed.
Definition U : R := / 9007199254740992.
Lemma U_bpow : U = / 2 * bpow radix2 (-53 + 1).
Proof. unfold U. cbn. lra. Qed.
Lemma bpow_small : / 2 * bpow radix2 (-1074) <= U * U.
Proof.
  replace (U * U) with (bpow radix2 (-106)) by (unfold U; cbn; lra).
  apply Rle_trans with (bpow radix2 (-1074)); [pose proof (bpow_gt_0 radix2 (-1074)); lra|]. apply bpow_le. lia.
Qed.
Lemma rnd_err x : Rabs (rnd x - x) <= U * Rabs x + U * U.
Proof.
  destruct (Rle_or_lt (bpow radix2 (-1074 + 53 - 1)) (Rabs x)) as [L|L].
  - pose proof (relative_error_N_FLT radix2 (-1074) 53 ltac:(reflexivity) (fun n => negb (Z.even n)) x L) as H. replace (/ 2 * bpow radix2 (- (53) + 1)) with U in H by (rewrite U_bpow; reflexivity).
    change (Rabs (rnd x - x) <= U * Rabs x) in H. assert (0 <= U * U) by (unfold U; lra). lra.
  - pose proof (error_le_half_ulp radix2 fexp (fun n => negb (Z.even n)) x) as H. change (Rabs (rnd x - x) <= / 2 * ulp radix2 fexp x) in H.
    assert (E : ulp radix2 fexp x = bpow radix2 (-1074)). { unfold fexp. apply ulp_FLT_small; [reflexivity|]. eapply Rlt_trans; [exact L|]. apply bpow_lt. lia. }
    rewrite E in H. pose proof bpow_small. assert (0 <= U * Rabs x) by (apply Rmult_le_pos; [unfold U; lra|apply Rabs_pos]). lra.
Qed.
(** Half a unit in the last place. *)
Lemma rnd_half k x : (-1000 <= k)%Z -> Rabs x <= bpow radix2 k -> Rabs (rnd x - x) <= bpow radix2 (k - 54).
Proof.
  intros K L. destruct (Req_dec (Rabs x) (bpow radix2 k)) as [E|E].
  - assert (F : generic_format radix2 fexp x).
    { destruct (Rcase_abs x) as [N|N].
      - rewrite Rabs_left in E by exact N. replace x with (- bpow radix2 k) by lra. apply generic_format_opp, generic_format_bpow. unfold fexp, FLT_exp. lia.
      - rewrite Rabs_right in E by exact N. rewrite E. apply generic_format_bpow. unfold fexp, FLT_exp. lia. }
    rewrite (rnd_id x F). replace (x - x) with 0 by ring. rewrite Rabs_R0. apply bpow_ge_0.
  - assert (L' : Rabs x < bpow radix2 k) by lra.
    pose proof (error_le_half_ulp radix2 fexp (fun n => negb (Z.even n)) x) as H. change (Rabs (rnd x - x) <= / 2 * ulp radix2 fexp x) in H.
    eapply Rle_trans; [exact H|]. replace (k - 54)%Z with (k - 53 + -1)%Z by lia. rewrite (bpow_plus radix2 (k - 53) (-1)). 
    replace (bpow radix2 (-1)) with (/ 2) by (cbn; lra). rewrite Rmult_comm. apply Rmult_le_compat_r; [lra|].
    destruct (Req_dec x 0) as [->|NZ].
    + unfold fexp. rewrite ulp_FLT_0 by reflexivity. apply bpow_le. lia.
    + rewrite ulp_neq_0 by exact NZ. apply bpow_le. unfold cexp, fexp, FLT_exp. pose proof (mag_le_bpow radix2 x k NZ L'). lia.
Qed.
(** The double nearest to [y]. *)
Lemma rnd_near y m e : (-1074 <= e)%Z -> bpow radix2 (52 + e) <= Rabs y < bpow radix2 (53 + e) -> Rabs (y * bpow radix2 (- e) - IZR m) < / 2 ->
  rnd y = IZR m * bpow radix2 e.
Proof.
  intros E B N. unfold rnd, round, F2R, scaled_mantissa. cbn [Fnum Fexp].
  assert (M : mag radix2 y = (53 + e)%Z :> Z). { apply mag_unique. replace (53 + e - 1)%Z with (52 + e)%Z by lia. exact B. }
  assert (C : cexp radix2 (FLT_exp (-1074) 53) y = e). { unfold cexp, FLT_exp. rewrite M. lia. }
  rewrite C. rewrite (Znearest_imp _ _ m N). reflexivity.
Qed.
(** Doubles of magnitude at least 2^k are multiples of 2^(k-52). *)
Lemma format_grid x k : (-1000 <= k)%Z -> generic_format radix2 fexp x -> bpow radix2 k <= Rabs x -> exists m, x = IZR m * bpow radix2 (k - 52).
Proof.
  intros K F L. unfold generic_format, F2R in F. cbn [Fnum Fexp] in F. set (c := cexp radix2 fexp x) in *. set (z := Ztrunc _) in *.
  assert (C : (k - 52 <= c)%Z). { unfold c, cexp, fexp, FLT_exp. pose proof (mag_ge_bpow radix2 x (k + 1)) as G. replace (k + 1 - 1)%Z with k in G by lia. specialize (G L). lia. }
  exists (z * 2 ^ (c - (k - 52)))%Z. rewrite mult_IZR. change 2%Z with (radix_val radix2). rewrite IZR_Zpower by lia. rewrite Rmult_assoc, <- bpow_plus.
  replace (c - (k - 52) + (k - 52))%Z with c by lia. exact F.
Qed.
(** ** Reduction of angles *)
Definition reduce (P x : R) : R := fsub x (fmul P (ffloor (fdiv x P))).
Lemma abs_le_inv a e : Rabs a <= e -> - e <= a <= e.
Proof. intros H. split; [apply Rabs_le_inv in H; lra|]. apply Rabs_le_inv in H. lra. Qed.
Lemma reduce_error P x : 3 <= P <= 7 -> nearly_reduced (3 * U * (Rabs x + 8)) P x (reduce P x).
Proof.
  intros HP. unfold reduce, fsub, fmul, fdiv, ffloor. set (g := x / P). assert (Eg : P * g = x) by (unfold g; field; lra).
  set (A := Rabs x). assert (HA : 0 <= A /\ - A <= x <= A) by (unfold A; split; [apply Rabs_pos|apply abs_le_inv; lra]).
  assert (AG : P * Rabs g = A) by (unfold A; rewrite <- Eg, Rabs_mult, (Rabs_right P) by lra; reflexivity).
  pose proof (rnd_err g) as Hq. set (q := rnd g) in *. clearbody A q g.
  assert (PQ : - (U * A + 7 * (U * U)) <= P * q - x <= U * A + 7 * (U * U)).
  { apply abs_le_inv in Hq. assert (T : U * A = P * (U * Rabs g)) by (rewrite <- AG; ring). rewrite T, <- Eg.
    assert (0 <= U * U) by (unfold U; lra). set (d := U * Rabs g) in *. set (u := U * U) in *. clearbody d u. nra. }
  set (n := Zfloor q). assert (N1 : IZR n <= q) by apply Zfloor_lb. assert (N2 : q < IZR n + 1) by apply Zfloor_ub.
  assert (PN : P * IZR n <= P * q <= P * IZR n + P) by nra. set (pn := P * IZR n) in *.
  pose proof (rnd_err pn) as Hm. set (m := rnd pn) in *. pose proof (rnd_err (x - m)) as Hr. set (r := rnd (x - m)) in *.
  assert (BN : Rabs pn <= A + U * A + 7 * (U * U) + 7) by (apply Rabs_le; lra).
  apply abs_le_inv in Hm. assert (U0 : 0 < U < 1 / 1000000) by (unfold U; lra).
  assert (T1 : U * Rabs pn <= U * (A + U * A + 7 * (U * U) + 7)) by (apply Rmult_le_compat_l; lra).
  assert (UA : 0 <= U * (U * A) <= U * A / 1000000) by (split; [apply Rmult_le_pos; [lra|apply Rmult_le_pos; lra]|]; assert (0 <= U * A) by (apply Rmult_le_pos; lra); nra).
  assert (UU : 0 <= U * U <= U / 1000000) by nra. assert (UUU : 0 <= U * (U * U) <= U * U / 1000000) by nra.
  assert (UA0 : 0 <= U * A) by (apply Rmult_le_pos; lra).
  assert (BX : Rabs (x - m) <= 8 + 3 * (U * A)) by (apply Rabs_le; lra).
  assert (T2 : U * Rabs (x - m) <= U * (8 + 3 * (U * A))) by (apply Rmult_le_compat_l; lra).
  apply abs_le_inv in Hr. clearbody r m. unfold nearly_reduced. split; [lra|]. exists n. replace (IZR n * P) with pn by (unfold pn; ring). clearbody pn. apply Rabs_le. lra.
Qed.
Lemma format_0 : generic_format radix2 fexp 0. Proof. apply generic_format_0. Qed.
Lemma rnd_0 : rnd 0 = 0. Proof. apply rnd_id, format_0. Qed.
Lemma double_format x : is_double x -> generic_format radix2 fexp x.
Proof. intros (m & e & -> & M & E). change 2 with (IZR radix2). rewrite <- bpow_powerRZ. apply format_scaled; lia. Qed.
Lemma reduce_id k P x : (1 <= k <= 2)%Z -> generic_format radix2 fexp P -> bpow radix2 k + bpow radix2 (k - 52) <= P <= bpow radix2 (k - 52 + 53) - 1 / 10 -> generic_format radix2 fexp x -> 0 <= x < P -> reduce P x = x.
Proof.
  intros K FP HP F H.
  assert (G : x <= P - bpow radix2 (k - 52)).
  { destruct (Rle_or_lt (bpow radix2 k) x) as [L|L]; [|lra].
    destruct (format_grid x k ltac:(lia) F) as [a Ea]; [rewrite Rabs_right; lra|].
    destruct (format_grid P k ltac:(lia) FP) as [b Eb]; [rewrite Rabs_right; pose proof (bpow_gt_0 radix2 (k - 52)); lra|].
    assert (W : 0 < bpow radix2 (k - 52)) by apply bpow_gt_0. set (w := bpow radix2 (k - 52)) in *. clearbody w.
    assert (AB : (a < b)%Z). { apply lt_IZR. nra. } assert (AB' : IZR a + 1 <= IZR b) by (rewrite <- plus_IZR; apply IZR_le; lia). nra. }
  assert (Q : 0 <= x / P <= 1 - U).
  { pose proof (bpow_gt_0 radix2 (k - 52)) as W. pose proof (bpow_gt_0 radix2 k) as W2. rewrite bpow_plus in HP. replace (bpow radix2 53) with (/ U) in HP by (unfold U; cbn; lra).
    assert (P0 : 0 < P) by lra. split; [apply Rmult_le_pos; [lra|left; apply Rinv_0_lt_compat, P0]|].
    apply (Rmult_le_reg_r P); [exact P0|]. unfold Rdiv. rewrite Rmult_assoc, Rinv_l, Rmult_1_r by lra.
    assert (U * P <= bpow radix2 (k - 52)); [|lra]. assert (U0 : 0 < U) by (unfold U; lra).
    replace (bpow radix2 (k - 52)) with (U * (bpow radix2 (k - 52) * / U)) by (field; lra). apply Rmult_le_compat_l; lra. }
  assert (Q' : 0 <= rnd (x / P) <= 1 - U).
  { rewrite <- rnd_0. split; [apply rnd_le; lra|]. rewrite <- (rnd_id (1 - U)); [apply rnd_le; lra|].
    replace (1 - U) with (IZR (2 ^ 53 - 1) * bpow radix2 (-53)) by (unfold U; cbn; lra). apply format_scaled; lia. }
  unfold reduce, fsub, fmul, fdiv, ffloor. rewrite (Zfloor_imp 0) by (unfold U in Q'; split; [lra|cbn; lra]). rewrite Rmult_0_r, rnd_0, Rminus_0_r. apply rnd_id, F.
Qed.
(** ** The constants *)
Lemma K_2PI_value : K_2PI = IZR 7074237752028906 * bpow radix2 (-50).
Proof. apply rnd_near; [lia| |]; cbn; [rewrite Rabs_right by lra; lra|apply Rabs_def1; lra]. Qed.
Lemma M_PI_value : M_PI = IZR 7074237752028440 * bpow radix2 (-51).
Proof. apply rnd_near; [lia| |]; cbn; [rewrite Rabs_right by lra; lra|apply Rabs_def1; lra]. Qed.
Lemma M_PI_2_value : M_PI_2 = IZR 7074237752028440 * bpow radix2 (-52).
Proof. apply rnd_near; [lia| |]; cbn; [rewrite Rabs_right by lra; lra|apply Rabs_def1; lra]. Qed.
Lemma M_PI_near : Rabs (M_PI - PI) <= U * (2 / 1) /\ 314 / 100 < M_PI < 315 / 100.
Proof. rewrite M_PI_value. pose proof PI_digits. unfold U. cbn [bpow]. split; [apply Rabs_le|]; cbn; lra. Qed.
Lemma format_K : generic_format radix2 fexp K_2PI. Proof. apply rnd_format. Qed.
Lemma format_PI : generic_format radix2 fexp M_PI. Proof. apply rnd_format. Qed.
Lemma K_range : 628 / 100 < K_2PI < 629 / 100.
Proof. rewrite K_2PI_value. cbn. lra. Qed.
Lemma normalize360_id x : is_double x -> 0 <= x < K_2PI -> normalize360 x = x.
Proof.
  intros D H. apply (reduce_id 2); [lia|apply format_K| |apply double_format, D|exact H]. pose proof K_range. cbn. lra.
Qed.
Lemma normalize180_id x : is_double x -> 0 <= x < M_PI -> normalize180 x = x.
Proof.
  intros D H. apply (reduce_id 1); [lia|apply format_PI| |apply double_format, D|exact H]. pose proof M_PI_near. cbn. lra.
Qed.
(** A small negative number gives the period. *)
Lemma reduce_tiny k P : (1 <= k <= 2)%Z -> generic_format radix2 fexp P -> bpow radix2 k + 1 <= P <= bpow radix2 (k + 1) -> reduce P (- bpow radix2 (-60)) = P.
Proof.
  intros K FP HP. assert (B1 : bpow radix2 (k + 1) <= bpow radix2 3) by (apply bpow_le; lia). change (bpow radix2 3) with 8 in B1.
  pose proof (bpow_gt_0 radix2 k) as W0.
  assert (E60 : bpow radix2 (-60) = 8 * bpow radix2 (-63)) by (change 8 with (bpow radix2 3); rewrite <- bpow_plus; reflexivity).
  pose proof (bpow_gt_0 radix2 (-63)) as W63. assert (S63 : bpow radix2 (-63) < / 1000000) by (cbn; lra).
  assert (Q : - 1 <= - bpow radix2 (-60) / P <= - bpow radix2 (-63)).
  { split; apply (Rmult_le_reg_r P); try lra; unfold Rdiv; rewrite Rmult_assoc, Rinv_l, Rmult_1_r by lra; [lra|]. rewrite E60. set (w := bpow radix2 (-63)) in *. clearbody w. nra. }
  assert (Q' : - 1 <= rnd (- bpow radix2 (-60) / P) < 0).
  { split.
    - rewrite <- (rnd_id (-1)); [apply rnd_le; lra|apply (format_int (-1)); lia].
    - apply Rle_lt_trans with (- bpow radix2 (-63)); [|lra]. rewrite <- (rnd_id (- bpow radix2 (-63))); [apply rnd_le; lra|].
      apply generic_format_opp, generic_format_bpow. unfold fexp, FLT_exp. lia. }
  unfold reduce, fsub, fmul, fdiv, ffloor. rewrite (Zfloor_imp (-1)) by (change (IZR (-1 + 1)) with 0; lra).
  replace (P * IZR (-1)) with (- P) by ring. rewrite (rnd_id (- P)) by (apply generic_format_opp, FP). replace (- bpow radix2 (-60) - - P) with (P - bpow radix2 (-60)) by ring.
  set (y := P - bpow radix2 (-60)). assert (Y : rnd y <= P) by (rewrite <- (rnd_id P FP) at 1; apply rnd_le; unfold y; lra).
  apply Rle_antisym; [exact Y|]. apply Rnot_lt_le. intros N.
  pose proof (rnd_half (k + 1) y ltac:(lia)) as Hh. assert (YB : Rabs y <= bpow radix2 (k + 1)) by (apply Rabs_le; unfold y; lra). specialize (Hh YB).
  replace (k + 1 - 54)%Z with (k - 52 + -1)%Z in Hh by lia. rewrite bpow_plus in Hh. change (bpow radix2 (-1)) with (/ 2) in Hh. apply abs_le_inv in Hh.
  assert (W : 0 < bpow radix2 (k - 52)) by apply bpow_gt_0. assert (WS : 4 * bpow radix2 (-60) <= bpow radix2 (k - 52)).
  { change 4 with (bpow radix2 2). rewrite <- bpow_plus. apply bpow_le. lia. }
  assert (WL : bpow radix2 (k - 52) < 1 / 2) by (apply Rlt_le_trans with (bpow radix2 (-1)); [apply bpow_lt; lia|cbn; lra]).
  destruct (format_grid P k ltac:(lia) FP) as [b Eb]; [rewrite Rabs_right; lra|].
  destruct (format_grid (rnd y) k ltac:(lia) (rnd_format y)) as [a Ea]; [rewrite Rabs_right; unfold y in *; lra|].
  set (w := bpow radix2 (k - 52)) in *. assert (AB : (a < b)%Z) by (apply lt_IZR; nra).
  assert (AB' : IZR a + 1 <= IZR b) by (rewrite <- plus_IZR; apply IZR_le; lia). assert (rnd y <= P - w) by (rewrite Ea, Eb; nra). unfold y in *. lra.
Qed.
Definition bad360 : R := IZR 7516377611530712 * bpow radix2 (-46).
Definition bad180 : R := IZR 7295307681779328 * bpow radix2 (-46).
Lemma normalize360_bad : normalize360 bad360 = - bpow radix2 (-46).
Proof.
  change (reduce K_2PI bad360 = - bpow radix2 (-46)). unfold reduce, fsub, fmul, fdiv, ffloor.
  assert (Q : rnd (bad360 / K_2PI) = IZR 4785074604081152 * bpow radix2 (-48)).
  { rewrite K_2PI_value. unfold bad360. apply rnd_near; [lia| |]; cbn; [rewrite Rabs_right by lra; lra|apply Rabs_def1; lra]. }
  rewrite Q, (Zfloor_imp 17) by (cbn; lra).
  assert (M : rnd (K_2PI * 17) = IZR 7516377611530713 * bpow radix2 (-46)).
  { rewrite K_2PI_value. apply rnd_near; [lia| |]; cbn; [rewrite Rabs_right by lra; lra|apply Rabs_def1; lra]. }
  rewrite M. replace (bad360 - IZR 7516377611530713 * bpow radix2 (-46)) with (IZR (-1) * bpow radix2 (-46)) by (unfold bad360; ring).
  rewrite rnd_id by (apply format_scaled; lia). ring.
Qed.
Lemma normalize180_bad : normalize180 bad180 = - bpow radix2 (-46).
Proof.
  change (reduce M_PI bad180 = - bpow radix2 (-46)). unfold reduce, fsub, fmul, fdiv, ffloor.
  assert (Q : rnd (bad180 / M_PI) = IZR 4644337115725824 * bpow radix2 (-47)).
  { rewrite M_PI_value. unfold bad180. apply rnd_near; [lia| |]; cbn; [rewrite Rabs_right by lra; lra|apply Rabs_def1; lra]. }
  rewrite Q, (Zfloor_imp 33) by (cbn; lra).
  assert (M : rnd (M_PI * 33) = IZR 7295307681779329 * bpow radix2 (-46)).
  { rewrite M_PI_value. apply rnd_near; [lia| |]; cbn; [rewrite Rabs_right by lra; lra|apply Rabs_def1; lra]. }
  rewrite M. replace (bad180 - IZR 7295307681779329 * bpow radix2 (-46)) with (IZR (-1) * bpow radix2 (-46)) by (unfold bad180; ring).
  rewrite rnd_id by (apply format_scaled; lia). ring.
Qed.
Lemma double_scaled m e : (Z.abs m < 2 ^ 53)%Z -> (-1074 <= e <= 971)%Z -> is_double (IZR m * bpow radix2 e).
Proof. intros M E. exists m, e. rewrite bpow_powerRZ. auto. Qed.
Lemma range360_bad : exists x y, is_double x /\ is_double y /\ normalize360 x < 0 /\ normalize360 y = K_2PI.
Proof.
  exists bad360, (- bpow radix2 (-60)). split; [apply double_scaled; lia|]. split.
  { replace (- bpow radix2 (-60)) with (IZR (-1) * bpow radix2 (-60)) by ring. apply double_scaled; lia. }
  split; [rewrite normalize360_bad; pose proof (bpow_gt_0 radix2 (-46)); lra|]. apply (reduce_tiny 2); [lia|apply format_K|]. pose proof K_range. cbn. lra.
Qed.
Lemma range180_bad : exists x y, is_double x /\ is_double y /\ normalize180 x < 0 /\ normalize180 y = M_PI.
Proof.
  exists bad180, (- bpow radix2 (-60)). split; [apply double_scaled; lia|]. split.
  { replace (- bpow radix2 (-60)) with (IZR (-1) * bpow radix2 (-60)) by ring. apply double_scaled; lia. }
  split; [rewrite normalize180_bad; pose proof (bpow_gt_0 radix2 (-46)); lra|]. apply (reduce_tiny 1); [lia|apply format_PI|]. pose proof M_PI_near. cbn. lra.
Qed.
Lemma reduce_self P : generic_format radix2 fexp P -> 3 <= P -> reduce P P = 0.
Proof.
  intros FP H. unfold reduce, fsub, fmul, fdiv, ffloor. replace (P / P) with 1 by (field; lra). rewrite (rnd_id 1) by (apply (format_int 1); lia).
  rewrite (Zfloor_IZR 1), Rmult_1_r, (rnd_id P FP), Rminus_diag_eq, rnd_0; reflexivity.
Qed.
