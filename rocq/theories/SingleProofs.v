(** * Proofs about the functions on float. *)
From Coq Require Import Reals ZArith Lra Lia Psatz.
From Flocq Require Import Core Relative Sterbenz.
From Verif Require Import FunctionsModel FunctionsSpec FunctionsProofs PiBounds FastTrigProofs FastSinProofs DoubleModel DoubleSpec DoubleProofs DoubleTrig SingleModel.
Open Scope R_scope.

(** ** Rounding to single precision *)
Definition sexp := FLT_exp (-149) 24.
Lemma prec24 : Prec_gt_0 24. Proof. reflexivity. Qed.
#[local] Existing Instance prec24.
#[local] Existing Instance prec53.
#[local] Instance sexp_valid : Valid_exp sexp := FLT_exp_valid (-149) 24.
Lemma single_le x y : x <= y -> single x <= single y.
Proof. apply round_le; [exact sexp_valid|apply valid_rnd_N]. Qed.
Lemma single_format x : generic_format radix2 sexp (single x).
Proof. apply generic_format_round; [exact sexp_valid|apply valid_rnd_N]. Qed.
Lemma single_id x : generic_format radix2 sexp x -> single x = x.
Proof. apply round_generic, valid_rnd_N. Qed.
Lemma single_opp x : single (- x) = - single x.
Proof. apply round_NE_opp. Qed.
Lemma sformat m e : (Z.abs m < 2 ^ 24)%Z -> (-149 <= e)%Z -> generic_format radix2 sexp (IZR m * bpow radix2 e).
Proof. intros M E. apply generic_format_FLT. exists (Float radix2 m e); [reflexivity|exact M|exact E]. Qed.
Lemma sformat_int m : (Z.abs m < 2 ^ 24)%Z -> generic_format radix2 sexp (IZR m).
Proof. intros M. replace (IZR m) with (IZR m * bpow radix2 0) by (cbn; lra). apply sformat; lia. Qed.
(** Floats are doubles. *)
Lemma sformat_format x : generic_format radix2 sexp x -> generic_format radix2 fexp x.
Proof.
  intros F. apply FLT_format_generic in F; [|reflexivity]. destruct F as [[m e] E M X]. cbn in M, X. unfold F2R in E. cbn in E. rewrite E. apply format_scaled; lia.
Qed.
Definition V : R := / 16777216.
Lemma V_pos : 0 < V < 1 / 10000000. Proof. unfold V. lra. Qed.
Lemma single_err x : Rabs (single x - x) <= V * Rabs x + V * V.
Proof.
  destruct (Rle_or_lt (bpow radix2 (-149 + 24 - 1)) (Rabs x)) as [L|L].
  - pose proof (relative_error_N_FLT radix2 (-149) 24 ltac:(reflexivity) (fun n => negb (Z.even n)) x L) as H. replace (/ 2 * bpow radix2 (- (24) + 1)) with V in H by (unfold V; cbn; lra).
    change (Rabs (single x - x) <= V * Rabs x) in H. assert (0 <= V * V) by (unfold V; lra). lra.
  - pose proof (error_le_half_ulp radix2 sexp (fun n => negb (Z.even n)) x) as H. change (Rabs (single x - x) <= / 2 * ulp radix2 sexp x) in H.
    assert (E : ulp radix2 sexp x = bpow radix2 (-149)). { unfold sexp. apply ulp_FLT_small; [reflexivity|]. eapply Rlt_trans; [exact L|]. apply bpow_lt. lia. }
    rewrite E in H. assert (S : / 2 * bpow radix2 (-149) <= V * V) by (unfold V; cbn; lra). assert (0 <= V * Rabs x) by (apply Rmult_le_pos; [unfold V; lra|apply Rabs_pos]). lra.
Qed.
Lemma single_half k x : (-100 <= k)%Z -> Rabs x <= bpow radix2 k -> Rabs (single x - x) <= bpow radix2 (k - 25).
Proof.
  intros K L. destruct (Req_dec (Rabs x) (bpow radix2 k)) as [E|E].
  - assert (F : generic_format radix2 sexp x).
    { destruct (Rcase_abs x) as [N|N].
      - rewrite Rabs_left in E by exact N. replace x with (- bpow radix2 k) by lra. apply generic_format_opp, generic_format_bpow. unfold sexp, FLT_exp. lia.
      - rewrite Rabs_right in E by exact N. rewrite E. apply generic_format_bpow. unfold sexp, FLT_exp. lia. }
    rewrite (single_id x F). replace (x - x) with 0 by ring. rewrite Rabs_R0. apply bpow_ge_0.
  - assert (L' : Rabs x < bpow radix2 k) by lra.
    pose proof (error_le_half_ulp radix2 sexp (fun n => negb (Z.even n)) x) as H. change (Rabs (single x - x) <= / 2 * ulp radix2 sexp x) in H.
    eapply Rle_trans; [exact H|]. replace (k - 25)%Z with (k - 24 + -1)%Z by lia. rewrite (bpow_plus radix2 (k - 24) (-1)).
    replace (bpow radix2 (-1)) with (/ 2) by (cbn; lra). rewrite Rmult_comm. apply Rmult_le_compat_r; [lra|].
    destruct (Req_dec x 0) as [->|NZ].
    + unfold sexp. rewrite ulp_FLT_0 by reflexivity. apply bpow_le. lia.
    + rewrite ulp_neq_0 by exact NZ. apply bpow_le. unfold cexp, sexp, FLT_exp. pose proof (mag_le_bpow radix2 x k NZ L'). lia.
Qed.
Lemma single_near y m e : (-149 <= e)%Z -> bpow radix2 (23 + e) <= Rabs y < bpow radix2 (24 + e) -> Rabs (y * bpow radix2 (- e) - IZR m) < / 2 ->
  single y = IZR m * bpow radix2 e.
Proof.
  intros E B N. unfold single, round, F2R, scaled_mantissa. cbn [Fnum Fexp].
  assert (M : mag radix2 y = (24 + e)%Z :> Z). { apply mag_unique. replace (24 + e - 1)%Z with (23 + e)%Z by lia. exact B. }
  assert (C : cexp radix2 (FLT_exp (-149) 24) y = e). { unfold cexp, FLT_exp. rewrite M. lia. }
  rewrite C. rewrite (Znearest_imp _ _ m N). reflexivity.
Qed.
Lemma single_0 : single 0 = 0. Proof. apply single_id, generic_format_0. Qed.
Lemma single_pos x : 0 <= x -> 0 <= single x. Proof. intros H. rewrite <- single_0. now apply single_le. Qed.
Lemma single_neg x : x <= 0 -> single x <= 0. Proof. intros H. rewrite <- single_0. now apply single_le. Qed.
Lemma single_upper x y : generic_format radix2 sexp y -> x <= y -> single x <= y. Proof. intros F H. rewrite <- (single_id y F). now apply single_le. Qed.
Lemma single_lower x y : generic_format radix2 sexp y -> y <= x -> y <= single x. Proof. intros F H. rewrite <- (single_id y F). now apply single_le. Qed.
Lemma sformat_1 : generic_format radix2 sexp 1. Proof. apply (sformat_int 1). lia. Qed.
Lemma sformat_m1 : generic_format radix2 sexp (-1). Proof. apply (sformat_int (-1)). lia. Qed.
(** ** Errors *)
Lemma serr_rnd e a v W e' : err e a v -> Rabs v <= W -> e + V * (W + e) + V * V <= e' -> err e' (single a) v.
Proof.
  unfold err. intros H HV HE. pose proof V_pos as HU. pose proof (single_err a) as R. replace (single a - v) with ((single a - a) + (a - v)) by ring.
  eapply Rle_trans; [apply Rabs_triang|]. assert (A : Rabs a <= W + e).
  { replace a with (v + (a - v)) by ring. eapply Rle_trans; [apply Rabs_triang|]. lra. }
  assert (V * Rabs a <= V * (W + e)) by (apply Rmult_le_compat_l; lra). lra.
Qed.
Lemma serr_const v W e' : Rabs v <= W -> V * W + V * V <= e' -> err e' (single v) v.
Proof. intros H1 H2. apply (serr_rnd 0 v v W); [apply err_refl; lra|auto|]. rewrite Rplus_0_r. lra. Qed.
Lemma serr_add ea eb a v b w W e' : err ea a v -> err eb b w -> Rabs (v + w) <= W -> (ea + eb) + V * (W + (ea + eb)) + V * V <= e' -> err e' (single (a + b)) (v + w).
Proof.
  intros H1 H2 HV HE. apply (serr_rnd (ea + eb) (a + b) (v + w) W); auto. unfold err in *. replace (a + b - (v + w)) with ((a - v) + (b - w)) by ring.
  eapply Rle_trans; [apply Rabs_triang|]. lra.
Qed.
Lemma serr_sub ea eb a v b w W e' : err ea a v -> err eb b w -> Rabs (v - w) <= W -> (ea + eb) + V * (W + (ea + eb)) + V * V <= e' -> err e' (single (a - b)) (v - w).
Proof.
  intros H1 H2 HV HE. apply (serr_rnd (ea + eb) (a - b) (v - w) W); auto. unfold err in *. replace (a - b - (v - w)) with ((a - v) + - (b - w)) by ring.
  eapply Rle_trans; [apply Rabs_triang|]. rewrite Rabs_Ropp. lra.
Qed.
Lemma serr_mul ea eb a v b w A W e' : err ea a v -> err eb b w -> Rabs v <= A -> Rabs w <= W ->
  (ea * W + A * eb + ea * eb) + V * (A * W + (ea * W + A * eb + ea * eb)) + V * V <= e' -> err e' (single (a * b)) (v * w).
Proof.
  intros H1 H2 HV HW HE. pose proof (Rabs_pos v). pose proof (Rabs_pos w). pose proof (Rabs_pos (a - v)). pose proof (Rabs_pos (b - w)). unfold err in *.
  apply (serr_rnd (ea * W + A * eb + ea * eb) (a * b) (v * w) (A * W)); auto.
  - unfold err. replace (a * b - v * w) with ((a - v) * w + v * (b - w) + (a - v) * (b - w)) by ring.
    eapply Rle_trans; [apply Rabs_triang|]. apply Rplus_le_compat; [eapply Rle_trans; [apply Rabs_triang|]; apply Rplus_le_compat|]; rewrite Rabs_mult; apply Rmult_le_compat; auto.
  - rewrite Rabs_mult. apply Rmult_le_compat; auto.
Qed.
Ltac numv := unfold U, V; lra.

(** ** fastAtanf *)
Lemma fastAtanf_close x : -1 <= x <= 1 -> err (64 * V) (fastAtanf x) (FunctionsModel.fastAtan x) /\ (0 <= x -> 0 <= fastAtanf x).
Proof.
  intros Hx. unfold fastAtanf, FunctionsModel.fastAtan. cbv zeta.
  assert (X2 : 0 <= x * x <= 1) by nra. assert (E2 : err (2 * V) (single (x * x)) (x * x)).
  { apply (serr_rnd 0 (x * x) (x * x) 1); [apply err_refl; lra|absle|numv]. }
  set (f2 := single (x * x)) in *. set (x2 := x * x) in *. clearbody f2 x2.
  assert (X4 : 0 <= x2 * x2 <= 1) by nra. assert (E4 : err (6 * V) (single (f2 * f2)) (x2 * x2)) by (apply (serr_mul (2 * V) (2 * V) _ _ _ _ 1 1); [exact E2|exact E2|absle|absle|numv]).
  set (f4 := single (f2 * f2)) in *. set (x4 := x2 * x2) in *. clearbody f4 x4.
  assert (A7 : err (10 * V) (single (single (- (851330 / 10000000)) * f4)) (- (851330 / 10000000) * x4)).
  { apply (serr_mul (2 * V) (6 * V) _ _ _ _ 1 1); [apply (serr_const _ 1); [absle|numv]|exact E4|absle|absle|numv]. }
  set (g7 := single (single (- (851330 / 10000000)) * f4)) in *. clearbody g7.
  assert (A3 : err (14 * V) (single (single (- (3302995 / 10000000)) + g7)) (- (3302995 / 10000000) + - (851330 / 10000000) * x4)).
  { apply (serr_add (2 * V) (10 * V) _ _ _ _ 1); [apply (serr_const _ 1); [absle|numv]|exact A7|absle|numv]. }
  set (g37 := single (_ + g7)) in *. clearbody g37.
  assert (B3 : err (18 * V) (single (f2 * g37)) (x2 * (- (3302995 / 10000000) + - (851330 / 10000000) * x4))).
  { apply (serr_mul (2 * V) (14 * V) _ _ _ _ 1 1); [exact E2|exact A3|absle|absle|numv]. }
  assert (A9 : err (10 * V) (single (single (208351 / 10000000) * f4)) (208351 / 10000000 * x4)).
  { apply (serr_mul (2 * V) (6 * V) _ _ _ _ 1 1); [apply (serr_const _ 1); [absle|numv]|exact E4|absle|absle|numv]. }
  set (g9 := single (single (208351 / 10000000) * f4)) in *. clearbody g9.
  assert (A5 : err (14 * V) (single (single (1801410 / 10000000) + g9)) (1801410 / 10000000 + 208351 / 10000000 * x4)).
  { apply (serr_add (2 * V) (10 * V) _ _ _ _ 1); [apply (serr_const _ 1); [absle|numv]|exact A9|absle|numv]. }
  set (g59 := single (_ + g9)) in *. clearbody g59.
  assert (B5 : err (22 * V) (single (f4 * g59)) (x4 * (1801410 / 10000000 + 208351 / 10000000 * x4))).
  { apply (serr_mul (6 * V) (14 * V) _ _ _ _ 1 1); [exact E4|exact A5|absle|absle|numv]. }
  set (g3 := single (f2 * g37)) in *. set (g5 := single (f4 * g59)) in *. set (v3 := x2 * (_ + _)) in *. set (v5 := x4 * (_ + _)) in *.
  assert (V3 : - (1 / 2) <= v3 <= 0) by (unfold v3; nra). assert (V5 : 0 <= v5 <= 1 / 4) by (unfold v5; nra). clearbody g3 g5 v3 v5.
  assert (S1 : err (22 * V) (single (single (9998660 / 10000000) + g3)) (9998660 / 10000000 + v3)).
  { apply (serr_add (2 * V) (18 * V) _ _ _ _ 1); [apply (serr_const _ 1); [absle|numv]|exact B3|absle|numv]. }
  set (h1 := single (_ + g3)) in *. set (w1 := _ + v3) in *. assert (W1 : 49 / 100 <= w1 <= 1) by (unfold w1; lra). clearbody h1 w1.
  assert (S2 : err (48 * V) (single (h1 + g5)) (w1 + v5)) by (apply (serr_add (22 * V) (22 * V) _ _ _ _ (5 / 4)); [exact S1|exact B5|absle|numv]).
  set (h2 := single (_ + g5)) in *. set (w2 := _ + v5) in *. assert (W2 : 49 / 100 <= w2 <= 5 / 4) by (unfold w2; lra). clearbody h2 w2.
  split.
  - apply (serr_mul 0 (48 * V) _ _ _ _ 1 (5 / 4)); [apply err_refl; lra|exact S2|absle|absle|numv].
  - intros P. apply single_pos. apply Rmult_le_pos; [exact P|]. unfold err in S2. apply abs_le_inv in S2. unfold V in S2. lra.
Qed.
Lemma fastAtanf_error x : -1 <= x <= 1 -> Rabs (fastAtanf x - atan x) <= 19 / 1000000.
Proof.
  intros H. destruct (fastAtanf_close x H) as [E _]. pose proof (fastAtan_lemma x H) as L. unfold err in E. apply abs_le_inv in E. apply abs_le_inv in L. apply Rabs_le. unfold V in E. lra.
Qed.
Lemma quotient_single z : 0 <= z <= 1 -> 0 <= fastAtanf (single z) <= 13 / 10 + 1 / 1000 /\ Rabs (fastAtanf (single z) - atan z) <= 19 / 1000000.
Proof.
  intros Z. assert (Z' : 0 <= single z <= 1) by (split; [apply single_pos; lra|apply single_upper; [apply sformat_1|lra]]).
  destruct (fastAtanf_close (single z) ltac:(lra)) as [E P]. pose proof (fastAtan_range _ Z') as R. pose proof (fastAtan_pos_lemma _ Z') as L. pose proof (atan_lip (single z) z) as A.
  pose proof (single_err z) as D. rewrite (Rabs_right z) in D by lra. assert (T : V * z <= V * 1) by (apply Rmult_le_compat_l; [apply Rlt_le, V_pos|lra]).
  assert (A' : Rabs (atan (single z) - atan z) <= V + V * V) by lra. specialize (P ltac:(lra)). unfold err in E. apply abs_le_inv in E, L, A'.
  unfold V in *. split; [lra|]. apply Rabs_le. lra.
Qed.
Definition PIf : R := 13176795 / 4194304.
Lemma single_PI : single M_PI = PIf.
Proof. rewrite (single_near M_PI 13176795 (-22)); [unfold PIf; cbn; lra|lia| |]; rewrite M_PI_value; cbn; [rewrite Rabs_right by lra; lra|apply Rabs_def1; lra]. Qed.
Lemma rnd_single x : rnd (single x) = single x.
Proof. apply rnd_id, sformat_format, single_format. Qed.
Lemma single_rnd_err a v W e e' : err e a v -> Rabs v <= W -> 0 <= e <= 1 -> W <= 10 -> e + V * (W + 1 / 1000000) + V * e + 2 * (V * V) + 11 * U <= e' -> err e' (single (rnd a)) v.
Proof.
  intros H HW He HW' HE. pose proof (Rabs_pos v) as P. assert (W0 : 0 <= W) by lra. apply (serr_rnd (e + U * (W + e) + U * U) (rnd a) v W); [apply (err_rnd e a v W); [exact H|exact HW|lra]|exact HW|].
  unfold U, V in *. lra.
Qed.
Lemma fastAtan2f_all x y : x <> 0 \/ y <> 0 ->
  Rabs (fastAtan2f x y - atan2 y x) <= 20 / 1000000 /\ - PIf <= fastAtan2f x y <= PIf /\ (0 <= y -> 0 <= fastAtan2f x y) /\ (y < 0 -> fastAtan2f x y <= 0).
Proof.
  intros N. rewrite atan2_quad by auto. pose proof M_PI_near as [HP HPr]. pose proof M_PI_2_near as (HQ & HQr & HQe). unfold fastAtan2f, quad. cbv zeta.
  assert (Hx : 0 <= Rabs x) by apply Rabs_pos. assert (Hy : 0 <= Rabs y) by apply Rabs_pos. assert (N2 : 0 < Rabs x \/ 0 < Rabs y) by (destruct N; [left|right]; apply Rabs_pos_lt; auto).
  generalize dependent (Rabs x). intros ax Hx N2. generalize dependent (Rabs y). intros ay Hy N2.
  assert (G : exists th p, (let z := if (if Rlt_dec ax ay then true else false) then single (ax / ay) else single (ay / ax) in if (if Rlt_dec ax ay then true else false) then single (fsub M_PI_2 (fastAtanf z)) else fastAtanf z) = th /\
     (if Rlt_dec ax ay then PI / 2 - atan (ax / ay) else atan (ay / ax)) = p /\ 0 <= th <= 16 / 10 /\ Rabs (th - p) <= 192 / 10000000).
  { destruct (Rlt_dec ax ay) as [I|I]; cbv zeta; eexists; eexists; (split; [reflexivity|]); (split; [reflexivity|]).
    - assert (Z : 0 <= ax / ay <= 1). { split; [apply Rmult_le_pos; [auto|left; apply Rinv_0_lt_compat; lra]|]. apply (Rmult_le_reg_r ay); [lra|]. unfold Rdiv. rewrite Rmult_assoc, Rinv_l; lra. }
      destruct (quotient_single _ Z) as [R E]. set (f := fastAtanf (single (ax / ay))) in *. clearbody f. unfold fsub.
      assert (D : err (2 * V) (single (rnd (M_PI_2 - f))) (M_PI_2 - f)) by (apply (single_rnd_err (M_PI_2 - f) _ (158 / 100) 0); [apply err_refl; lra|apply Rabs_le; lra|lra|lra|numv]).
      assert (D0 : 0 <= single (rnd (M_PI_2 - f))) by (apply single_pos, rnd_pos; lra). unfold err in D. apply abs_le_inv in D, E, HQ. unfold U, V in *. split; [lra|]. apply Rabs_le. lra.
    - assert (Z : 0 <= ay / ax <= 1). { split; [apply Rmult_le_pos; [auto|left; apply Rinv_0_lt_compat; lra]|]. apply (Rmult_le_reg_r ax); [lra|]. unfold Rdiv. rewrite Rmult_assoc, Rinv_l; lra. }
      destruct (quotient_single _ Z) as [R E]. split; [lra|]. apply abs_le_inv in E. apply Rabs_le. lra. }
  destruct G as (th & p & G1 & G2 & R & E). cbv zeta in G1. rewrite G1, G2. clear G1 G2.
  assert (G : exists th' p', (if Rlt_dec x 0 then single (fsub M_PI th) else th) = th' /\ (if Rlt_dec x 0 then PI - p else p) = p' /\ 0 <= th' <= PIf /\ Rabs (th' - p') <= 20 / 1000000).
  { destruct (Rlt_dec x 0) as [I|I]; eexists; eexists; (split; [reflexivity|]); (split; [reflexivity|]).
    - unfold fsub. assert (D0 : 0 <= single (rnd (M_PI - th)) <= PIf).
      { split; [apply single_pos, rnd_pos; lra|]. rewrite <- single_PI. apply single_le. rewrite <- (rnd_id M_PI) at 2 by apply rnd_format. apply rnd_le. lra. }
      assert (D : err (4 * V) (single (rnd (M_PI - th))) (M_PI - th)) by (apply (single_rnd_err (M_PI - th) _ (315 / 100) 0); [apply err_refl; lra|apply Rabs_le; lra|lra|lra|numv]).
      unfold err in D. apply abs_le_inv in D, E, HP. split; [exact D0|]. unfold U, V in *. apply Rabs_le. lra.
    - split; [unfold PIf; lra|]. apply abs_le_inv in E. apply Rabs_le. lra. }
  destruct G as (th' & p' & -> & -> & R' & E'). rewrite (Rabs_right th') by lra. destruct (Rlt_dec y 0) as [I|I].
  - split; [|repeat split; lra]. apply abs_le_inv in E'. apply Rabs_le. lra.
  - split; [exact E'|]. repeat split; lra.
Qed.
Lemma fastAtan2f_back : fastAtan2f (-1) 0 = PIf /\ M_PI < PIf /\ PI < PIf.
Proof.
  split; [|split; [rewrite M_PI_value; unfold PIf; cbn; lra|pose proof PI_digits; unfold PIf; lra]].
  unfold fastAtan2f. cbv zeta. rewrite Rabs_R0. rewrite (Rabs_left (-1)) by lra. destruct (Rlt_dec (- -1) 0) as [I|_]; [lra|]. destruct (Rlt_dec (-1) 0) as [_|I]; [|lra]. destruct (Rlt_dec 0 0) as [I|_]; [lra|].
  replace (0 / - -1) with 0 by (field; lra). rewrite single_0. assert (Z : fastAtanf 0 = 0) by (unfold fastAtanf; cbv zeta; rewrite (Rmult_0_l (single _)); apply single_0). rewrite Z. unfold fsub.
  rewrite Rminus_0_r, (rnd_id M_PI) by apply rnd_format. rewrite single_PI. apply Rabs_right. unfold PIf. lra.
Qed.

(** ** fastCosSinf *)
Lemma factorf_value : factorf = IZR 10680707 * bpow radix2 (-26).
Proof. unfold factorf. rewrite factor_value. apply single_near; [lia| |]; cbn; [rewrite Rabs_right by lra; lra|apply Rabs_def1; lra]. Qed.
Lemma factorf_near : Rabs (2 * PI * factorf - 1) <= 2 * V /\ 159 / 1000 < factorf < 16 / 100.
Proof. rewrite factorf_value. pose proof PI_digits. unfold V. split; [apply Rabs_le|]; cbn; lra. Qed.
Lemma scaled_errorf x : Rabs (2 * PI * single (x * factorf) - x) <= 4 * V * Rabs x + 7 * (V * V) /\ Rabs (single (x * factorf)) <= 17 / 100 * Rabs x + V * V.
Proof.
  destruct factorf_near as [F1 F2]. pose proof PI_bounds as HP. pose proof (single_err (x * factorf)) as R. set (xn := single _) in *. clearbody xn. rewrite Rabs_mult, (Rabs_right factorf) in R by lra.
  pose proof (Rabs_pos x) as A0. pose proof V_pos as HU. assert (UA : 0 <= V * Rabs x) by (apply Rmult_le_pos; lra). split.
  - replace (2 * PI * xn - x) with (2 * PI * (xn - x * factorf) + x * (2 * PI * factorf - 1)) by ring. eapply Rle_trans; [apply Rabs_triang|]. rewrite !Rabs_mult.
    rewrite (Rabs_right 2), (Rabs_right PI) by lra. assert (T1 : 2 * PI * Rabs (xn - x * factorf) <= 7 * (V * (Rabs x * factorf) + V * V)) by (apply Rmult_le_compat; [lra|apply Rabs_pos|lra|exact R]).
    assert (T2 : Rabs x * Rabs (2 * PI * factorf - 1) <= Rabs x * (2 * V)) by (apply Rmult_le_compat_l; auto).
    assert (T3 : V * (Rabs x * factorf) <= V * (Rabs x * (16 / 100))) by (apply Rmult_le_compat_l; [lra|]; apply Rmult_le_compat_l; lra). lra.
  - replace xn with ((xn - x * factorf) + x * factorf) by ring. eapply Rle_trans; [apply Rabs_triang|]. rewrite Rabs_mult, (Rabs_right factorf) by lra.
    assert (T3 : Rabs x * factorf <= Rabs x * (16 / 100)) by (apply Rmult_le_compat_l; lra). assert (T4 : V * (Rabs x * factorf) <= V * (Rabs x * (16 / 100))) by (apply Rmult_le_compat_l; [lra|]; lra).
    assert (V * Rabs x <= 1 / 100 * Rabs x) by (apply Rmult_le_compat_r; lra). lra.
Qed.
Definition corrf (y : R) : R := single (fadd y (fmul (fmul (rnd (225 / 1000)) y) (single (Rabs y - 1)))).
Definition sinef (t : R) : R := corrf (single (fmul t (fmul 16 (fsub (1 / 2) (Rabs t))))).
Definition cosinef (t : R) : R := corrf (single (fmul t (fmul 16 (single (Rabs t - 1 / 2))))).
Definition para (t : R) : R := t * (16 * (1 / 2 - Rabs t)).
Lemma para_range t : Rabs t <= 6 / 10 -> -1 <= para t <= 1.
Proof.
  intros T. pose proof (Rabs_pos t) as T0. unfold para. destruct (Rle_dec 0 t) as [S|S].
  - rewrite (Rabs_right t) in * by lra. pose proof (Rle_0_sqr (4 * t - 1)) as Q. unfold Rsqr in Q. split; [nra|lra].
  - rewrite (Rabs_left t) in * by lra. pose proof (Rle_0_sqr (4 * t + 1)) as Q. unfold Rsqr in Q. split; [lra|nra].
Qed.
Lemma corrf_close y v : -1 <= v <= 1 -> err (6 * V) y v -> err (12 * V) (corrf y) (v + 225 / 1000 * v * (Rabs v - 1)).
Proof.
  intros Hv A3. unfold corrf. pose proof (Rabs_pos v) as Y0. assert (Y1 : Rabs v <= 1) by (apply Rabs_le; lra).
  assert (B1 : err (2 * V) (fmul (rnd (225 / 1000)) y) (225 / 1000 * v)).
  { apply (err_mul (U / 4) (6 * V) _ _ _ _ (225 / 1000) 1); [apply (err_const _ (225 / 1000)); [apply Rabs_le; lra|num]|exact A3|apply Rabs_le; lra|exact Y1|numv]. }
  assert (B2 : err (8 * V) (single (Rabs y - 1)) (Rabs v - 1)).
  { apply (serr_sub (6 * V) 0 _ _ _ _ 1); [apply err_abs, A3|apply err_refl; lra|apply Rabs_le; lra|numv]. }
  assert (B3 : err (4 * V) (fmul (fmul (rnd (225 / 1000)) y) (single (Rabs y - 1))) (225 / 1000 * v * (Rabs v - 1))).
  { apply (err_mul (2 * V) (8 * V) _ _ _ _ (225 / 1000) 1); [exact B1|exact B2|apply Rabs_le; lra|apply Rabs_le; lra|numv]. }
  assert (W : Rabs (v + 225 / 1000 * v * (Rabs v - 1)) <= 13 / 10).
  { eapply Rle_trans; [apply Rabs_triang|]. rewrite !Rabs_mult, (Rabs_right (225 / 1000)) by lra. assert (Rabs (Rabs v - 1) <= 1) by (apply Rabs_le; lra).
    assert (225 / 1000 * Rabs v * Rabs (Rabs v - 1) <= 225 / 1000 * 1); [|lra]. rewrite Rmult_assoc. apply Rmult_le_compat_l; [lra|]. pose proof (Rabs_pos (Rabs v - 1)). nra. }
  apply (serr_rnd (10 * V + 2 * U) _ _ (13 / 10)); [apply (err_add (6 * V) (4 * V) _ _ _ _ (13 / 10)); [exact A3|exact B3|exact W|numv]|exact W|numv].
Qed.
Lemma sinef_close t : Rabs t <= 51 / 100 -> err (12 * V) (sinef t) (wave t).
Proof.
  intros T. pose proof (Rabs_pos t) as T0. apply corrf_close; [apply (para_range t); lra|].
  assert (A1 : err U (fsub (1 / 2) (Rabs t)) (1 / 2 - Rabs t)) by (apply (err_sub 0 0 _ _ _ _ (51 / 100)); [apply err_refl; lra|apply err_refl; lra|apply Rabs_le; lra|num]).
  assert (A2 : err (26 * U) (fmul 16 (fsub (1 / 2) (Rabs t))) (16 * (1 / 2 - Rabs t))) by (apply (err_mul 0 U _ _ _ _ 16 (51 / 100)); [apply err_refl; lra|exact A1|apply Rabs_le; lra|apply Rabs_le; lra|num]).
  assert (A3 : err (18 * U) (fmul t (fmul 16 (fsub (1 / 2) (Rabs t)))) (para t)).
  { apply (err_mul 0 (26 * U) _ _ _ _ (51 / 100) 8); [apply err_refl; lra|exact A2|exact T|apply Rabs_le; lra|num]. }
  apply (serr_rnd (18 * U) _ _ 1); [exact A3|apply Rabs_le, para_range; lra|numv].
Qed.
Lemma cosinef_close t : Rabs t <= 51 / 100 -> err (12 * V) (cosinef t) (- wave t).
Proof.
  intros T. pose proof (Rabs_pos t) as T0. pose proof (para_range t ltac:(lra)) as PR.
  replace (- wave t) with (- para t + 225 / 1000 * - para t * (Rabs (- para t) - 1)) by (unfold wave; cbv zeta; fold (para t); rewrite Rabs_Ropp; ring).
  apply corrf_close; [lra|].
  assert (A1 : err (6 / 10 * V) (single (Rabs t - 1 / 2)) (Rabs t - 1 / 2)) by (apply (serr_const _ (51 / 100)); [apply Rabs_le; lra|numv]).
  assert (A2 : err (97 / 10 * V) (fmul 16 (single (Rabs t - 1 / 2))) (16 * (Rabs t - 1 / 2))) by (apply (err_mul 0 (6 / 10 * V) _ _ _ _ 16 (51 / 100)); [apply err_refl; lra|exact A1|apply Rabs_le; lra|apply Rabs_le; lra|numv]).
  assert (A3 : err (498 / 100 * V) (fmul t (fmul 16 (single (Rabs t - 1 / 2)))) (- para t)).
  { replace (- para t) with (t * (16 * (Rabs t - 1 / 2))) by (unfold para; ring). apply (err_mul 0 (97 / 10 * V) _ _ _ _ (51 / 100) 8); [apply err_refl; lra|exact A2|exact T|apply Rabs_le; lra|numv]. }
  apply (serr_rnd (498 / 100 * V) _ _ 1); [exact A3|apply Rabs_le; lra|numv].
Qed.
(** Ranges. *)
Lemma corrf_range y : generic_format radix2 sexp y -> -1 <= y <= 1 -> -1 <= corrf y <= 1.
Proof.
  intros F0 Y. pose proof (sformat_format y F0) as F. unfold corrf, fadd, fmul. assert (Q : 0 <= rnd (225 / 1000) <= 1) by (split; [apply rnd_pos; lra|apply rnd_upper; [apply format_1|lra]]). set (q := rnd (225 / 1000)) in *. clearbody q.
  assert (W : -1 <= single (Rabs y - 1) <= 0). { pose proof (Rabs_pos y). assert (Rabs y <= 1) by (apply Rabs_le; lra). split; [apply single_lower; [apply sformat_m1|lra]|apply single_neg; lra]. }
  set (w := single (Rabs y - 1)) in *. clearbody w. destruct (Rle_dec 0 y) as [P|P].
  - assert (Z : 0 <= rnd (q * y) <= y) by (split; [apply rnd_pos; nra|apply rnd_upper; [exact F|nra]]). set (z := rnd (q * y)) in *. clearbody z.
    assert (B : - y <= rnd (z * w) <= 0) by (split; [apply rnd_lower; [apply generic_format_opp, F|nra]|apply rnd_neg; nra]). set (v := rnd (z * w)) in *. clearbody v.
    split; [apply single_lower; [apply sformat_m1|apply rnd_lower; [apply format_m1|lra]]|apply single_upper; [apply sformat_1|apply rnd_upper; [apply format_1|lra]]].
  - assert (Z : y <= rnd (q * y) <= 0) by (split; [apply rnd_lower; [exact F|nra]|apply rnd_neg; nra]). set (z := rnd (q * y)) in *. clearbody z.
    assert (B : 0 <= rnd (z * w) <= - y) by (split; [apply rnd_pos; nra|apply rnd_upper; [apply generic_format_opp, F|nra]]). set (v := rnd (z * w)) in *. clearbody v.
    split; [apply single_lower; [apply sformat_m1|apply rnd_lower; [apply format_m1|lra]]|apply single_upper; [apply sformat_1|apply rnd_upper; [apply format_1|lra]]].
Qed.
Lemma single_range y : -1 <= y <= 1 -> -1 <= single y <= 1.
Proof. intros H. split; [apply single_lower; [apply sformat_m1|lra]|apply single_upper; [apply sformat_1|lra]]. Qed.
Lemma fmul_opp t b : fmul (- t) b = - fmul t b.
Proof. unfold fmul. replace (- t * b) with (- (t * b)) by ring. apply rnd_opp. Qed.
Lemma sinef_range t : generic_format radix2 sexp t -> Rabs t <= 6 / 10 -> -1 <= sinef t <= 1.
Proof.
  intros F T. apply sformat_format in F. unfold sinef. apply corrf_range; [apply single_format|]. apply single_range. apply abs_le_inv in T. destruct (Rle_dec 0 t) as [S|S].
  - rewrite (Rabs_right t) by lra. apply parabola_range; [exact F|lra].
  - rewrite (Rabs_left t) by lra. pose proof (parabola_range (- t) (generic_format_opp _ _ _ F) ltac:(lra)) as P. rewrite fmul_opp in P. lra.
Qed.
Lemma single_tie : single (1 + V) = 1.
Proof.
  unfold single, round, F2R, scaled_mantissa. cbn [Fnum Fexp].
  assert (M : mag radix2 (1 + V) = 1%Z :> Z). { apply mag_unique. unfold V. rewrite Rabs_right by lra. cbn. lra. }
  assert (C : cexp radix2 (FLT_exp (-149) 24) (1 + V) = (-23)%Z) by (unfold cexp, FLT_exp; rewrite M; reflexivity). rewrite C.
  replace ((1 + V) * bpow radix2 (- (-23))) with (IZR 8388608 + / 2) by (unfold V; cbn; lra). unfold Znearest. rewrite (Zfloor_imp 8388608) by (cbn; lra). rewrite Rcompare_Eq by lra. cbn. lra.
Qed.
Lemma single_near_1 z : z <= 1 + V -> single z <= 1.
Proof. intros H. rewrite <- single_tie. now apply single_le. Qed.
Lemma format_1V : generic_format radix2 fexp (1 + V).
Proof. replace (1 + V) with (IZR 16777217 * bpow radix2 (-24)) by (unfold V; cbn; lra). apply format_scaled; lia. Qed.
Lemma cosinef_range t : generic_format radix2 sexp t -> Rabs t <= 6 / 10 -> -1 <= cosinef t <= 1.
Proof.
  intros F T. assert (P : forall t, generic_format radix2 sexp t -> 0 <= t <= 6 / 10 -> -1 <= single (fmul t (fmul 16 (single (1 / 2 - t)))) <= 1).
  { clear. intros t F T. unfold fmul. rewrite (rnd_id (16 * _)) by (apply format_16, sformat_format, single_format). destruct (Rle_dec (1 / 4) t) as [L|L].
    - apply single_range. rewrite (single_id (1 / 2 - t)).
      + pose proof (Rle_0_sqr (4 * t - 1)) as Q. unfold Rsqr in Q. split; [apply rnd_lower; [apply format_m1|nra]|apply rnd_upper; [apply format_1|lra]].
      + apply sterbenz; [exact sexp_valid|unfold sexp; apply FLT_exp_monotone| |exact F|lra]. replace (1 / 2) with (IZR 1 * bpow radix2 (-1)) by (cbn; lra). apply sformat; lia.
    - pose proof (single_half (-1) (1 / 2 - t) ltac:(lia)) as H. change (bpow radix2 (-1)) with (/ 2) in H. specialize (H ltac:(apply Rabs_le; lra)).
      replace (bpow radix2 (-1 - 25)) with (V / 4) in H by (unfold V; cbn; lra). assert (B : 0 <= single (1 / 2 - t)) by (apply single_pos; lra). set (b := single (1 / 2 - t)) in *. clearbody b. apply abs_le_inv in H. pose proof V_pos as HU.
      split.
      + apply Rle_trans with 0; [lra|]. apply single_pos, rnd_pos. apply Rmult_le_pos; lra.
      + apply single_near_1. apply rnd_upper; [apply format_1V|]. pose proof (Rle_0_sqr (4 * t - 1)) as Q. unfold Rsqr in Q.
        assert (t * b <= t * (1 / 2 - t + V / 4)) by (apply Rmult_le_compat_l; lra). assert (t * V < 1 / 4 * V) by (apply Rmult_lt_compat_r; lra). lra. }
  unfold cosinef. apply corrf_range; [apply single_format|]. apply abs_le_inv in T. replace (Rabs t - 1 / 2) with (- (1 / 2 - Rabs t)) by ring. rewrite single_opp.
  assert (E : forall b, single (fmul t (fmul 16 (- b))) = - single (fmul t (fmul 16 b))).
  { intros b. unfold fmul. replace (16 * - b) with (- (16 * b)) by ring. rewrite rnd_opp. replace (t * - rnd (16 * b)) with (- (t * rnd (16 * b))) by ring. rewrite rnd_opp. apply single_opp. }
  rewrite E. destruct (Rle_dec 0 t) as [S|S].
  - rewrite (Rabs_right t) by lra. specialize (P t F ltac:(lra)). lra.
  - rewrite (Rabs_left t) by lra. specialize (P (- t) (generic_format_opp _ _ _ F) ltac:(lra)). rewrite fmul_opp, single_opp in P. lra.
Qed.
(** Phases. *)
Lemma wide_err a B : Rabs a <= B -> 0 <= B <= 2 -> Rabs (single (rnd a) - a) <= V * B + V / 100.
Proof.
  intros H HB. assert (E : err (V * B + V / 100) (single (rnd a)) a); [|exact E].
  apply (serr_rnd (U * B + U * U) _ _ B); [apply (err_rnd 0 a a B); [apply err_refl; lra|exact H|lra]|exact H|unfold U, V; lra].
Qed.
Lemma sine_phasef xn : V * Rabs xn <= 1 / 10 -> let t := single (fsub xn (ffloor (fadd xn (1 / 2)))) in exists n : Z, Rabs (t - (xn - IZR n)) <= 2 * V /\ Rabs t <= 1 / 2 + (V * Rabs xn + 2 * V).
Proof.
  intros B t. pose proof V_pos as HV. pose proof U_pos as HU. pose proof (Rabs_pos xn) as X0. assert (UX : U * Rabs xn <= V * Rabs xn) by (apply Rmult_le_compat_r; [lra|numv]). assert (UV : U <= V / 1000000) by numv.
  assert (UU : 0 <= U * U <= U / 1000000) by nra. assert (VX : 0 <= V * Rabs xn) by (apply Rmult_le_pos; lra).
  unfold t, fsub, ffloor, fadd. clear t. pose proof (rnd_err (xn + 1 / 2)) as R. set (f := rnd (xn + 1 / 2)) in *. set (n := Zfloor f). exists n.
  assert (N1 : IZR n <= f) by apply Zfloor_lb. assert (N2 : f < IZR n + 1) by apply Zfloor_ub. clearbody n f.
  assert (T : U * Rabs (xn + 1 / 2) <= U * (Rabs xn + 1 / 2)). { apply Rmult_le_compat_l; [lra|]. eapply Rle_trans; [apply Rabs_triang|]. rewrite (Rabs_right (1 / 2)) by lra. lra. }
  apply abs_le_inv in R. assert (D : Rabs (xn - IZR n) <= 1 / 2 + (V * Rabs xn + V)) by (apply Rabs_le; lra).
  pose proof (wide_err (xn - IZR n) (7 / 10) ltac:(lra) ltac:(lra)) as R2. split; [lra|]. apply abs_le_inv in R2, D. apply Rabs_le. lra.
Qed.
Lemma cosine_phasef (wide : bool) xn : V * Rabs xn <= 45 / 1000 -> let n := ffloor (single (xn + 1 / 4)) in let t := if wide then single (fsub xn (fadd (1 / 4) n)) else single (xn - single (1 / 4 + n)) in
  exists n : Z, Rabs (t - (xn - 1 / 4 - IZR n)) <= V * Rabs xn + 6 * V /\ Rabs t <= 1 / 2 + (2 * (V * Rabs xn) + 7 * V).
Proof.
  intros B n t. pose proof V_pos as HV. pose proof U_pos as HU. pose proof (Rabs_pos xn) as X0. assert (UX : U * Rabs xn <= V * Rabs xn) by (apply Rmult_le_compat_r; [lra|numv]). assert (UV : U <= V / 1000000) by numv.
  assert (UU : 0 <= U * U <= U / 1000000) by nra. assert (VV : 0 <= V * V <= V / 1000) by nra. assert (VX : 0 <= V * Rabs xn) by (apply Rmult_le_pos; lra).
  unfold t, n, fsub, ffloor, fadd. clear t n. pose proof (single_err (xn + 1 / 4)) as R. set (f := single (xn + 1 / 4)) in *. set (n := Zfloor f). exists n.
  assert (N1 : IZR n <= f) by apply Zfloor_lb. assert (N2 : f < IZR n + 1) by apply Zfloor_ub. clearbody n f.
  assert (T : V * Rabs (xn + 1 / 4) <= V * (Rabs xn + 1 / 4)). { apply Rmult_le_compat_l; [lra|]. eapply Rle_trans; [apply Rabs_triang|]. rewrite (Rabs_right (1 / 4)) by lra. lra. }
  apply abs_le_inv in R. assert (D : Rabs (xn - 1 / 4 - IZR n) <= 1 / 2 + (V * Rabs xn + V)) by (apply Rabs_le; lra).
  assert (NB : Rabs (1 / 4 + IZR n) <= Rabs xn + 1).
  { replace (1 / 4 + IZR n) with (xn + - (xn - 1 / 4 - IZR n)) by ring. eapply Rle_trans; [apply Rabs_triang|]. rewrite Rabs_Ropp. lra. }
  assert (G : exists g, Rabs (g - (1 / 4 + IZR n)) <= V * Rabs xn + 2 * V /\ Rabs ((if wide then single (rnd (xn - rnd (1 / 4 + IZR n))) else single (xn - single (1 / 4 + IZR n))) - (xn - g)) <= 2 * V).
  { destruct wide.
    - exists (rnd (1 / 4 + IZR n)). pose proof (rnd_err (1 / 4 + IZR n)) as R1. assert (T1 : U * Rabs (1 / 4 + IZR n) <= U * (Rabs xn + 1)) by (apply Rmult_le_compat_l; lra). split; [lra|].
      set (g := rnd _) in *. clearbody g. apply abs_le_inv in R1, D. pose proof (wide_err (xn - g) 1 ltac:(apply Rabs_le; lra) ltac:(lra)). lra.
    - exists (single (1 / 4 + IZR n)). pose proof (single_err (1 / 4 + IZR n)) as R1. assert (T1 : V * Rabs (1 / 4 + IZR n) <= V * (Rabs xn + 1)) by (apply Rmult_le_compat_l; lra). split; [lra|].
      set (g := single (1 / 4 + IZR n)) in *. clearbody g. apply abs_le_inv in R1, D. pose proof (single_err (xn - g)) as R2. assert (T2 : V * Rabs (xn - g) <= V * 1) by (apply Rmult_le_compat_l; [lra|apply Rabs_le; lra]). lra. }
  destruct G as (g & G1 & G2). set (t := if wide then _ else _) in *. clearbody t. apply abs_le_inv in G1, G2, D. split; apply Rabs_le; lra.
Qed.
Lemma phasef t v n D1 D2 : 0 <= D2 <= 1 / 100 -> Rabs t <= 1 / 2 + D2 -> Rabs (t - (v - IZR n)) <= D1 ->
  Rabs (sinef t - sin (2 * PI * v)) <= 12 / 10000 + 12 * V + 17 * D2 + 7 * D1 /\ Rabs (cosinef t - - sin (2 * PI * v)) <= 12 / 10000 + 12 * V + 17 * D2 + 7 * D1.
Proof.
  intros H2 HT H1. pose proof PI_bounds as HP. pose proof (sinef_close t ltac:(lra)) as F. pose proof (cosinef_close t ltac:(lra)) as F'. unfold err in F, F'. pose proof (wave_sin t D2 H2 HT) as W. rewrite <- (sin_int v n).
  pose proof (sin_lip (2 * PI * t) (2 * PI * (v - IZR n))) as S. replace (2 * PI * t - 2 * PI * (v - IZR n)) with (2 * PI * (t - (v - IZR n))) in S by ring.
  rewrite Rabs_mult, (Rabs_right (2 * PI)) in S by lra. assert (S2 : 2 * PI * Rabs (t - (v - IZR n)) <= 7 * D1) by (apply Rmult_le_compat; [lra|apply Rabs_pos|lra|exact H1]).
  apply abs_le_inv in F, F', W, S. split; apply Rabs_le; lra.
Qed.
Lemma fastCosSinf_error wide x : Rabs x <= 2 ^ 18 ->
  let (c, s) := fastCosSinf wide x in Rabs (c - cos x) <= 12 / 10000 + (Rabs x + 16) / 2 ^ 20 /\ Rabs (s - sin x) <= 12 / 10000 + (Rabs x + 16) / 2 ^ 20.
Proof.
  intros B. unfold fastCosSinf. cbv zeta. destruct (scaled_errorf x) as [S1 S2]. set (xn := single (x * factorf)) in *. clearbody xn.
  replace ((Rabs x + 16) / 2 ^ 20) with (16 * V * (Rabs x + 16)) by (unfold V; field).
  pose proof V_pos as HU. assert (UU : 0 <= V * V <= V / 1000) by nra. pose proof (Rabs_pos x) as X0.
  assert (UX : 0 <= V * Rabs x <= 1 / 64) by (split; [apply Rmult_le_pos; lra|]; apply Rle_trans with (V * 2 ^ 18); [apply Rmult_le_compat_l; lra|numv]).
  assert (UN : V * Rabs xn <= 17 / 100 * (V * Rabs x) + V / 1000) by (apply Rle_trans with (V * (17 / 100 * Rabs x + V * V)); [apply Rmult_le_compat_l; lra|assert (V * (V * V) <= V * (1 / 1000)) by (apply Rmult_le_compat_l; lra); lra]).
  assert (UN0 : 0 <= V * Rabs xn) by (apply Rmult_le_pos; [lra|apply Rabs_pos]).
  split.
  - destruct (cosine_phasef wide xn ltac:(lra)) as (n & P1 & P2). set (t := if wide then _ else _) in *. clearbody t. assert (Q : 0 <= 2 * (V * Rabs xn) + 7 * V <= 1 / 100) by lra. destruct (phasef t (xn - 1 / 4) n _ _ Q P2 P1) as [_ H]. change (Rabs (cosinef t - cos x) <= 12 / 10000 + 16 * V * (Rabs x + 16)).
    replace (2 * PI * (xn - 1 / 4)) with (- (PI / 2 - 2 * PI * xn)) in H by field. rewrite sin_neg, sin_shift in H.
    pose proof (sin_lip (PI / 2 - 2 * PI * xn) (PI / 2 - x)) as L. rewrite !sin_shift in L. replace (PI / 2 - 2 * PI * xn - (PI / 2 - x)) with (- (2 * PI * xn - x)) in L by ring. rewrite Rabs_Ropp in L.
    apply abs_le_inv in H, L. apply Rabs_le. lra.
  - destruct (sine_phasef xn ltac:(lra)) as (n & P1 & P2). set (t := single (fsub xn _)) in *. clearbody t. assert (Q : 0 <= V * Rabs xn + 2 * V <= 1 / 100) by lra. destruct (phasef t xn n _ _ Q P2 P1) as [H _]. change (Rabs (sinef t - sin x) <= 12 / 10000 + 16 * V * (Rabs x + 16)).
    pose proof (sin_lip (2 * PI * xn) x) as L. apply abs_le_inv in H, L. apply Rabs_le. lra.
Qed.
Lemma fastCosSinf_bounded wide x : Rabs x <= 2 ^ 22 -> let (c, s) := fastCosSinf wide x in -1 <= c <= 1 /\ -1 <= s <= 1.
Proof.
  intros B. unfold fastCosSinf. cbv zeta. destruct (scaled_errorf x) as [_ S2]. set (xn := single (x * factorf)) in *. clearbody xn.
  pose proof V_pos as HU. pose proof (Rabs_pos x) as X0. assert (UU : 0 <= V * V <= V / 1000) by nra.
  assert (UX : 0 <= V * Rabs x <= 1 / 4) by (split; [apply Rmult_le_pos; lra|]; apply Rle_trans with (V * 2 ^ 22); [apply Rmult_le_compat_l; lra|numv]).
  assert (UN : V * Rabs xn <= 17 / 100 * (V * Rabs x) + V) by (apply Rle_trans with (V * (17 / 100 * Rabs x + V * V)); [apply Rmult_le_compat_l; lra|assert (V * (V * V) <= V * 1) by (apply Rmult_le_compat_l; lra); lra]).
  split.
  - destruct (cosine_phasef wide xn ltac:(lra)) as (n & _ & P2). apply (cosinef_range (if wide then single (fsub xn (fadd (1 / 4) (ffloor (single (xn + 1 / 4))))) else single (xn - single (1 / 4 + ffloor (single (xn + 1 / 4)))))); [destruct wide; apply single_format|lra].
  - destruct (sine_phasef xn ltac:(lra)) as (n & _ & P2). apply (sinef_range (single (fsub xn (ffloor (fadd xn (1 / 2)))))); [apply single_format|lra].
Qed.
Lemma fastAtan2f_polar x y : x <> 0 \/ y <> 0 -> exists p, - PI < p <= PI /\ x = sqrt (x * x + y * y) * cos p /\ y = sqrt (x * x + y * y) * sin p /\ Rabs (fastAtan2f x y - p) <= 20 / 1000000.
Proof.
  intros N. exists (atan2 y x). destruct (polar x y). split; [apply atan2_range|]. split; [auto|]. split; [auto|]. now apply fastAtan2f_all.
Qed.
Lemma fastAtan2f_range x y : x <> 0 \/ y <> 0 -> - (13176795 / 4194304) <= fastAtan2f x y <= 13176795 / 4194304 /\ (0 <= y -> 0 <= fastAtan2f x y) /\ (y < 0 -> fastAtan2f x y <= 0).
Proof. intros N. destruct (fastAtan2f_all x y N) as (_ & H). exact H. Qed.
Lemma fastAtan2f_beyond : exists x y, M_PI < fastAtan2f x y /\ PI < fastAtan2f x y.
Proof. exists (-1), 0. destruct fastAtan2f_back as (-> & H). exact H. Qed.
(** ** From an angle back to the direction *)
Lemma cos_lip x y : Rabs (cos x - cos y) <= Rabs (x - y).
Proof. pose proof (sin_lip (PI / 2 - x) (PI / 2 - y)) as H. rewrite !sin_shift in H. replace (PI / 2 - x - (PI / 2 - y)) with (- (x - y)) in H by ring. now rewrite Rabs_Ropp in H. Qed.
Lemma back_error (f : R -> R * R) a p e d r : 0 <= r -> Rabs (a - p) <= d -> (let (c, s) := f a in Rabs (c - cos a) <= e /\ Rabs (s - sin a) <= e) ->
  let (c, s) := f a in Rabs (r * c - r * cos p) <= (e + d) * r /\ Rabs (r * s - r * sin p) <= (e + d) * r.
Proof.
  intros Hr Hd. destruct (f a) as [c s]. intros [H1 H2]. pose proof (cos_lip a p) as L1. pose proof (sin_lip a p) as L2. rewrite <- !Rmult_minus_distr_l, !Rabs_mult, (Rabs_right r) by lra.
  rewrite (Rmult_comm (e + d)). split; apply Rmult_le_compat_l; auto.
  - replace (c - cos p) with ((c - cos a) + (cos a - cos p)) by ring. eapply Rle_trans; [apply Rabs_triang|]. lra.
  - replace (s - sin p) with ((s - sin a) + (sin a - sin p)) by ring. eapply Rle_trans; [apply Rabs_triang|]. lra.
Qed.
Lemma round_trip x y : x <> 0 \/ y <> 0 -> let r := sqrt (x * x + y * y) in let (c, s) := fastCosSin (fastAtan2 x y) in
  Rabs (r * c - x) <= 13 / 10000 * r /\ Rabs (r * s - y) <= 13 / 10000 * r.
Proof.
  intros N r. destruct (fastAtan2_double_polar x y N) as (p & P & X & Y & E). destruct (fastAtan2_double_sign x y N) as (R & _). pose proof M_PI_near as [_ M].
  assert (A : Rabs (fastAtan2 x y) <= 4) by (apply Rabs_le; lra). pose proof (fastCosSin_double_pow (fastAtan2 x y) ltac:(lra)) as F.
  pose proof (back_error fastCosSin _ p _ _ r (sqrt_pos _) E F) as B. fold r in X, Y. rewrite <- X, <- Y in B. destruct (fastCosSin (fastAtan2 x y)) as [c s].
  assert (T : (12 / 10000 + (Rabs (fastAtan2 x y) + 16) / 2 ^ 49 + 16 / 1000000) * r <= 13 / 10000 * r) by (apply Rmult_le_compat_r; [apply sqrt_pos|lra]). lra.
Qed.
Lemma round_tripf wide x y : x <> 0 \/ y <> 0 -> let r := sqrt (x * x + y * y) in let (c, s) := fastCosSinf wide (fastAtan2f x y) in
  Rabs (r * c - x) <= 13 / 10000 * r /\ Rabs (r * s - y) <= 13 / 10000 * r.
Proof.
  intros N r. destruct (fastAtan2f_polar x y N) as (p & P & X & Y & E). destruct (fastAtan2f_range x y N) as (R & _).
  assert (A : Rabs (fastAtan2f x y) <= 4) by (apply Rabs_le; lra). pose proof (fastCosSinf_error wide (fastAtan2f x y) ltac:(lra)) as F.
  pose proof (back_error (fastCosSinf wide) _ p _ _ r (sqrt_pos _) E F) as B. fold r in X, Y. rewrite <- X, <- Y in B. destruct (fastCosSinf wide (fastAtan2f x y)) as [c s].
  assert (T : (12 / 10000 + (Rabs (fastAtan2f x y) + 16) / 2 ^ 20 + 20 / 1000000) * r <= 13 / 10000 * r) by (apply Rmult_le_compat_r; [apply sqrt_pos|lra]). lra.
Qed.
