(** * fastCosSin, fastAtan and fastAtan2 in double arithmetic. *)
From Coq Require Import Reals ZArith Lra Lia Psatz.
From Flocq Require Import Core Relative Sterbenz.
From Verif Require Import FunctionsModel FunctionsSpec FunctionsProofs PiBounds FastTrigProofs FastSinProofs DoubleModel DoubleSpec DoubleProofs.
Open Scope R_scope.

(** ** Errors of the operations *)
Definition err (e a v : R) : Prop := Rabs (a - v) <= e.
Lemma U_pos : 0 < U < 1 / 1000000000000000. Proof. unfold U. lra. Qed.
Lemma err_rnd e a v V e' : err e a v -> Rabs v <= V -> e + U * (V + e) + U * U <= e' -> err e' (rnd a) v.
Proof.
  unfold err. intros H HV HE. pose proof U_pos as HU. pose proof (rnd_err a) as R. replace (rnd a - v) with ((rnd a - a) + (a - v)) by ring.
  eapply Rle_trans; [apply Rabs_triang|]. assert (A : Rabs a <= V + e).
  { replace a with (v + (a - v)) by ring. eapply Rle_trans; [apply Rabs_triang|]. lra. }
  assert (U * Rabs a <= U * (V + e)) by (apply Rmult_le_compat_l; lra). lra.
Qed.
Lemma err_const v V e' : Rabs v <= V -> U * V + U * U <= e' -> err e' (rnd v) v.
Proof. intros H1 H2. apply (err_rnd 0 v v V); [unfold err; rewrite Rminus_diag_eq, Rabs_R0; [lra|reflexivity]|auto|]. rewrite Rplus_0_r. lra. Qed.
Lemma err_add ea eb a v b w V e' : err ea a v -> err eb b w -> Rabs (v + w) <= V -> (ea + eb) + U * (V + (ea + eb)) + U * U <= e' -> err e' (fadd a b) (v + w).
Proof.
  intros H1 H2 HV HE. apply (err_rnd (ea + eb) (a + b) (v + w) V); auto. unfold err in *. replace (a + b - (v + w)) with ((a - v) + (b - w)) by ring.
  eapply Rle_trans; [apply Rabs_triang|]. lra.
Qed.
Lemma err_sub ea eb a v b w V e' : err ea a v -> err eb b w -> Rabs (v - w) <= V -> (ea + eb) + U * (V + (ea + eb)) + U * U <= e' -> err e' (fsub a b) (v - w).
Proof.
  intros H1 H2 HV HE. apply (err_rnd (ea + eb) (a - b) (v - w) V); auto. unfold err in *. replace (a - b - (v - w)) with ((a - v) + - (b - w)) by ring.
  eapply Rle_trans; [apply Rabs_triang|]. rewrite Rabs_Ropp. lra.
Qed.
Lemma err_mul ea eb a v b w V W e' : err ea a v -> err eb b w -> Rabs v <= V -> Rabs w <= W ->
  (ea * W + V * eb + ea * eb) + U * (V * W + (ea * W + V * eb + ea * eb)) + U * U <= e' -> err e' (fmul a b) (v * w).
Proof.
  intros H1 H2 HV HW HE. pose proof (Rabs_pos v). pose proof (Rabs_pos w). pose proof (Rabs_pos (a - v)). pose proof (Rabs_pos (b - w)). unfold err in *.
  apply (err_rnd (ea * W + V * eb + ea * eb) (a * b) (v * w) (V * W)); auto.
  - unfold err. replace (a * b - v * w) with ((a - v) * w + v * (b - w) + (a - v) * (b - w)) by ring.
    eapply Rle_trans; [apply Rabs_triang|]. apply Rplus_le_compat; [eapply Rle_trans; [apply Rabs_triang|]; apply Rplus_le_compat|]; rewrite Rabs_mult; apply Rmult_le_compat; auto.
  - rewrite Rabs_mult. apply Rmult_le_compat; auto.
Qed.
Lemma err_abs e a v : err e a v -> err e (Rabs a) (Rabs v).
Proof. unfold err. intros H. eapply Rle_trans; [apply Rabs_triang_inv2|exact H]. Qed.
Lemma err_refl e v : 0 <= e -> err e v v.
Proof. intros H. unfold err. rewrite Rminus_diag_eq, Rabs_R0; auto. Qed.

(** ** fastAtan *)
Ltac num := unfold U; lra.
Ltac absle := apply Rabs_le; nra.
Lemma fastAtan_close x : -1 <= x <= 1 -> err (64 * U) (fastAtan x) (FunctionsModel.fastAtan x) /\ (0 <= x -> 0 <= fastAtan x).
Proof.
  intros Hx. unfold fastAtan, FunctionsModel.fastAtan. cbv zeta.
  assert (X2 : 0 <= x * x <= 1) by nra. assert (E2 : err (2 * U) (fmul x x) (x * x)).
  { apply (err_rnd 0 (x * x) (x * x) 1); [apply err_refl; lra|absle|num]. }
  set (f2 := fmul x x) in *. set (x2 := x * x) in *. clearbody f2 x2.
  assert (X4 : 0 <= x2 * x2 <= 1) by nra. assert (E4 : err (6 * U) (fmul f2 f2) (x2 * x2)) by (apply (err_mul (2 * U) (2 * U) _ _ _ _ 1 1); auto; try absle; num).
  set (f4 := fmul f2 f2) in *. set (x4 := x2 * x2) in *. clearbody f4 x4.
  assert (A7 : err (10 * U) (fmul (rnd (- (851330 / 10000000))) f4) (- (851330 / 10000000) * x4)).
  { apply (err_mul (2 * U) (6 * U) _ _ _ _ 1 1); [apply (err_const _ 1); [absle|num]|exact E4|absle|absle|num]. }
  assert (A3 : err (14 * U) (fadd (rnd (- (3302995 / 10000000))) (fmul (rnd (- (851330 / 10000000))) f4)) (- (3302995 / 10000000) + - (851330 / 10000000) * x4)).
  { apply (err_add (2 * U) (10 * U) _ _ _ _ 1); [apply (err_const _ 1); [absle|num]|assumption|absle|num]. }
  assert (B3 : err (18 * U) (fmul f2 (fadd (rnd (- (3302995 / 10000000))) (fmul (rnd (- (851330 / 10000000))) f4))) (x2 * (- (3302995 / 10000000) + - (851330 / 10000000) * x4))).
  { apply (err_mul (2 * U) (14 * U) _ _ _ _ 1 1); auto; try absle; num. }
  assert (A9 : err (10 * U) (fmul (rnd (208351 / 10000000)) f4) (208351 / 10000000 * x4)).
  { apply (err_mul (2 * U) (6 * U) _ _ _ _ 1 1); [apply (err_const _ 1); [absle|num]|exact E4|absle|absle|num]. }
  assert (A5 : err (14 * U) (fadd (rnd (1801410 / 10000000)) (fmul (rnd (208351 / 10000000)) f4)) (1801410 / 10000000 + 208351 / 10000000 * x4)).
  { apply (err_add (2 * U) (10 * U) _ _ _ _ 1); [apply (err_const _ 1); [absle|num]|assumption|absle|num]. }
  assert (B5 : err (22 * U) (fmul f4 (fadd (rnd (1801410 / 10000000)) (fmul (rnd (208351 / 10000000)) f4))) (x4 * (1801410 / 10000000 + 208351 / 10000000 * x4))).
  { apply (err_mul (6 * U) (14 * U) _ _ _ _ 1 1); auto; try absle; num. }
  set (g3 := fmul f2 _) in *. set (g5 := fmul f4 (fadd _ _)) in *. set (v3 := x2 * (_ + _)) in *. set (v5 := x4 * (_ + _)) in *.
  assert (V3 : - (1 / 2) <= v3 <= 0) by (unfold v3; nra). assert (V5 : 0 <= v5 <= 1 / 4) by (unfold v5; nra). clearbody g3 g5 v3 v5.
  assert (S1 : err (22 * U) (fadd (rnd (9998660 / 10000000)) g3) (9998660 / 10000000 + v3)).
  { apply (err_add (2 * U) (18 * U) _ _ _ _ 1); [apply (err_const _ 1); [absle|num]|assumption|absle|num]. }
  set (h1 := fadd _ g3) in *. set (w1 := _ + v3) in *. assert (W1 : 49 / 100 <= w1 <= 1) by (unfold w1; lra). clearbody h1 w1.
  assert (S2 : err (48 * U) (fadd h1 g5) (w1 + v5)) by (apply (err_add (22 * U) (22 * U) _ _ _ _ (5 / 4)); auto; try absle; num).
  set (h2 := fadd _ g5) in *. set (w2 := _ + v5) in *. assert (W2 : 49 / 100 <= w2 <= 5 / 4) by (unfold w2; lra). clearbody h2 w2.
  split.
  - apply (err_mul 0 (48 * U) _ _ _ _ 1 (5 / 4)); [apply err_refl; lra|exact S2|absle|absle|num].
  - intros P. unfold fmul. rewrite <- rnd_0. apply rnd_le. apply Rmult_le_pos; [exact P|]. unfold err in S2. apply abs_le_inv in S2. unfold U in S2. lra.
Qed.
Lemma fastAtan_double x : -1 <= x <= 1 -> Rabs (fastAtan x - atan x) <= 16 / 1000000.
Proof.
  intros H. destruct (fastAtan_close x H) as [E _]. pose proof (fastAtan_lemma x H) as L. unfold err in E. apply abs_le_inv in E. apply abs_le_inv in L. apply Rabs_le. unfold U in E. lra.
Qed.
Lemma atan_lip x y : Rabs (atan x - atan y) <= Rabs (x - y).
Proof.
  assert (P : forall a b, a < b -> Rabs (atan b - atan a) <= Rabs (b - a)).
  { intros a b L. destruct (MVT_cor2 atan (fun z => / (1 + z ^ 2)) a b L) as (c & Ec & _).
    - intros c _. apply derivable_pt_lim_atan.
    - rewrite Ec, Rabs_mult. rewrite <- (Rmult_1_l (Rabs (b - a))) at 2. apply Rmult_le_compat_r; [apply Rabs_pos|]. pose proof (pow2_ge_0 c).
      rewrite Rabs_right by (left; apply Rinv_0_lt_compat; lra). rewrite <- Rinv_1. apply Rinv_le_contravar; lra. }
  destruct (Rtotal_order x y) as [L|[->|L]]; [rewrite (Rabs_minus_sym (atan x)), (Rabs_minus_sym x); auto| |auto]. rewrite !Rminus_diag_eq by reflexivity. lra.
Qed.
Lemma quotient_double z : 0 <= z <= 1 -> 0 <= fastAtan (rnd z) <= 13 / 10 + 1 / 1000 /\ Rabs (fastAtan (rnd z) - atan z) <= 155 / 10000000.
Proof.
  intros Z. assert (Z' : 0 <= rnd z <= 1).
  { split; [rewrite <- rnd_0; apply rnd_le; lra|]. rewrite <- (rnd_id 1) by (apply (format_int 1); lia). apply rnd_le. lra. }
  destruct (fastAtan_close (rnd z) ltac:(lra)) as [E P]. pose proof (fastAtan_range _ Z') as R. pose proof (fastAtan_pos_lemma _ Z') as L. pose proof (atan_lip (rnd z) z) as A.
  pose proof (rnd_err z) as D. rewrite (Rabs_right z) in D by lra. assert (T : U * z <= U * 1) by (apply Rmult_le_compat_l; [apply Rlt_le, U_pos|lra]).
  assert (A' : Rabs (atan (rnd z) - atan z) <= 2 * U) by (assert (U * U <= U) by num; lra). specialize (P ltac:(lra)). unfold err in E. apply abs_le_inv in E, L, A'.
  unfold U in *. split; [lra|]. apply Rabs_le. lra.
Qed.
Lemma M_PI_2_near : Rabs (M_PI_2 - PI / 2) <= U /\ 157 / 100 < M_PI_2 < 158 / 100 /\ M_PI_2 = M_PI / 2.
Proof. rewrite M_PI_value, M_PI_2_value. pose proof PI_digits. unfold U. split; [apply Rabs_le|]; cbn; lra. Qed.
Lemma fastAtan2_double x y : x <> 0 \/ y <> 0 ->
  Rabs (fastAtan2 x y - atan2 y x) <= 16 / 1000000 /\ - M_PI <= fastAtan2 x y <= M_PI /\ (0 <= y -> 0 <= fastAtan2 x y) /\ (y < 0 -> fastAtan2 x y <= 0).
Proof.
  intros N. rewrite atan2_quad by auto. pose proof M_PI_near as [HP HPr]. pose proof M_PI_2_near as (HQ & HQr & HQe). unfold fastAtan2, quad. cbv zeta.
  assert (Hx : 0 <= Rabs x) by apply Rabs_pos. assert (Hy : 0 <= Rabs y) by apply Rabs_pos. assert (N2 : 0 < Rabs x \/ 0 < Rabs y) by (destruct N; [left|right]; apply Rabs_pos_lt; auto).
  generalize dependent (Rabs x). intros ax Hx N2. generalize dependent (Rabs y). intros ay Hy N2.
  assert (G : exists th p, (let z := if (if Rlt_dec ax ay then true else false) then fdiv ax ay else fdiv ay ax in if (if Rlt_dec ax ay then true else false) then fsub M_PI_2 (fastAtan z) else fastAtan z) = th /\
     (if Rlt_dec ax ay then PI / 2 - atan (ax / ay) else atan (ay / ax)) = p /\ 0 <= th <= M_PI_2 /\ Rabs (th - p) <= 157 / 10000000).
  { destruct (Rlt_dec ax ay) as [I|I]; cbv zeta; eexists; eexists; (split; [reflexivity|]); (split; [reflexivity|]).
    - assert (Z : 0 <= ax / ay <= 1). { split; [apply Rmult_le_pos; [auto|left; apply Rinv_0_lt_compat; lra]|]. apply (Rmult_le_reg_r ay); [lra|]. unfold Rdiv. rewrite Rmult_assoc, Rinv_l; lra. }
      destruct (quotient_double _ Z) as [R E]. fold (fdiv ax ay) in R, E. set (f := fastAtan (fdiv ax ay)) in *. clearbody f. split.
      + unfold fsub. split; [rewrite <- rnd_0; apply rnd_le; lra|]. rewrite <- (rnd_id M_PI_2) at 2 by apply rnd_format. apply rnd_le. lra.
      + unfold fsub. pose proof (rnd_err (M_PI_2 - f)) as D. rewrite (Rabs_right (M_PI_2 - f)) in D by lra. assert (T : U * (M_PI_2 - f) <= U * 2) by (apply Rmult_le_compat_l; [apply Rlt_le, U_pos|lra]).
        apply abs_le_inv in D, E, HQ. unfold U in *. apply Rabs_le. lra.
    - assert (Z : 0 <= ay / ax <= 1). { split; [apply Rmult_le_pos; [auto|left; apply Rinv_0_lt_compat; lra]|]. apply (Rmult_le_reg_r ax); [lra|]. unfold Rdiv. rewrite Rmult_assoc, Rinv_l; lra. }
      destruct (quotient_double _ Z) as [R E]. fold (fdiv ay ax) in R, E. split; [lra|]. apply abs_le_inv in E. apply Rabs_le. lra. }
  destruct G as (th & p & G1 & G2 & R & E). cbv zeta in G1. rewrite G1, G2. clear G1 G2. 
  assert (G : exists th' p', (if Rlt_dec x 0 then fsub M_PI th else th) = th' /\ (if Rlt_dec x 0 then PI - p else p) = p' /\ 0 <= th' <= M_PI /\ Rabs (th' - p') <= 16 / 1000000).
  { destruct (Rlt_dec x 0) as [I|I]; eexists; eexists; (split; [reflexivity|]); (split; [reflexivity|]).
    - unfold fsub. split.
      + split; [rewrite <- rnd_0; apply rnd_le; lra|]. rewrite <- (rnd_id M_PI) at 2 by apply rnd_format. apply rnd_le. lra.
      + pose proof (rnd_err (M_PI - th)) as D. rewrite (Rabs_right (M_PI - th)) in D by lra. assert (T : U * (M_PI - th) <= U * 4) by (apply Rmult_le_compat_l; [apply Rlt_le, U_pos|lra]).
        apply abs_le_inv in D, E, HP. unfold U in *. apply Rabs_le. lra.
    - split; [lra|]. apply abs_le_inv in E. apply Rabs_le. lra. }
  destruct G as (th' & p' & -> & -> & R' & E'). rewrite (Rabs_right th') by lra. destruct (Rlt_dec y 0) as [I|I].
  - split; [|repeat split; lra]. apply abs_le_inv in E'. apply Rabs_le. lra.
  - split; [exact E'|]. repeat split; lra.
Qed.

(** ** fastCosSin *)
Lemma rnd_opp x : rnd (- x) = - rnd x.
Proof. apply round_NE_opp. Qed.
Lemma factor_value : factor = IZR 5734161139222659 * bpow radix2 (-55).
Proof.
  unfold factor, fdiv, fmul. rewrite M_PI_value. replace (2 * (IZR 7074237752028440 * bpow radix2 (-51))) with (IZR 7074237752028440 * bpow radix2 (-50)) by (cbn; lra).
  rewrite (rnd_id (_ * _)) by (apply format_scaled; lia). apply rnd_near; [lia| |]; cbn; [rewrite Rabs_right by lra; lra|apply Rabs_def1; lra].
Qed.
Lemma factor_near : Rabs (2 * PI * factor - 1) <= 2 * U /\ 159 / 1000 < factor < 16 / 100.
Proof. rewrite factor_value. pose proof PI_digits. unfold U. split; [apply Rabs_le|]; cbn; lra. Qed.
Lemma scaled_error x : Rabs (2 * PI * rnd (x * factor) - x) <= 4 * U * Rabs x + 7 * (U * U) /\ Rabs (rnd (x * factor)) <= 17 / 100 * Rabs x + U * U.
Proof.
  destruct factor_near as [F1 F2]. pose proof PI_bounds as HP. pose proof (rnd_err (x * factor)) as R. set (xn := rnd _) in *. clearbody xn. rewrite Rabs_mult, (Rabs_right factor) in R by lra.
  pose proof (Rabs_pos x) as A0. pose proof U_pos as HU. assert (UA : 0 <= U * Rabs x) by (apply Rmult_le_pos; lra). split.
  - replace (2 * PI * xn - x) with (2 * PI * (xn - x * factor) + x * (2 * PI * factor - 1)) by ring. eapply Rle_trans; [apply Rabs_triang|]. rewrite !Rabs_mult.
    rewrite (Rabs_right 2), (Rabs_right PI) by lra. assert (T1 : 2 * PI * Rabs (xn - x * factor) <= 7 * (U * (Rabs x * factor) + U * U)) by (apply Rmult_le_compat; [lra|apply Rabs_pos|lra|exact R]).
    assert (T2 : Rabs x * Rabs (2 * PI * factor - 1) <= Rabs x * (2 * U)) by (apply Rmult_le_compat_l; auto).
    assert (T3 : U * (Rabs x * factor) <= U * (Rabs x * (16 / 100))) by (apply Rmult_le_compat_l; [lra|]; apply Rmult_le_compat_l; lra). lra.
  - replace xn with ((xn - x * factor) + x * factor) by ring. eapply Rle_trans; [apply Rabs_triang|]. rewrite Rabs_mult, (Rabs_right factor) by lra.
    assert (T3 : Rabs x * factor <= Rabs x * (16 / 100)) by (apply Rmult_le_compat_l; lra). assert (T4 : U * (Rabs x * factor) <= U * (Rabs x * (16 / 100))) by (apply Rmult_le_compat_l; [lra|]; lra).
    assert (U * Rabs x <= 1 / 100 * Rabs x) by (apply Rmult_le_compat_r; lra). lra.
Qed.
(** The double version of [wave]. *)
Definition fwave (t : R) : R :=
  let y := fmul t (fmul 16 (fsub (1 / 2) (Rabs t))) in fadd y (fmul (fmul (rnd (225 / 1000)) y) (fsub (Rabs y) 1)).
Lemma fwave_opp t : fwave (- t) = - fwave t.
Proof.
  unfold fwave. cbv zeta. rewrite Rabs_Ropp. set (b := fmul 16 _). unfold fmul, fadd. replace (- t * b) with (- (t * b)) by ring. rewrite !rnd_opp, Rabs_Ropp.
  set (y := rnd (t * b)). replace (rnd (225 / 1000) * - y) with (- (rnd (225 / 1000) * y)) by ring. rewrite rnd_opp. set (z := rnd (_ * y)). set (w := fsub _ _).
  replace (- z * w) with (- (z * w)) by ring. rewrite rnd_opp. replace (- y + - rnd (z * w)) with (- (y + rnd (z * w))) by ring. apply rnd_opp.
Qed.
Lemma fastCosSin_fwave x : let xn := rnd (x * factor) in
  fastCosSin x = (- fwave (fsub xn (fadd (1 / 4) (ffloor (fadd xn (1 / 4))))), fwave (fsub xn (ffloor (fadd xn (1 / 2))))).
Proof.
  unfold fastCosSin. cbv zeta. fold (fmul x factor). set (xn := fmul x factor). f_equal. set (c := fsub xn _). rewrite <- fwave_opp. unfold fwave. cbv zeta. rewrite Rabs_Ropp.
  assert (E : fmul c (fmul 16 (fsub (Rabs c) (1 / 2))) = fmul (- c) (fmul 16 (fsub (1 / 2) (Rabs c)))); [|rewrite E; reflexivity].
  unfold fmul, fsub. replace (Rabs c - 1 / 2) with (- (1 / 2 - Rabs c)) by ring. rewrite rnd_opp. replace (16 * - rnd (1 / 2 - Rabs c)) with (- (16 * rnd (1 / 2 - Rabs c))) by ring.
  rewrite rnd_opp. f_equal. ring.
Qed.
Lemma fwave_close t : Rabs t <= 51 / 100 -> err (32 * U) (fwave t) (wave t).
Proof.
  intros T. unfold fwave, wave. cbv zeta. pose proof (Rabs_pos t) as T0.
  assert (A1 : err U (fsub (1 / 2) (Rabs t)) (1 / 2 - Rabs t)) by (apply (err_sub 0 0 _ _ _ _ (51 / 100)); [apply err_refl; lra|apply err_refl; lra|apply Rabs_le; lra|num]).
  assert (A2 : err (26 * U) (fmul 16 (fsub (1 / 2) (Rabs t))) (16 * (1 / 2 - Rabs t))) by (apply (err_mul 0 U _ _ _ _ 16 (51 / 100)); [apply err_refl; lra|exact A1|apply Rabs_le; lra|apply Rabs_le; lra|num]).
  set (f2 := fmul 16 _) in *. set (v2 := 16 * _) in *. assert (V2 : - (16 / 100) <= v2 <= 8) by (unfold v2; lra). assert (Y : -1 <= t * v2 <= 1).
  { unfold v2. apply abs_le_inv. destruct (Rle_dec 0 t) as [S|S].
    - rewrite (Rabs_right t) in * by lra. apply Rabs_le. pose proof (Rle_0_sqr (4 * t - 1)) as Q. unfold Rsqr in Q. split; [nra|lra].
    - rewrite (Rabs_left t) in * by lra. apply Rabs_le. pose proof (Rle_0_sqr (4 * t + 1)) as Q. unfold Rsqr in Q. split; [lra|nra]. }
  assert (A3 : err (18 * U) (fmul t f2) (t * v2)).
  { apply (err_mul 0 (26 * U) _ _ _ _ (51 / 100) 8); [apply err_refl; lra|exact A2|exact T|apply Rabs_le; lra|num]. }
  clearbody f2 v2. set (fy := fmul t f2) in *. set (y := t * v2) in *. clearbody fy y. pose proof (Rabs_pos y) as Y0. assert (Y1 : Rabs y <= 1) by (apply Rabs_le; lra).
  assert (B1 : err (6 * U) (fmul (rnd (225 / 1000)) fy) (225 / 1000 * y)).
  { apply (err_mul (U / 4) (18 * U) _ _ _ _ (225 / 1000) 1); [apply (err_const _ (225 / 1000)); [apply Rabs_le; lra|num]|exact A3|apply Rabs_le; lra|exact Y1|num]. }
  assert (B2 : err (20 * U) (fsub (Rabs fy) 1) (Rabs y - 1)).
  { apply (err_sub (18 * U) 0 _ _ _ _ 1); [apply err_abs, A3|apply err_refl; lra|apply Rabs_le; lra|num]. }
  assert (B3 : err (12 * U) (fmul (fmul (rnd (225 / 1000)) fy) (fsub (Rabs fy) 1)) (225 / 1000 * y * (Rabs y - 1))).
  { apply (err_mul (6 * U) (20 * U) _ _ _ _ (225 / 1000) 1); [exact B1|exact B2|apply Rabs_le; lra|apply Rabs_le; lra|num]. }
  apply (err_add (18 * U) (12 * U) _ _ _ _ (13 / 10)); [exact A3|exact B3| |num].
  eapply Rle_trans; [apply Rabs_triang|]. rewrite !Rabs_mult, (Rabs_right (225 / 1000)) by lra. assert (Rabs (Rabs y - 1) <= 1) by (apply Rabs_le; lra).
  assert (225 / 1000 * Rabs y * Rabs (Rabs y - 1) <= 225 / 1000 * 1); [|lra]. rewrite Rmult_assoc. apply Rmult_le_compat_l; [lra|]. pose proof (Rabs_pos (Rabs y - 1)). nra.
Qed.
Lemma wave_sin t D : 0 <= D <= 1 / 100 -> Rabs t <= 1 / 2 + D -> Rabs (wave t - sin (2 * PI * t)) <= 12 / 10000 + 17 * D.
Proof.
  intros HD. pose proof PI_bounds as HP. assert (P : forall t, 0 <= t <= 1 / 2 + D -> Rabs (wave t - sin (2 * PI * t)) <= 12 / 10000 + 17 * D).
  { clear t. intros t T. destruct (Rle_dec t (1 / 2)) as [L|L]; [pose proof (wave_error t ltac:(lra)); lra|].
    pose proof (sin_lip (2 * PI * t) PI) as S. rewrite sin_PI, Rminus_0_r in S. rewrite (Rabs_right (2 * PI * t - PI)) in S by nra.
    assert (S2 : 2 * PI * t - PI <= 7 * D) by nra.
    assert (Y : - (9 * D) <= t * (16 * (1 / 2 - t)) <= 0) by (split; nra). unfold wave. rewrite (Rabs_right t) by lra. cbv zeta. set (y := t * _) in *. clearbody y. rewrite (Rabs_left1 y) by lra.
    assert (W : - (9 * D) <= y + 225 / 1000 * y * (- y - 1) <= 0) by nra. apply abs_le_inv in S. apply Rabs_le. lra. }
  intros T. apply abs_le_inv in T. destruct (Rle_dec 0 t); [apply P; lra|]. specialize (P (- t) ltac:(lra)). rewrite wave_opp in P. replace (2 * PI * - t) with (- (2 * PI * t)) in P by ring. rewrite sin_neg in P.
  rewrite <- Rabs_Ropp. replace (- (wave t - sin (2 * PI * t))) with (- wave t - - sin (2 * PI * t)) by ring. exact P.
Qed.
Lemma sin_int v (k : Z) : sin (2 * PI * (v - IZR k)) = sin (2 * PI * v).
Proof. rewrite <- !Rtrigo1.cos_shift. rewrite <- (FunctionsProofs.cos_shift (PI / 2 - 2 * PI * v) k). f_equal. ring. Qed.
Lemma phase t v n D1 D2 : 0 <= D2 <= 1 / 100 -> Rabs t <= 1 / 2 + D2 -> Rabs (t - (v - IZR n)) <= D1 ->
  Rabs (fwave t - sin (2 * PI * v)) <= 12 / 10000 + 32 * U + 17 * D2 + 7 * D1.
Proof.
  intros H2 HT H1. pose proof PI_bounds as HP. pose proof (fwave_close t ltac:(lra)) as F. unfold err in F. pose proof (wave_sin t D2 H2 HT) as W. rewrite <- (sin_int v n).
  pose proof (sin_lip (2 * PI * t) (2 * PI * (v - IZR n))) as S. replace (2 * PI * t - 2 * PI * (v - IZR n)) with (2 * PI * (t - (v - IZR n))) in S by ring.
  rewrite Rabs_mult, (Rabs_right (2 * PI)) in S by lra. assert (S2 : 2 * PI * Rabs (t - (v - IZR n)) <= 7 * D1) by (apply Rmult_le_compat; [lra|apply Rabs_pos|lra|exact H1]).
  apply abs_le_inv in F, W, S. apply Rabs_le. lra.
Qed.
(** The reduction to one turn. *)
Lemma sine_phase xn : U * Rabs xn <= 1 / 10 -> let t := fsub xn (ffloor (fadd xn (1 / 2))) in exists n : Z, Rabs (t - (xn - IZR n)) <= 2 * U /\ Rabs t <= 1 / 2 + (U * Rabs xn + 2 * U).
Proof.
  intros B t. pose proof U_pos as HU. assert (UU : 0 <= U * U <= U / 1000000) by nra. assert (UX : 0 <= U * Rabs xn) by (apply Rmult_le_pos; [lra|apply Rabs_pos]).
  unfold t, fsub, ffloor, fadd. clear t. pose proof (rnd_err (xn + 1 / 2)) as R. set (f := rnd (xn + 1 / 2)) in *. set (n := Zfloor f). exists n.
  assert (N1 : IZR n <= f) by apply Zfloor_lb. assert (N2 : f < IZR n + 1) by apply Zfloor_ub. clearbody n f.
  assert (T : U * Rabs (xn + 1 / 2) <= U * (Rabs xn + 1 / 2)). { apply Rmult_le_compat_l; [lra|]. eapply Rle_trans; [apply Rabs_triang|]. rewrite (Rabs_right (1 / 2)) by lra. lra. }
  apply abs_le_inv in R. assert (D : Rabs (xn - IZR n) <= 1 / 2 + (U * Rabs xn + U)) by (apply Rabs_le; lra). pose proof (rnd_err (xn - IZR n)) as R2.
  assert (T2 : U * Rabs (xn - IZR n) <= U * 1) by (apply Rmult_le_compat_l; lra). split; [lra|]. apply abs_le_inv in R2, D. apply Rabs_le. 
  assert (T3 : U * Rabs (xn - IZR n) <= U * (7 / 10)) by (apply Rmult_le_compat_l; [lra|apply Rabs_le; lra]). lra.
Qed.
Lemma cosine_phase xn : U * Rabs xn <= 45 / 1000 -> let t := fsub xn (fadd (1 / 4) (ffloor (fadd xn (1 / 4)))) in
  exists n : Z, Rabs (t - (xn - 1 / 4 - IZR n)) <= U * Rabs xn + 5 * U /\ Rabs t <= 1 / 2 + (2 * (U * Rabs xn) + 6 * U).
Proof.
  intros B t. pose proof U_pos as HU. assert (UU : 0 <= U * U <= U / 1000000) by nra. assert (UX : 0 <= U * Rabs xn) by (apply Rmult_le_pos; [lra|apply Rabs_pos]).
  unfold t, fsub, ffloor, fadd. clear t. pose proof (rnd_err (xn + 1 / 4)) as R. set (f := rnd (xn + 1 / 4)) in *. set (n := Zfloor f). exists n.
  assert (N1 : IZR n <= f) by apply Zfloor_lb. assert (N2 : f < IZR n + 1) by apply Zfloor_ub. clearbody n f.
  assert (T : U * Rabs (xn + 1 / 4) <= U * (Rabs xn + 1 / 4)). { apply Rmult_le_compat_l; [lra|]. eapply Rle_trans; [apply Rabs_triang|]. rewrite (Rabs_right (1 / 4)) by lra. lra. }
  apply abs_le_inv in R. assert (D : Rabs (xn - 1 / 4 - IZR n) <= 1 / 2 + (U * Rabs xn + U)) by (apply Rabs_le; lra).
  pose proof (rnd_err (1 / 4 + IZR n)) as R1. set (g := rnd (1 / 4 + IZR n)) in *. assert (NB : Rabs (1 / 4 + IZR n) <= Rabs xn + 1).
  { replace (1 / 4 + IZR n) with (xn + - (xn - 1 / 4 - IZR n)) by ring. eapply Rle_trans; [apply Rabs_triang|]. rewrite Rabs_Ropp. lra. }
  assert (T1 : U * Rabs (1 / 4 + IZR n) <= U * (Rabs xn + 1)) by (apply Rmult_le_compat_l; lra). clearbody g. apply abs_le_inv in R1, D.
  assert (G : Rabs (xn - g) <= 1) by (apply Rabs_le; lra). pose proof (rnd_err (xn - g)) as R2. assert (T2 : U * Rabs (xn - g) <= U * 1) by (apply Rmult_le_compat_l; lra). apply abs_le_inv in R2.
  split; apply Rabs_le; lra.
Qed.
Lemma fastCosSin_double x : Rabs x <= 2 ^ 47 ->
  let (c, s) := fastCosSin x in Rabs (c - cos x) <= 12 / 10000 + 16 * U * (Rabs x + 16) /\ Rabs (s - sin x) <= 12 / 10000 + 16 * U * (Rabs x + 16).
Proof.
  intros B. pose proof (fastCosSin_fwave x) as E. cbv zeta in E. rewrite E. clear E. destruct (scaled_error x) as [S1 S2]. set (xn := rnd (x * factor)) in *. clearbody xn.
  pose proof U_pos as HU. assert (UU : 0 <= U * U <= U / 1000000) by nra. pose proof (Rabs_pos x) as X0.
  assert (UX : 0 <= U * Rabs x <= 1 / 64) by (split; [apply Rmult_le_pos; lra|]; apply Rle_trans with (U * 2 ^ 47); [apply Rmult_le_compat_l; lra|num]).
  assert (UN : U * Rabs xn <= 17 / 100 * (U * Rabs x) + U) by (apply Rle_trans with (U * (17 / 100 * Rabs x + U * U)); [apply Rmult_le_compat_l; lra|nra]).
  assert (UN0 : 0 <= U * Rabs xn) by (apply Rmult_le_pos; [lra|apply Rabs_pos]). assert (US : U < 1 / 1000000) by lra.
  split.
  - destruct (cosine_phase xn ltac:(lra)) as (n & P1 & P2). set (t := fsub xn _) in *. clearbody t. assert (Q : 0 <= 2 * (U * Rabs xn) + 6 * U <= 1 / 100) by lra. pose proof (phase t (xn - 1 / 4) n _ _ Q P2 P1) as H.
    replace (2 * PI * (xn - 1 / 4)) with (- (PI / 2 - 2 * PI * xn)) in H by field. rewrite sin_neg, sin_shift in H.
    pose proof (sin_lip (PI / 2 - 2 * PI * xn) (PI / 2 - x)) as L. rewrite !sin_shift in L. replace (PI / 2 - 2 * PI * xn - (PI / 2 - x)) with (- (2 * PI * xn - x)) in L by ring. rewrite Rabs_Ropp in L.
    apply abs_le_inv in H, L. apply Rabs_le. lra.
  - destruct (sine_phase xn ltac:(lra)) as (n & P1 & P2). set (t := fsub xn _) in *. clearbody t. assert (Q : 0 <= U * Rabs xn + 2 * U <= 1 / 100) by lra. pose proof (phase t xn n _ _ Q P2 P1) as H.
    pose proof (sin_lip (2 * PI * xn) x) as L. apply abs_le_inv in H, L. apply Rabs_le. lra.
Qed.
(** ** The range of fastCosSin *)
Lemma format_16 x : generic_format radix2 fexp x -> generic_format radix2 fexp (16 * x).
Proof.
  intros F. apply FLT_format_generic in F; [|reflexivity]. destruct F as [[m e] E M X]. cbn in M, X. unfold F2R in E. cbn in E. rewrite E.
  replace (16 * (IZR m * bpow radix2 e)) with (IZR m * bpow radix2 (e + 4)) by (rewrite bpow_plus; cbn; ring). apply format_scaled; lia.
Qed.
Lemma rnd_pos x : 0 <= x -> 0 <= rnd x. Proof. intros H. rewrite <- rnd_0. now apply rnd_le. Qed.
Lemma rnd_neg x : x <= 0 -> rnd x <= 0. Proof. intros H. rewrite <- rnd_0. now apply rnd_le. Qed.
Lemma rnd_upper x y : generic_format radix2 fexp y -> x <= y -> rnd x <= y. Proof. intros F H. rewrite <- (rnd_id y F). now apply rnd_le. Qed.
Lemma rnd_lower x y : generic_format radix2 fexp y -> y <= x -> y <= rnd x. Proof. intros F H. rewrite <- (rnd_id y F). now apply rnd_le. Qed.
Lemma format_1 : generic_format radix2 fexp 1. Proof. apply (format_int 1). lia. Qed.
Lemma format_m1 : generic_format radix2 fexp (-1). Proof. apply (format_int (-1)). lia. Qed.
Lemma format_half : generic_format radix2 fexp (1 / 2).
Proof. replace (1 / 2) with (IZR 1 * bpow radix2 (-1)) by (cbn; lra). apply format_scaled; lia. Qed.
Lemma rnd_near_1 z : z < 1 + U -> rnd z <= 1.
Proof.
  intros H. destruct (Rle_dec z 1) as [L|L]; [apply rnd_upper; [apply format_1|exact L]|].
  rewrite (rnd_near z (2 ^ 52) (-52)); [cbn; lra|lia| |]; unfold U in H; cbn; [rewrite Rabs_right by lra; lra|apply Rabs_def1; lra].
Qed.
Lemma parabola_range t : generic_format radix2 fexp t -> 0 <= t <= 6 / 10 -> -1 <= fmul t (fmul 16 (fsub (1 / 2) t)) <= 1.
Proof.
  intros F T. unfold fmul, fsub. rewrite (rnd_id (16 * _)) by (apply format_16, rnd_format). destruct (Rle_dec (1 / 4) t) as [L|L].
  - rewrite (rnd_id (1 / 2 - t)).
    + pose proof (Rle_0_sqr (4 * t - 1)) as Q. unfold Rsqr in Q. split; [apply rnd_lower; [apply format_m1|nra]|apply rnd_upper; [apply format_1|lra]].
    + apply sterbenz; [exact fexp_valid|unfold fexp; apply FLT_exp_monotone|apply format_half|exact F|lra].
  - pose proof (rnd_half (-1) (1 / 2 - t) ltac:(lia)) as H. change (bpow radix2 (-1)) with (/ 2) in H. specialize (H ltac:(apply Rabs_le; lra)).
    replace (bpow radix2 (-1 - 54)) with (U / 4) in H by (unfold U; cbn; lra). assert (B : 0 <= rnd (1 / 2 - t)) by (apply rnd_pos; lra). set (b := rnd _) in *. clearbody b. apply abs_le_inv in H. pose proof U_pos as HU.
    split.
    + apply Rle_trans with 0; [lra|]. apply rnd_pos. apply Rmult_le_pos; lra.
    + apply rnd_near_1. pose proof (Rle_0_sqr (4 * t - 1)) as Q. unfold Rsqr in Q.
      assert (t * b <= t * (1 / 2 - t + U / 4)) by (apply Rmult_le_compat_l; lra). assert (t * U < 1 / 4 * U) by (apply Rmult_lt_compat_r; lra). lra.
Qed.
Lemma correction_range y : generic_format radix2 fexp y -> -1 <= y <= 1 -> -1 <= fadd y (fmul (fmul (rnd (225 / 1000)) y) (fsub (Rabs y) 1)) <= 1.
Proof.
  intros F Y. unfold fadd, fmul, fsub. assert (Q : 0 <= rnd (225 / 1000) <= 1) by (split; [apply rnd_pos; lra|apply rnd_upper; [apply format_1|lra]]). set (q := rnd (225 / 1000)) in *. clearbody q.
  assert (W : -1 <= rnd (Rabs y - 1) <= 0). { pose proof (Rabs_pos y). assert (Rabs y <= 1) by (apply Rabs_le; lra). split; [apply rnd_lower; [apply format_m1|lra]|apply rnd_neg; lra]. }
  set (w := rnd (Rabs y - 1)) in *. clearbody w. destruct (Rle_dec 0 y) as [P|P].
  - assert (Z : 0 <= rnd (q * y) <= y) by (split; [apply rnd_pos; nra|apply rnd_upper; [exact F|nra]]). set (z := rnd (q * y)) in *. clearbody z.
    assert (V : - y <= rnd (z * w) <= 0) by (split; [apply rnd_lower; [apply generic_format_opp, F|nra]|apply rnd_neg; nra]). set (v := rnd (z * w)) in *. clearbody v.
    split; [apply rnd_lower; [apply format_m1|lra]|apply rnd_upper; [apply format_1|lra]].
  - assert (Z : y <= rnd (q * y) <= 0) by (split; [apply rnd_lower; [exact F|nra]|apply rnd_neg; nra]). set (z := rnd (q * y)) in *. clearbody z.
    assert (V : 0 <= rnd (z * w) <= - y) by (split; [apply rnd_pos; nra|apply rnd_upper; [apply generic_format_opp, F|nra]]). set (v := rnd (z * w)) in *. clearbody v.
    split; [apply rnd_lower; [apply format_m1|lra]|apply rnd_upper; [apply format_1|lra]].
Qed.
Lemma fwave_range t : generic_format radix2 fexp t -> Rabs t <= 6 / 10 -> -1 <= fwave t <= 1.
Proof.
  intros F T. assert (P : forall t, generic_format radix2 fexp t -> 0 <= t <= 6 / 10 -> -1 <= fwave t <= 1).
  { clear. intros t F T. unfold fwave. cbv zeta. rewrite (Rabs_right t) by lra. apply correction_range; [apply rnd_format|]. now apply parabola_range. }
  apply abs_le_inv in T. destruct (Rle_dec 0 t); [apply P; [exact F|lra]|]. specialize (P (- t) ltac:(apply generic_format_opp, F) ltac:(lra)). rewrite fwave_opp in P. lra.
Qed.
Lemma fastCosSin_bounded x : Rabs x <= 2 ^ 51 -> let (c, s) := fastCosSin x in -1 <= c <= 1 /\ -1 <= s <= 1.
Proof.
  intros B. pose proof (fastCosSin_fwave x) as E. cbv zeta in E. rewrite E. clear E. destruct (scaled_error x) as [_ S2]. set (xn := rnd (x * factor)) in *. clearbody xn.
  pose proof U_pos as HU. pose proof (Rabs_pos x) as X0. assert (UU : 0 <= U * U <= U / 1000000) by nra.
  assert (UX : 0 <= U * Rabs x <= 1 / 4) by (split; [apply Rmult_le_pos; lra|]; apply Rle_trans with (U * 2 ^ 51); [apply Rmult_le_compat_l; lra|num]).
  assert (UN : U * Rabs xn <= 17 / 100 * (U * Rabs x) + U) by (apply Rle_trans with (U * (17 / 100 * Rabs x + U * U)); [apply Rmult_le_compat_l; lra|assert (U * (U * U) <= U * 1) by (apply Rmult_le_compat_l; lra); lra]).
  split.
  - destruct (cosine_phase xn ltac:(lra)) as (n & _ & P2). pose proof (fwave_range (fsub xn (fadd (1 / 4) (ffloor (fadd xn (1 / 4)))))) as H. specialize (H ltac:(apply rnd_format) ltac:(lra)). lra.
  - destruct (sine_phase xn ltac:(lra)) as (n & _ & P2). apply fwave_range; [apply rnd_format|lra].
Qed.
(** Far from the origin the sine is not even bounded by 1: half an odd integer is rounded up to the next integer. *)
Lemma rnd_tie n : (4503599627370496 <= n < 9007199254740991)%Z -> Z.odd n = true -> rnd (IZR n + 1 / 2) = IZR (n + 1).
Proof.
  intros B O. unfold rnd, round, F2R, scaled_mantissa. cbn [Fnum Fexp]. assert (B1 : 4503599627370496 <= IZR n) by (apply IZR_le; lia). assert (B2 : IZR n + 1 <= 9007199254740991) by (rewrite <- plus_IZR; apply IZR_le; lia).
  assert (M : mag radix2 (IZR n + 1 / 2) = 53%Z :> Z). { apply mag_unique. rewrite Rabs_right by lra. cbn. lra. }
  assert (C : cexp radix2 (FLT_exp (-1074) 53) (IZR n + 1 / 2) = 0%Z) by (unfold cexp, FLT_exp; rewrite M; reflexivity). rewrite C. cbn [Z.opp bpow]. rewrite !Rmult_1_r. f_equal.
  unfold Znearest. rewrite (Zfloor_imp n) by (rewrite plus_IZR; lra). rewrite Rcompare_Eq by lra. rewrite <- Z.negb_odd, O. cbn [negb].
  apply Zceil_imp. replace (n + 1 - 1)%Z with n by lia. rewrite plus_IZR. lra.
Qed.
Definition far : R := IZR 4598254538818486 * bpow radix2 3.
Lemma fastCosSin_far : is_double far /\ 20 < snd (fastCosSin far).
Proof.
  split; [apply double_scaled; lia|]. pose proof (fastCosSin_fwave far) as E. cbv zeta in E. rewrite E. clear E. cbn [snd].
  assert (N : rnd (far * factor) = IZR 5854679515581645).
  { rewrite factor_value. rewrite (rnd_near _ 5854679515581645 0); [cbn; ring|lia| |]; unfold far; cbn; [rewrite Rabs_right by lra; lra|apply Rabs_def1; lra]. }
  rewrite N. unfold fsub at 1, ffloor, fadd at 1. rewrite rnd_tie by (try reflexivity; lia). rewrite Zfloor_IZR. replace (IZR 5854679515581645 - IZR (5854679515581645 + 1)) with (-1) by (cbn; lra).
  rewrite (rnd_id (-1)) by apply format_m1.
  assert (Y : fmul (-1) (fmul 16 (fsub (1 / 2) (Rabs (-1)))) = 8).
  { rewrite (Rabs_left (-1)) by lra. unfold fmul, fsub. replace (1 / 2 - - (-1)) with (IZR (-1) * bpow radix2 (-1)) by (cbn; lra).
    rewrite (rnd_id (_ * bpow radix2 _)) by (apply format_scaled; lia). replace (16 * (IZR (-1) * bpow radix2 (-1))) with (IZR (-8)) by (cbn; lra). rewrite (rnd_id (IZR (-8))) by (apply format_int; lia).
    replace (-1 * IZR (-8)) with (IZR 8) by lra. apply rnd_id, format_int. lia. }
  unfold fwave. cbv zeta. rewrite Y. rewrite (Rabs_right 8) by lra. assert (W : fsub 8 1 = 7) by (unfold fsub; replace (8 - 1) with (IZR 7) by lra; apply rnd_id, format_int; lia). rewrite W.
  assert (H1 : err (8 * U) (fmul (rnd (225 / 1000)) 8) (225 / 1000 * 8)).
  { apply (err_mul (U / 2) 0 _ _ _ _ (1 / 4) 8); [apply (err_const _ (1 / 4)); [apply Rabs_le; lra|num]|apply err_refl; lra|apply Rabs_le; lra|apply Rabs_le; lra|num]. }
  assert (H2 : err (80 * U) (fmul (fmul (rnd (225 / 1000)) 8) 7) (225 / 1000 * 8 * 7)).
  { apply (err_mul (8 * U) 0 _ _ _ _ 2 7); [exact H1|apply err_refl; lra|apply Rabs_le; lra|apply Rabs_le; lra|num]. }
  pose proof (err_add 0 (80 * U) 8 8 _ _ 21 (200 * U) ltac:(apply err_refl; lra) H2 ltac:(apply Rabs_le; lra) ltac:(num)) as H. unfold err in H. apply abs_le_inv in H. unfold U in H. lra.
Qed.
(** ** The reduction against the periods themselves *)
Lemma U_pow : U = / 2 ^ 53. Proof. unfold U. f_equal. lra. Qed.
Lemma nearly_shift d p p' e x y : 3 <= p <= 7 -> 0 <= d -> Rabs (p - p') <= e -> 0 <= e <= 1 -> nearly_reduced d p x y ->
  nearly_reduced (d + e + (Rabs x + 7 + 2 * d) / 3 * e) p' x y.
Proof.
  intros HP HD HE HE' [R [k K]]. pose proof (Rabs_pos x) as X0. assert (C : 0 <= (Rabs x + 7 + 2 * d) / 3 * e) by (apply Rmult_le_pos; lra).
  apply abs_le_inv in HE. split; [lra|]. exists k. assert (B : Rabs (IZR k) <= (Rabs x + 7 + 2 * d) / 3).
  { assert (KP : Rabs (IZR k * p) <= Rabs x + 7 + 2 * d).
    { replace (IZR k * p) with (x + - (x - (y + IZR k * p)) + - y) by ring. eapply Rle_trans; [apply Rabs_triang|]. eapply Rle_trans; [apply Rplus_le_compat_r, Rabs_triang|]. rewrite !Rabs_Ropp.
      assert (Rabs y <= p + d) by (apply Rabs_le; lra). lra. }
    rewrite Rabs_mult, (Rabs_right p) in KP by lra. assert (Rabs (IZR k) * 3 <= Rabs (IZR k) * p) by (apply Rmult_le_compat_l; [apply Rabs_pos|lra]). lra. }
  replace (x - (y + IZR k * p')) with (x - (y + IZR k * p) + IZR k * (p - p')) by ring. eapply Rle_trans; [apply Rabs_triang|]. rewrite (Rabs_mult (IZR k)).
  assert (Rabs (IZR k) * Rabs (p - p') <= (Rabs x + 7 + 2 * d) / 3 * e) by (apply Rmult_le_compat; auto using Rabs_pos; apply Rabs_le; lra). lra.
Qed.
Lemma nearly_weaken d d' p x y : d <= d' -> nearly_reduced d p x y -> nearly_reduced d' p x y.
Proof. intros H [R [k K]]. split; [lra|]. exists k. lra. Qed.
Lemma bound_shift x : 3 * U * (Rabs x + 8) + 4 * U + (Rabs x + 7 + 2 * (3 * U * (Rabs x + 8))) / 3 * (4 * U) <= 5 * (Rabs x + 8) / 2 ^ 53.
Proof.
  unfold Rdiv at 2. rewrite <- U_pow. pose proof U_pos as HU. pose proof (Rabs_pos x) as X0. set (a := Rabs x) in *. clearbody a. assert (0 <= U * a) by (apply Rmult_le_pos; lra).
  assert (U * (U * a) <= 1 / 1000 * (U * a)) by (apply Rmult_le_compat_r; lra). assert (U * U <= U * (1 / 1000)) by (apply Rmult_le_compat_l; lra). lra.
Qed.
Lemma normalize360_error x : nearly_reduced (5 * (Rabs x + 8) / 2 ^ 53) (628318530718 / 100000000000) x (normalize360 x).
Proof.
  pose proof K_range as K. pose proof U_pos as HU. pose proof (Rabs_pos x) as X0. eapply nearly_weaken; [apply bound_shift|].
  apply (nearly_shift _ K_2PI); [lra|apply Rmult_le_pos; lra| |lra|apply (reduce_error K_2PI); lra]. rewrite K_2PI_value. unfold U. apply Rabs_le. cbn. lra.
Qed.
Lemma normalize180_error x : nearly_reduced (5 * (Rabs x + 8) / 2 ^ 53) PI x (normalize180 x).
Proof.
  destruct M_PI_near as [M K]. pose proof U_pos as HU. pose proof (Rabs_pos x) as X0. eapply nearly_weaken; [apply bound_shift|].
  apply (nearly_shift _ M_PI); [lra|apply Rmult_le_pos; lra| |lra|apply (reduce_error M_PI); lra]. lra.
Qed.
Lemma fastCosSin_double_pow x : Rabs x <= 2 ^ 47 ->
  let (c, s) := fastCosSin x in Rabs (c - cos x) <= 12 / 10000 + (Rabs x + 16) / 2 ^ 49 /\ Rabs (s - sin x) <= 12 / 10000 + (Rabs x + 16) / 2 ^ 49.
Proof.
  intros H. pose proof (fastCosSin_double x H) as L. destruct (fastCosSin x) as [c s]. replace (16 * U * (Rabs x + 16)) with ((Rabs x + 16) / 2 ^ 49) in L; [exact L|]. unfold U. cbn. lra.
Qed.
Lemma fastAtan2_double_polar x y : x <> 0 \/ y <> 0 -> exists p, - PI < p <= PI /\ x = sqrt (x * x + y * y) * cos p /\ y = sqrt (x * x + y * y) * sin p /\ Rabs (fastAtan2 x y - p) <= 16 / 1000000.
Proof.
  intros N. exists (atan2 y x). destruct (polar x y). split; [apply atan2_range|]. split; [auto|]. split; [auto|]. now apply fastAtan2_double.
Qed.
Lemma fastAtan2_double_sign x y : x <> 0 \/ y <> 0 -> - M_PI <= fastAtan2 x y <= M_PI /\ (0 <= y -> 0 <= fastAtan2 x y) /\ (y < 0 -> fastAtan2 x y <= 0).
Proof. intros N. now apply fastAtan2_double. Qed.
(** ** Statements *)
Lemma range_refuted : exists x y z w, (is_double x /\ normalize360 x < 0) /\ (is_double y /\ normalize360 y = K_2PI) /\ (is_double z /\ normalize180 z < 0) /\ (is_double w /\ normalize180 w = M_PI).
Proof.
  destruct range360_bad as (x & y & X & Y & A & B). destruct range180_bad as (z & w & Z & W & C & D). exists x, y, z, w. auto.
Qed.
Lemma twice_refuted : exists x, is_double x /\ normalize360 (normalize360 x) <> normalize360 x.
Proof.
  destruct range360_bad as (x & y & X & Y & A & B). exists y. split; [exact Y|]. rewrite B. change (normalize360 K_2PI) with (reduce K_2PI K_2PI). pose proof K_range. rewrite reduce_self; [lra|apply format_K|lra].
Qed.
Lemma range_partial x : - (5 * (Rabs x + 8) / 2 ^ 53) <= normalize360 x <= 628318530718 / 100000000000 + 5 * (Rabs x + 8) / 2 ^ 53 /\
  - (5 * (Rabs x + 8) / 2 ^ 53) <= normalize180 x <= PI + 5 * (Rabs x + 8) / 2 ^ 53.
Proof. split; [apply normalize360_error|apply normalize180_error]. Qed.
