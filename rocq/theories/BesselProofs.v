(** * The polynomial of order 0 against the power series. *)
From Coq Require Import List QArith Qabs Qreals Reals Lra Lia Bool Arith.
From Verif Require Import Base FunctionsModel PolyBound PiBounds FastTrigProofs FastSinProofs PnebiModel PnebiSpec PnebiProofs.
Import ListNotations.
Open Scope R_scope.

Definition bterm (q : R) (m : nat) : R := q ^ m / (INR (fact m) * INR (fact m)).
Lemma fact_pos m : 0 < INR (fact m).
Proof. apply lt_0_INR. apply lt_O_fact. Qed.
Lemma bterm_pos q m : 0 <= q -> 0 <= bterm q m.
Proof. intros H. unfold bterm. pose proof (fact_pos m). apply Rmult_le_pos; [now apply pow_le|]. left. apply Rinv_0_lt_compat. nra. Qed.
Lemma bterm_S q m : bterm q (S m) = bterm q m * (q / (INR (S m) * INR (S m))).
Proof. unfold bterm. change (fact (S m)) with (S m * fact m)%nat. rewrite mult_INR. cbn [pow]. pose proof (fact_pos m). assert (0 < INR (S m)) by (apply lt_0_INR; lia). field. lra. Qed.

Lemma limit_between s l lo hi M : Un_cv s l -> (forall n, (M <= n)%nat -> lo <= s n <= hi) -> lo <= l <= hi.
Proof.
  intros C B. split; apply Rnot_lt_le; intros H.
  - destruct (C ((lo - l) / 2) ltac:(lra)) as (N & HN). specialize (HN (Nat.max N M) ltac:(lia)). specialize (B (Nat.max N M) ltac:(lia)). unfold R_dist in HN. apply Rabs_def2 in HN. lra.
  - destruct (C ((l - hi) / 2) ltac:(lra)) as (N & HN). specialize (HN (Nat.max N M) ltac:(lia)). specialize (B (Nat.max N M) ltac:(lia)). unfold R_dist in HN. apply Rabs_def2 in HN. lra.
Qed.
Lemma tail_bound q M : 0 <= q -> q <= INR (S M) * INR (S M) / 2 -> forall n, (M <= n)%nat ->
  sum_f_R0 (bterm q) M <= sum_f_R0 (bterm q) n <= sum_f_R0 (bterm q) M + 2 * (bterm q M - bterm q n) /\ bterm q n <= bterm q M.
Proof.
  intros Hq HM. assert (D : forall n, (M <= n)%nat -> bterm q (S n) <= bterm q n / 2).
  { intros n Hn. rewrite bterm_S. pose proof (bterm_pos q n Hq). assert (INR (S M) <= INR (S n)) by (apply le_INR; lia). assert (0 < INR (S M)) by (apply lt_0_INR; lia).
    assert (q / (INR (S n) * INR (S n)) <= / 2). { apply (Rmult_le_reg_r (INR (S n) * INR (S n))); [nra|]. unfold Rdiv. rewrite Rmult_assoc, Rinv_l by nra. nra. }
    nra. }
  intros n Hn. induction Hn as [|n Hn IH]; [lra|]. cbn [sum_f_R0]. pose proof (D n Hn). pose proof (bterm_pos q (S n) Hq). lra.
Qed.
Lemma bessel_partial x s M : bessel0 x s -> x * x / 4 <= INR (S M) * INR (S M) / 2 ->
  sum_f_R0 (bterm (x * x / 4)) M <= s <= sum_f_R0 (bterm (x * x / 4)) M + 2 * bterm (x * x / 4) M.
Proof.
  intros B H. assert (Hq : 0 <= x * x / 4) by nra. apply (limit_between (sum_f_R0 (bterm (x * x / 4))) s _ _ M).
  - intros e He. apply B. exact He.
  - intros n Hn. pose proof (tail_bound _ M Hq H n Hn). pose proof (bterm_pos (x * x / 4) n Hq). lra.
Qed.
(** The series converges. *)
Lemma bessel_exists x : exists s, bessel0 x s.
Proof.
  destruct (Alembert_C3 (fun m => / (INR (fact m) * INR (fact m))) (x * x / 4)) as (s & Hs).
  - intros n. pose proof (fact_pos n). apply Rinv_neq_0_compat. nra.
  - intros e He. destruct (archimed_cor1 e He) as (N & HN & HN0). exists N. intros n Hn. unfold R_dist. rewrite Rminus_0_r, Rabs_Rabsolu.
    change (fact (S n)) with (S n * fact n)%nat. rewrite mult_INR. pose proof (fact_pos n). assert (1 <= INR (S n)) by (change 1 with (INR 1); apply le_INR; lia). assert (INR N < INR (S n)) by (apply lt_INR; lia). assert (0 < INR N) by (apply lt_0_INR; lia).
    replace (/ (INR (S n) * INR (fact n) * (INR (S n) * INR (fact n))) / / (INR (fact n) * INR (fact n))) with (/ INR (S n) * / INR (S n)) by (field; lra).
    assert (0 < / INR (S n)) by (apply Rinv_0_lt_compat; lra). assert (/ INR (S n) <= 1) by (rewrite <- Rinv_1; apply Rinv_le_contravar; lra).
    assert (/ INR (S n) < / INR N) by (apply Rinv_lt_contravar; nra). rewrite Rabs_right by nra. nra.
  - exists s. unfold Pser in Hs. intros e He. destruct (Hs e He) as (N & HN). exists N. intros n Hn. specialize (HN n Hn).
    replace (sum_f_R0 (fun m => (x * x / 4) ^ m / (INR (fact m) * INR (fact m))) n) with (sum_f_R0 (fun n0 => / (INR (fact n0) * INR (fact n0)) * (x * x / 4) ^ n0) n); [exact HN|].
    apply sum_eq. intros i _. unfold Rdiv. ring.
Qed.

(** The Taylor polynomial in z = (x / 3.75)^2. *)
Definition bco (m : nat) : Q := (upow (225 # 64) m / inject_Z (zfact m * zfact m))%Q.
Fixpoint bpoly (n : nat) : list Q := match n with O => mono 0 (bco 0) | S k => padd (bpoly k) (mono n (bco n)) end.
Lemma bco_ok z m : z ^ m * Q2R (bco m) = bterm (z * (225 / 64)) m.
Proof.
  unfold bco, bterm. pose proof (zfact_pos m) as H. rewrite Q2R_div by (unfold Qeq, inject_Z; cbn [Qnum Qden]; nia).
  rewrite upow_ok, Q2R_inject, mult_IZR, <- zfact_ok, Rpow_mult_distr. replace (Q2R (225 # 64)) with (225 / 64) by (unfold Q2R; cbn [Qnum Qden]; lra). unfold Rdiv. ring.
Qed.
Lemma bpoly_ok n z : peval (bpoly n) z = sum_f_R0 (bterm (z * (225 / 64))) n.
Proof. induction n as [|n IH]; cbn [bpoly sum_f_R0]; [rewrite mono_ok; apply (bco_ok z 0)|]. rewrite padd_ok, IH, mono_ok. f_equal. apply bco_ok. Qed.

Definition besselP : list Q := [1; 35156229 # 10000000; 30899424 # 10000000; 12067492 # 10000000; 2659732 # 10000000; 360768 # 10000000; 45813 # 10000000]%Q.
Definition bdiff : list Z := [0; -2308975; 41357958; -269222791; 840626076; -1339388908; 1032676018; -287313851; -15782622; -685010; -24083; -700; -18]%Z.
Lemma close_ok1 p : forall r t, close p r = true -> 0 <= t <= 1 -> Rabs (w40 * peval p t - zeval r t) <= 2 * INR (length r).
Proof.
  induction p as [|c p IH]; intros [|z r] t H Ht; try discriminate H; [cbn; rewrite Rmult_0_r, Rminus_0_r, Rabs_R0; lra|].
  cbn [close] in H. apply andb_true_iff in H as [H1 H2]. specialize (IH r t H2 Ht).
  pose proof (near_ok c z H1) as A. cbn [length]. rewrite S_INR, peval_cons, zeval_cons.
  replace (w40 * (Q2R c + t * peval p t) - (IZR z + t * zeval r t)) with (w40 * Q2R c - IZR z + t * (w40 * peval p t - zeval r t)) by ring.
  eapply Rle_trans; [apply Rabs_triang|]. rewrite Rabs_mult, (Rabs_right t) by lra. pose proof (Rabs_pos (w40 * peval p t - zeval r t)). nra.
Qed.
Definition blim : Z := (158 * 2 ^ 40 * 128 ^ 12 / 1000000000)%Z.
Lemma bessel_poly z : 0 <= z <= 1 -> Rabs (peval besselP z - sum_f_R0 (bterm (z * (225 / 64))) 12) <= 159 / 1000000000.
Proof.
  intros Hz. assert (C1 : close (padd besselP (popp (bpoly 12))) bdiff = true) by (vm_compute; reflexivity).
  assert (C2 : zcheck 64 (zshift (zscale 128 bdiff)) (- blim) blim = true) by (vm_compute; reflexivity).
  pose proof w40_pos as W. assert (I : INR 64 = 64) by (rewrite INR_IZR_INZ; reflexivity).
  pose proof (zcheck_ok _ _ _ _ C2 ltac:(lia) (128 * z - 1) ltac:(rewrite I; lra)) as B. rewrite zshift_ok in B. replace (128 * z - 1 + 1) with (128 * z) in B by ring.
  pose proof (zscale_ok 128 bdiff (128 * z) ltac:(lia)) as S. replace (128 * z / 128) with z in S by lra.
  pose proof (div_R (158 * 2 ^ 40 * 128 ^ 12) 1000000000 ltac:(lia)) as L. fold blim in L. rewrite (mult_IZR (158 * 2 ^ 40)), (mult_IZR 158) in L. fold w40 in L. rewrite opp_IZR in B.
  replace (IZR (128 ^ Z.of_nat (length bdiff))) with (128 * IZR (128 ^ 12)) in S by (change (128 ^ Z.of_nat (length bdiff))%Z with (128 * 128 ^ 12)%Z; now rewrite mult_IZR).
  assert (K : 0 < IZR (128 ^ 12)) by (apply IZR_lt; reflexivity). set (k := IZR (128 ^ 12)) in *. set (v := zeval bdiff z) in *.
  assert (Z1 : - (158 / 1000000000 * w40) <= v <= 158 / 1000000000 * w40) by (split; apply (Rmult_le_reg_l k); auto; lra).
  pose proof (close_ok1 _ _ _ C1 Hz) as M. apply Rabs_le_inv in M. rewrite padd_ok, popp_ok, bpoly_ok in M. fold v in M. replace (INR (length bdiff)) with 13 in M by (cbn [length bdiff INR]; lra).
  assert (W2 : 1000000000000 <= w40) by (unfold w40; apply IZR_le; discriminate). set (d := peval besselP z - _). replace (peval besselP z + - sum_f_R0 (bterm (z * (225 / 64))) 12) with d in M by (unfold d; ring).
  apply Rabs_le. split; apply (Rmult_le_reg_l w40); auto; lra.
Qed.
Lemma bterm12 q : 0 <= q <= 225 / 64 -> bterm q 12 <= 1 / 10000000000.
Proof.
  intros Hq. unfold bterm. rewrite zfact_ok. change (zfact 12) with 479001600%Z. assert (P : q ^ 12 <= (225 / 64) ^ 12) by (apply pow_incr; lra).
  unfold Rdiv at 1. apply (Rle_trans _ ((225 / 64) ^ 12 * / (479001600 * 479001600))); [apply Rmult_le_compat_r; [left; apply Rinv_0_lt_compat; lra|exact P]|]. cbn [pow]. lra.
Qed.
Lemma polynom_accuracy x s : Rabs x < 375 / 100 -> bessel0 x s -> Rabs (evaluatePnebi0Polynom x - 2 * exp (- Rabs x) * s) <= 2 * exp (- Rabs x) * (16 / 100000000).
Proof.
  intros Hx Hs. set (z := Rabs x / (375 / 100) * (Rabs x / (375 / 100))). pose proof (Rabs_pos x) as Hp. assert (Hz : 0 <= z <= 1) by (unfold z; nra).
  assert (Eq : x * x / 4 = z * (225 / 64)). { unfold z. assert (Rabs x * Rabs x = x * x) by (unfold Rabs; destruct (Rcase_abs x); ring). replace (Rabs x / (375 / 100) * (Rabs x / (375 / 100)) * (225 / 64)) with (Rabs x * Rabs x / 4) by lra. lra. }
  assert (EP : evaluatePnebi0Polynom x = 2 * exp (- Rabs x) * peval besselP z).
  { unfold evaluatePnebi0Polynom. rewrite abs_if. destruct (Rlt_dec (Rabs x / (375 / 100)) 1) as [_|N]; [|exfalso; apply N; lra]. fold z. f_equal. unfold peval, besselP, fold_right, Q2R. cbn [Qnum Qden]. field. }
  pose proof (bessel_partial x s 12 Hs) as B. rewrite Eq in B. specialize (B ltac:(replace (INR 13) with 13 by (cbn [INR]; lra); lra)).
  pose proof (bterm12 (z * (225 / 64)) ltac:(lra)) as T. pose proof (bessel_poly z Hz) as A. apply Rabs_le_inv in A. rewrite EP.
  replace (2 * exp (- Rabs x) * peval besselP z - 2 * exp (- Rabs x) * s) with (2 * exp (- Rabs x) * (peval besselP z - s)) by ring. pose proof (exp_pos (- Rabs x)) as E. rewrite Rabs_mult, (Rabs_right (2 * exp (- Rabs x))) by lra.
  apply Rmult_le_compat_l; [lra|]. apply Rabs_le. lra.
Qed.
