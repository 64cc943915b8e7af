(** * The modified Bessel function of order 0 as a function: its differential equation, and how far a function with a small
    residual can be from sqrt x exp (- x) I0 x. *)
From Coq Require Import Reals Lra Lia List ZArith.
From Coquelicot Require Import Coquelicot.
From Verif Require Import FunctionsModel PnebiModel PnebiSpec PolyBound.
Import ListNotations.
Open Scope R_scope.

Definition ba (k : nat) : R := / (INR (fact k) * INR (fact k)).
Lemma ba_pos k : 0 < ba k.
Proof. apply Rinv_0_lt_compat. apply Rmult_lt_0_compat; apply lt_0_INR, lt_O_fact. Qed.
Lemma ba_S k : ba k = ba (S k) * (INR (S k) * INR (S k)).
Proof. unfold ba. change (fact (S k)) with (S k * fact k)%nat. rewrite mult_INR. assert (0 < INR (fact k)) by apply lt_0_INR, lt_O_fact. assert (0 < INR (S k)) by (apply lt_0_INR; lia). field. lra. Qed.
Lemma ba_radius x : Rbar_lt (Rabs x) (CV_radius ba).
Proof.
  rewrite (CV_radius_infinite_DAlembert ba); [exact I| |].
  - intros n. pose proof (ba_pos n). lra.
  - apply (is_lim_seq_ext (fun n => / INR (S n) * / INR (S n))).
    + intros n. rewrite (ba_S n). pose proof (ba_pos (S n)). assert (0 < INR (S n)) by (apply lt_0_INR; lia).
      rewrite Rabs_right; [field; lra|]. apply Rle_ge. apply Rmult_le_pos; [lra|]. left. apply Rinv_0_lt_compat. apply Rmult_lt_0_compat; [lra|nra].
    + replace (Finite 0) with (Finite (0 * 0)) by (f_equal; ring). apply is_lim_seq_mult'; apply (is_lim_seq_incr_1 (fun n => / INR n)); apply (is_lim_seq_inv INR p_infty is_lim_seq_INR); easy.
Qed.
Definition F0 (q : R) : R := PSeries ba q.
Definition F1 (q : R) : R := PSeries (PS_derive ba) q.
Lemma F0_deriv q : is_derive F0 q (F1 q).
Proof. apply is_derive_PSeries, ba_radius. Qed.
Lemma F1_radius x : Rbar_lt (Rabs x) (CV_radius (PS_derive ba)).
Proof. rewrite CV_radius_derive. apply ba_radius. Qed.
Lemma F1_deriv q : is_derive F1 q (PSeries (PS_derive (PS_derive ba)) q).
Proof. apply is_derive_PSeries, F1_radius. Qed.
(** q F'' + F' = F *)
Lemma F_ode q : q * PSeries (PS_derive (PS_derive ba)) q + F1 q = F0 q.
Proof.
  unfold F1, F0. rewrite <- PSeries_incr_1. rewrite <- PSeries_plus.
  - apply PSeries_ext. intros [|n]; unfold PS_plus, PS_incr_1, PS_derive, plus; cbn -[INR].
    + unfold zero; cbn. rewrite (ba_S 0). cbn [INR]. ring.
    + rewrite (ba_S (S n)). rewrite !S_INR. ring.
  - apply ex_pseries_incr_1. apply CV_radius_inside. rewrite CV_radius_derive. apply F1_radius.
  - apply CV_radius_inside, F1_radius.
Qed.
Definition I0 (x : R) : R := F0 (x * x / 4).
Definition I1 (x : R) : R := x / 2 * F1 (x * x / 4).
Lemma I0_deriv x : is_derive I0 x (I1 x).
Proof.
  unfold I0, I1. eapply (is_derive_ext (fun t => F0 ((fun t => t * t / 4) t))); [reflexivity|].
  replace (x / 2 * F1 (x * x / 4)) with (scal (x / 2) (F1 (x * x / 4))) by reflexivity.
  apply (is_derive_comp F0 (fun t => t * t / 4) x); [apply F0_deriv|]. auto_derive; [easy|field].
Qed.
Lemma I1_deriv x : x <> 0 -> is_derive I1 x (I0 x - I1 x / x).
Proof.
  intros Hx. unfold I1. pose proof (F1_deriv (x * x / 4)) as D. pose proof (F_ode (x * x / 4)) as O.
  assert (E : is_derive (fun t => F1 (t * t / 4)) x (x / 2 * PSeries (PS_derive (PS_derive ba)) (x * x / 4))).
  { apply (is_derive_comp F1 (fun t => t * t / 4) x); [exact D|]. auto_derive; [easy|field]. }
  replace (I0 x - x / 2 * F1 (x * x / 4) / x) with (/ 2 * F1 (x * x / 4) + x / 2 * (x / 2 * PSeries (PS_derive (PS_derive ba)) (x * x / 4))).
  2:{ unfold I0. rewrite <- O. field. exact Hx. }
  apply (is_derive_mult (fun t => t / 2) (fun t => F1 (t * t / 4)) x (/ 2)); [auto_derive; [easy|field]|exact E|]. intros; apply Rmult_comm.
Qed.
Lemma bessel0_I0 x s : bessel0 x s -> s = I0 x.
Proof.
  intros H. unfold I0, F0, PSeries. symmetry. apply is_series_unique. apply is_series_Reals. intros e He. destruct (H e He) as (N & HN). exists N. intros n Hn.
  specialize (HN n Hn). erewrite sum_eq; [exact HN|]. intros i _. unfold ba. cbn -[pow]. rewrite Rmult_comm. reflexivity.
Qed.

(** u = sqrt x e^-x I0 and its derivative. *)
Definition G (x : R) : R := sqrt x * exp (- x).
Lemma G_deriv x : 0 < x -> is_derive G x (G x * (/ (2 * x) - 1)).
Proof.
  intros Hx. unfold G. assert (0 < sqrt x) by (now apply sqrt_lt_R0). auto_derive; [exact Hx|]. replace x with (sqrt x * sqrt x) at 7 by (apply sqrt_sqrt; lra). field. lra.
Qed.
Definition u (x : R) : R := G x * I0 x.
Definition u1 (x : R) : R := G x * ((/ (2 * x) - 1) * I0 x + I1 x).
Lemma u_deriv x : 0 < x -> is_derive u x (u1 x).
Proof.
  intros Hx. unfold u. replace (u1 x) with (G x * (/ (2 * x) - 1) * I0 x + G x * I1 x) by (unfold u1; ring).
  apply (is_derive_mult G I0 x); [now apply G_deriv|apply I0_deriv|]. intros; apply Rmult_comm.
Qed.
Lemma u1_deriv x : 0 < x -> is_derive u1 x (- 2 * u1 x - u x / (4 * x * x)).
Proof.
  intros Hx. unfold u1.
  assert (A : is_derive (fun t => (/ (2 * t) - 1) * I0 t + I1 t) x ((- / (2 * x * x) * I0 x + (/ (2 * x) - 1) * I1 x) + (I0 x - I1 x / x))).
  { apply (is_derive_plus (fun t => (/ (2 * t) - 1) * I0 t) I1 x).
    - apply (is_derive_mult (fun t => / (2 * t) - 1) I0 x); [auto_derive; [lra|field; lra]|apply I0_deriv|intros; apply Rmult_comm].
    - apply I1_deriv. lra. }
  replace (- 2 * (G x * ((/ (2 * x) - 1) * I0 x + I1 x)) - u x / (4 * x * x)) with
    (G x * (/ (2 * x) - 1) * ((/ (2 * x) - 1) * I0 x + I1 x) + G x * ((- / (2 * x * x) * I0 x + (/ (2 * x) - 1) * I1 x) + (I0 x - I1 x / x))).
  2:{ unfold u. field. lra. }
  apply (is_derive_mult G (fun t => (/ (2 * t) - 1) * I0 t + I1 t) x); [now apply G_deriv|exact A|intros; apply Rmult_comm].
Qed.
(** A function grows no more than another whose derivative is larger. *)
Lemma grow_le f f' g g' a b : a <= b -> (forall x, a <= x <= b -> is_derive f x (f' x)) -> (forall x, a <= x <= b -> is_derive g x (g' x)) ->
  (forall x, a <= x <= b -> Rabs (f' x) <= g' x) -> Rabs (f b - f a) <= g b - g a.
Proof.
  intros Hab Df Dg H. destruct (Req_dec a b) as [->|Ne]; [replace (f b - f b) with 0 by ring; rewrite Rabs_R0; lra|].
  assert (forall s, s = 1 \/ s = -1 -> s * (f b - f a) <= g b - g a).
  { intros s Hs. destruct (MVT_cor2 (fun x => g x - s * f x) (fun x => g' x - s * f' x) a b ltac:(lra)) as (c & E & Hc).
    - intros c Hc. apply is_derive_Reals. apply (is_derive_minus g (fun x => s * f x) c); [now apply Dg|]. apply (is_derive_scal f c s). now apply Df.
    - specialize (H c ltac:(lra)). apply Rabs_le_between in H. assert (0 <= (g' c - s * f' c) * (b - a)) by (apply Rmult_le_pos; [destruct Hs as [-> | ->]; lra|lra]). lra. }
  pose proof (H0 1 ltac:(lra)). pose proof (H0 (-1) ltac:(lra)). apply Rabs_le. lra.
Qed.
(** The comparison: v with small residual and initial error stays near u. *)
Section Compare.
  Variables (v v1 v2 : R -> R) (c e0 e1 : R).
  Hypothesis (Dv : forall x, 15 / 4 <= x -> is_derive v x (v1 x)).
  Hypothesis (Dv1 : forall x, 15 / 4 <= x -> is_derive v1 x (v2 x)).
  Hypothesis (Hc : forall x, 15 / 4 <= x -> Rabs (v2 x + 2 * v1 x + v x / (4 * x * x)) <= c / (x * x)).
  Hypothesis (H0 : Rabs (u (15 / 4) - v (15 / 4)) <= e0).
  Hypothesis (H1 : Rabs (u1 (15 / 4) - v1 (15 / 4)) <= e1).
  Let w x := u x - v x.
  Let w1 x := u1 x - v1 x.
  Let r x := v2 x + 2 * v1 x + v x / (4 * x * x).
  Lemma w_deriv x : 15 / 4 <= x -> is_derive w x (w1 x).
  Proof. intros H. apply (is_derive_minus u v x); [apply u_deriv; lra|now apply Dv]. Qed.
  Lemma w1_deriv x : 15 / 4 <= x -> is_derive w1 x (- 2 * w1 x - r x - w x / (4 * x * x)).
  Proof.
    intros H. replace (- 2 * w1 x - r x - w x / (4 * x * x)) with ((- 2 * u1 x - u x / (4 * x * x)) - v2 x) by (unfold w1, r, w; field; lra).
    apply (is_derive_minus u1 v1 x); [apply u1_deriv; lra|now apply Dv1].
  Qed.
  Lemma stay X : 15 / 4 <= X -> forall M, (forall x, 15 / 4 <= x <= X -> Rabs (w x) <= M) -> Rabs (w X) <= e0 + e1 + 16 / 100 * c + 4 / 100 * M.
  Proof.
    intros HX M HM. assert (P0 : 0 <= c). { pose proof (Hc (15 / 4) ltac:(lra)). pose proof (Rabs_pos (v2 (15 / 4) + 2 * v1 (15 / 4) + v (15 / 4) / (4 * (15 / 4) * (15 / 4)))). lra. }
    assert (PM : 0 <= M) by (pose proof (HM X ltac:(lra)); pose proof (Rabs_pos (w X)); lra).
    set (K := c / 2 + M / 8). set (k := (c + M / 4) * (15 / 22)). assert (K0 : 0 <= K) by (unfold K; lra). assert (k0 : 0 <= k) by (unfold k; lra).
    assert (B : forall x, 15 / 4 <= x <= X -> Rabs (- r x - w x / (4 * x * x)) <= (c + M / 4) / (x * x)).
    { intros x Hx. replace (- r x - w x / (4 * x * x)) with (- (r x) + - (w x / (4 * x * x))) by ring. eapply Rle_trans; [apply Rabs_triang|]. rewrite !Rabs_Ropp.
      pose proof (Hc x ltac:(lra)) as A1. fold (r x) in A1. pose proof (HM x Hx) as A2. replace (w x / (4 * x * x)) with (w x * / (4 * x * x)) by (field; lra).
      assert (0 < / (4 * x * x)) by (apply Rinv_0_lt_compat; nra). rewrite Rabs_mult, (Rabs_right (/ (4 * x * x))) by lra.
      replace ((c + M / 4) / (x * x)) with (c / (x * x) + M * / (4 * x * x)) by (field; lra). apply Rplus_le_compat; [exact A1|]. apply Rmult_le_compat_r; lra. }
    assert (Ep : Rabs ((w X + w1 X / 2) - (w (15 / 4) + w1 (15 / 4) / 2)) <= - K / X - - K / (15 / 4)).
    { apply (grow_le (fun x => w x + w1 x / 2) (fun x => (- r x - w x / (4 * x * x)) / 2) (fun x => - K / x) (fun x => K / (x * x))); [exact HX| | |].
      - intros x Hx. replace ((- r x - w x / (4 * x * x)) / 2) with (w1 x + / 2 * (- 2 * w1 x - r x - w x / (4 * x * x))) by (field; lra).
        apply (is_derive_plus w (fun t => w1 t / 2) x); [apply w_deriv; lra|]. apply (is_derive_ext (fun t => / 2 * w1 t)); [intros t; unfold Rdiv; apply Rmult_comm|]. apply (is_derive_scal w1 x (/ 2)). apply w1_deriv; lra.
      - intros x Hx. auto_derive; [lra|]. field. lra.
      - intros x Hx. unfold Rdiv at 1. rewrite Rabs_mult, (Rabs_right (/ 2)) by lra. pose proof (B x Hx) as A. replace (K / (x * x)) with ((c + M / 4) / (x * x) * / 2) by (unfold K; field; lra). apply Rmult_le_compat_r; lra. }
    assert (Eh : Rabs (exp (2 * X) * w1 X - exp (2 * (15 / 4)) * w1 (15 / 4)) <= exp (2 * X) * k / (X * X) - exp (2 * (15 / 4)) * k / (15 / 4 * (15 / 4))).
    { apply (grow_le (fun x => exp (2 * x) * w1 x) (fun x => exp (2 * x) * (- r x - w x / (4 * x * x))) (fun x => exp (2 * x) * k / (x * x)) (fun x => exp (2 * x) * (k * (2 / (x * x) - 2 / (x * x * x))))); [exact HX| | |].
      - intros x Hx. replace (exp (2 * x) * (- r x - w x / (4 * x * x))) with (2 * exp (2 * x) * w1 x + exp (2 * x) * (- 2 * w1 x - r x - w x / (4 * x * x))) by (field; lra).
        apply (is_derive_mult (fun t => exp (2 * t)) w1 x); [auto_derive; [easy|ring]|apply w1_deriv; lra|intros; apply Rmult_comm].
      - intros x Hx. auto_derive; [nra|]. field. lra.
      - intros x Hx. rewrite Rabs_mult, (Rabs_right (exp (2 * x))) by (left; apply exp_pos). apply Rmult_le_compat_l; [left; apply exp_pos|]. eapply Rle_trans; [apply B; exact Hx|].
        assert (0 < / (x * x)) by (apply Rinv_0_lt_compat; nra). assert (/ x <= 4 / 15) by (replace (4 / 15) with (/ (15 / 4)) by lra; apply Rinv_le_contravar; lra).
        replace (2 / (x * x) - 2 / (x * x * x)) with (2 * / (x * x) * (1 - / x)) by (field; lra). unfold k. assert (22 / 15 * / (x * x) <= 2 * / (x * x) * (1 - / x)) by nra. unfold Rdiv at 1. nra. }
    assert (S : Rabs (w1 X) <= e1 + k * (16 / 225)).
    { pose proof (exp_pos (2 * X)) as P1. pose proof (exp_pos (2 * (15 / 4))) as P2. assert (P3 : exp (2 * (15 / 4)) <= exp (2 * X)) by (destruct (Req_dec (15 / 4) X) as [->|]; [lra|left; apply exp_increasing; lra]).
      assert (0 <= k / (15 / 4 * (15 / 4))) by lra. assert (/ (X * X) <= 16 / 225) by (replace (16 / 225) with (/ (15 / 4 * (15 / 4))) by lra; apply Rinv_le_contravar; nra).
      apply (Rmult_le_reg_l (exp (2 * X))); [exact P1|]. replace (exp (2 * X) * Rabs (w1 X)) with (Rabs (exp (2 * X) * w1 X)) by (rewrite Rabs_mult, (Rabs_right (exp (2 * X))); lra).
      replace (exp (2 * X) * w1 X) with (exp (2 * X) * w1 X - exp (2 * (15 / 4)) * w1 (15 / 4) + exp (2 * (15 / 4)) * w1 (15 / 4)) by ring. eapply Rle_trans; [apply Rabs_triang|].
      rewrite (Rabs_mult (exp (2 * (15 / 4)))), (Rabs_right (exp (2 * (15 / 4)))) by lra. pose proof H1 as H1'. fold (w1 (15 / 4)) in H1'. pose proof (Rabs_pos (w1 (15 / 4))).
      assert (T1 : exp (2 * X) * k / (X * X) <= exp (2 * X) * (k * (16 / 225))) by (unfold Rdiv at 1; rewrite Rmult_assoc; apply Rmult_le_compat_l; [lra|]; apply Rmult_le_compat_l; lra).
      assert (T2 : 0 <= exp (2 * (15 / 4)) * k / (15 / 4 * (15 / 4))) by (unfold Rdiv; rewrite Rmult_assoc; apply Rmult_le_pos; lra).
      assert (T3 : exp (2 * (15 / 4)) * Rabs (w1 (15 / 4)) <= exp (2 * X) * e1) by (apply Rmult_le_compat; lra). rewrite Rmult_plus_distr_l. lra. }
    replace (w X) with ((w X + w1 X / 2 - (w (15 / 4) + w1 (15 / 4) / 2)) + w (15 / 4) + w1 (15 / 4) * / 2 - w1 X * / 2) by field.
    assert (0 <= K / X) by (apply Rmult_le_pos; [exact K0|left; apply Rinv_0_lt_compat; lra]).
    pose proof H0 as H0'. fold (w (15 / 4)) in H0'. pose proof H1 as H1'. fold (w1 (15 / 4)) in H1'.
    unfold k, K in *. apply Rabs_le. apply Rabs_le_between in Ep, S, H0', H1'. replace (- (c / 2 + M / 8) / X) with (- ((c / 2 + M / 8) / X)) in Ep by (field; lra). lra.
  Qed.
  Lemma near_u X : 15 / 4 <= X -> Rabs (u X - v X) <= 105 / 100 * (e0 + e1 + 16 / 100 * c).
  Proof.
    intros HX. destruct (continuity_ab_maj (fun x => Rabs (w x)) (15 / 4) X HX) as (m & Hm & Im).
    { intros x Hx. apply (continuity_pt_comp w Rabs); [|apply Rcontinuity_abs]. apply continuity_pt_filterlim. apply (ex_derive_continuous w x). eexists. apply w_deriv. lra. }
    pose proof (stay m ltac:(lra) (Rabs (w m)) ltac:(intros x Hx; apply Hm; lra)) as A. pose proof (Hm X ltac:(lra)) as B. fold (w X). pose proof (Rabs_pos (w m)). lra.
  Qed.
End Compare.
