(** * fastAtan2 and fastCosSin. *)
From Coq Require Import List QArith Qabs Qreals Reals Lra Lia Bool Arith.
From Verif Require Import Base FunctionsModel FunctionsSpec FunctionsProofs PolyBound PiBounds FastTrigProofs.
Import ListNotations.
Open Scope R_scope.

(** ** fastAtan2 *)
Lemma Rabs_le_inv a e : Rabs a <= e -> - e <= a <= e.
Proof. intros H. unfold Rabs in H. destruct (Rcase_abs a); lra. Qed.
Lemma fastAtan_range z : 0 <= z <= 1 -> 0 <= fastAtan z <= 13 / 10.
Proof. intros Hz. unfold fastAtan. set (z2 := z * z). assert (H2 : 0 <= z2 <= 1) by (unfold z2; nra). clearbody z2. set (z4 := z2 * z2). assert (H4 : 0 <= z4 <= 1) by (unfold z4; nra). clearbody z4. set (u := z4 * z4). assert (0 <= z2 * z4 <= 1) by nra. assert (Hu : 0 <= z4 * z4 <= 1) by nra.
  match goal with |- 0 <= z * ?e <= _ => assert (0 <= e <= 13 / 10) by nra end. nra. Qed.

Definition quad (ax ay : R) : R := if Rlt_dec ax ay then PI / 2 - atan (ax / ay) else atan (ay / ax).
Lemma quad_atan ax ay : 0 < ax -> 0 <= ay -> quad ax ay = atan (ay / ax).
Proof.
  intros Hx Hy. unfold quad. destruct (Rlt_dec ax ay) as [H|H]; [|reflexivity]. rewrite <- atan_inv by (apply Rdiv_lt_0_compat; lra). f_equal. field. lra.
Qed.
Lemma atan2_quad x y : x <> 0 \/ y <> 0 ->
  atan2 y x = let p := quad (Rabs x) (Rabs y) in let p := if Rlt_dec x 0 then PI - p else p in if Rlt_dec y 0 then - p else p.
Proof.
  intros N. pose proof (Rabs_pos y) as Py. unfold atan2. destruct (Rlt_dec 0 x) as [Hx|Hx]; [|destruct (Rlt_dec x 0) as [Hx2|Hx2]]; cbv zeta.
  - rewrite quad_atan by (rewrite ?(Rabs_right x) by lra; lra). destruct (Rlt_dec x 0); [lra|]. rewrite (Rabs_right x) by lra. destruct (Rlt_dec y 0).
    + rewrite (Rabs_left y) by lra. rewrite <- atan_opp. f_equal. field. lra.
    + rewrite (Rabs_right y) by lra. reflexivity.
  - rewrite quad_atan by (rewrite ?(Rabs_left x) by lra; lra). rewrite (Rabs_left x) by lra. destruct (Rlt_dec y 0), (Rle_dec 0 y); try lra.
    + rewrite (Rabs_left y) by lra. replace (- y / - x) with (y / x) by (field; lra). lra.
    + rewrite (Rabs_right y) by lra. replace (y / - x) with (- (y / x)) by (field; lra). rewrite atan_opp. lra.
  - assert (x = 0) as -> by lra. assert (y <> 0) as Hy by lra. rewrite Rabs_R0. unfold quad. assert (0 < Rabs y) by (apply Rabs_pos_lt; auto).
    destruct (Rlt_dec 0 (Rabs y)); [|lra]. replace (0 / Rabs y) with 0 by (field; lra). rewrite atan_0. destruct (Rlt_dec 0 y), (Rlt_dec y 0); lra.
Qed.
Lemma atan2_range x y : - PI < atan2 y x <= PI.
Proof.
  pose proof PI_bounds. unfold atan2. pose proof (atan_bound (y / x)). destruct (Rlt_dec 0 x); [lra|]. destruct (Rlt_dec x 0) as [Hx|]; [|destruct (Rlt_dec 0 y); [lra|destruct (Rlt_dec y 0); lra]].
  destruct (Rle_dec 0 y) as [Hy|Hy].
  - assert (A : atan (y / x) <= 0). { replace (y / x) with (- (y / - x)) by (field; lra). rewrite atan_opp. destruct (Req_dec y 0) as [->|]; [replace (0 / - x) with 0 by (field; lra); rewrite atan_0; lra|]. rewrite <- atan_0 at 1. pose proof (atan_increasing 0 (y / - x)) as I. rewrite atan_0 in I. specialize (I ltac:(apply Rdiv_lt_0_compat; lra)). rewrite atan_0. lra. }
    lra.
  - assert (A : 0 < atan (y / x)). { rewrite <- atan_0. apply atan_increasing. replace (y / x) with (- y / - x) by (field; lra). apply Rdiv_lt_0_compat; lra. }
    lra.
Qed.

Lemma fastAtan2_error x y : x <> 0 \/ y <> 0 -> Rabs (fastAtan2 x y - atan2 y x) <= 15 / 1000000.
Proof.
  intros N. rewrite atan2_quad by auto. pose proof PI_bounds as HPI. unfold fastAtan2, quad. cbv zeta.
  assert (Hx : 0 <= Rabs x) by apply Rabs_pos. assert (Hy : 0 <= Rabs y) by apply Rabs_pos. assert (N2 : 0 < Rabs x \/ 0 < Rabs y) by (destruct N; [left|right]; apply Rabs_pos_lt; auto).
  generalize dependent (Rabs x). intros ax Hx N2. generalize dependent (Rabs y). intros ay Hy N2.
  destruct (Rlt_dec ax ay) as [I|I].
  - assert (Z : 0 <= ax / ay <= 1). { split; [apply Rmult_le_pos; [auto|left; apply Rinv_0_lt_compat; lra]|]. apply (Rmult_le_reg_r ay); [lra|]. unfold Rdiv. rewrite Rmult_assoc, Rinv_l; lra. }
    pose proof (fastAtan_range _ Z) as F. pose proof (fastAtan_pos_lemma _ Z) as E. apply Rabs_le_inv in E.
    generalize dependent (fastAtan (ax / ay)). intros f F E. destruct (Rlt_dec x 0), (Rlt_dec y 0); match goal with |- context [Rabs ?t - _] => rewrite (Rabs_right t) by lra | |- context [- Rabs ?t - _] => rewrite (Rabs_right t) by lra end; apply Rabs_le; lra.
  - assert (Z : 0 <= ay / ax <= 1). { split; [apply Rmult_le_pos; [auto|left; apply Rinv_0_lt_compat; lra]|]. apply (Rmult_le_reg_r ax); [lra|]. unfold Rdiv. rewrite Rmult_assoc, Rinv_l; lra. }
    pose proof (fastAtan_range _ Z) as F. pose proof (fastAtan_pos_lemma _ Z) as E. apply Rabs_le_inv in E.
    generalize dependent (fastAtan (ay / ax)). intros f F E. destruct (Rlt_dec x 0), (Rlt_dec y 0); match goal with |- context [Rabs ?t - _] => rewrite (Rabs_right t) by lra | |- context [- Rabs ?t - _] => rewrite (Rabs_right t) by lra end; apply Rabs_le; lra.
Qed.
Lemma fastAtan2_lemma x y : x <> 0 \/ y <> 0 -> exists p, - PI < p <= PI /\ x = sqrt (x * x + y * y) * cos p /\ y = sqrt (x * x + y * y) * sin p /\ Rabs (fastAtan2 x y - p) <= 15 / 1000000.
Proof.
  intros N. exists (atan2 y x). destruct (polar x y). split; [apply atan2_range|]. split; [auto|]. split; [auto|]. now apply fastAtan2_error.
Qed.

(** ** fastCosSin *)
Fixpoint zfact (n : nat) : Z := match n with O => 1 | S k => Z.of_nat (S k) * zfact k end%Z.
Lemma zfact_ok n : INR (fact n) = IZR (zfact n).
Proof. induction n as [|n IH]; [reflexivity|]. change (fact (S n)) with (S n * fact n)%nat. rewrite mult_INR, IH. cbn [zfact]. rewrite mult_IZR, <- INR_IZR_INZ. reflexivity. Qed.
Lemma zfact_pos n : (0 < zfact n)%Z.
Proof. induction n as [|n IH]; [reflexivity|]. cbn [zfact]. apply Z.mul_pos_pos; lia. Qed.

(** Polynomials with rational coefficients, not reduced. *)
Definition peval (p : list Q) (x : R) : R := fold_right (fun c acc => Q2R c + x * acc) 0 p.
Lemma peval_cons c p x : peval (c :: p) x = Q2R c + x * peval p x.
Proof. reflexivity. Qed.
Lemma Q2R_0 : Q2R 0 = 0.
Proof. unfold Q2R. cbn. lra. Qed.
Fixpoint padd (p q : list Q) : list Q :=
  match p, q with
  | [], _ => q
  | _, [] => p
  | a :: p', b :: q' => (a + b)%Q :: padd p' q'
  end.
Lemma padd_ok p : forall q x, peval (padd p q) x = peval p x + peval q x.
Proof.
  induction p as [|a p IH]; intros [|b q] x; cbn [padd]; try (change (peval [] x) with 0; lra).
  rewrite !peval_cons, IH, Q2R_plus. lra.
Qed.
Definition popp (p : list Q) : list Q := map Qopp p.
Lemma popp_ok p x : peval (popp p) x = - peval p x.
Proof. induction p as [|c p IH]; [cbn; lra|]. change (popp (c :: p)) with ((- c)%Q :: popp p). rewrite !peval_cons, IH, Q2R_opp. lra. Qed.
Fixpoint upow (q : Q) (n : nat) : Q := match n with O => 1%Q | S k => (q * upow q k)%Q end.
Lemma upow_ok q n : Q2R (upow q n) = Q2R q ^ n.
Proof. induction n as [|n IH]; cbn [upow pow]; [unfold Q2R; cbn; lra|]. rewrite Q2R_mult, IH. reflexivity. Qed.
Definition mono (k : nat) (c : Q) : list Q := repeat 0%Q k ++ [c].
Lemma mono_ok k c x : peval (mono k c) x = x ^ k * Q2R c.
Proof. unfold mono. induction k as [|k IH]; [cbn; lra|]. cbn [repeat app]. rewrite peval_cons, IH, Q2R_0. cbn [pow]. ring. Qed.
Definition sinco (t : Q) (i : nat) : Q := (upow (-1 # 1) i * (upow t (2 * i + 1) / inject_Z (zfact (2 * i + 1))))%Q.
Fixpoint sinpoly (t : Q) (n : nat) : list Q := match n with O => mono 1 (sinco t 0) | S k => padd (sinpoly t k) (mono (2 * n + 1) (sinco t n)) end.
Lemma sinco_ok t i x : x ^ (2 * i + 1) * Q2R (sinco t i) = sin_term (Q2R t * x) i.
Proof.
  unfold sinco, sin_term. rewrite Q2R_mult, Q2R_div.
  - rewrite !upow_ok, Q2R_inject, zfact_ok, Rpow_mult_distr. replace (Q2R (-1 # 1)) with (-1) by (unfold Q2R; cbn; lra). field. apply not_0_IZR. pose proof (zfact_pos (2 * i + 1)). lia.
  - unfold Qeq, inject_Z. cbn [Qnum Qden]. pose proof (zfact_pos (2 * i + 1)). lia.
Qed.
Lemma sinpoly_ok t n x : peval (sinpoly t n) x = sin_approx (Q2R t * x) n.
Proof.
  unfold sin_approx. induction n as [|n IH]; cbn [sinpoly sum_f_R0].
  - rewrite mono_ok. apply (sinco_ok t 0).
  - rewrite padd_ok, IH, mono_ok. f_equal. apply sinco_ok.
Qed.

(** Rounding of the coefficients to integers over 2^40. *)
Definition near (c : Q) (z : Z) : bool := Qle_bool (Qabs (c - (z # 2 ^ 40))) (1 # 2 ^ 39).
Fixpoint close (p : list Q) (r : list Z) : bool :=
  match p, r with
  | [], [] => true
  | c :: p', z :: r' => near c z && close p' r'
  | _, _ => false
  end.
Lemma Q2R_make z d : Q2R (z # d) = IZR z / IZR (Zpos d).
Proof. reflexivity. Qed.
Lemma Q2R_abs q : Q2R (Qabs q) = Rabs (Q2R q).
Proof.
  apply Qabs_case; intros H; apply Qle_Rle in H; rewrite ?Q2R_0 in H; [rewrite Rabs_right by lra; reflexivity|]. rewrite Q2R_opp, Rabs_left1 by lra. reflexivity.
Qed.
Definition w40 : R := IZR (2 ^ 40).
Lemma w40_pos : 0 < w40.
Proof. unfold w40. apply IZR_lt. reflexivity. Qed.
Lemma near_ok c z : near c z = true -> Rabs (w40 * Q2R c - IZR z) <= 2.
Proof.
  intros H1. unfold near in H1. apply Qle_bool_iff, Qle_Rle in H1. rewrite Q2R_abs, Q2R_minus, !Q2R_make in H1. pose proof w40_pos as W.
  replace (w40 * Q2R c - IZR z) with (w40 * (Q2R c - IZR z / w40)) by (field; lra). rewrite Rabs_mult, (Rabs_right w40) by lra.
  change (IZR (Z.pos (2 ^ 40))) with w40 in H1. apply (Rmult_le_compat_l w40) in H1; [|lra]. replace (w40 * (1 / IZR (Z.pos (2 ^ 39)))) with 2 in H1; [exact H1|].
  unfold w40. change (2 ^ 40)%Z with (2 * Z.pos (2 ^ 39))%Z. rewrite mult_IZR. field. apply not_0_IZR. discriminate.
Qed.
Lemma close_ok p : forall r t, close p r = true -> 0 <= t <= 1 / 4 -> Rabs (w40 * peval p t - zeval r t) <= 4.
Proof.
  induction p as [|c p IH]; intros [|z r] t H Ht; try discriminate H; [cbn; rewrite Rmult_0_r, Rminus_0_r, Rabs_R0; lra|].
  cbn [close] in H. apply andb_true_iff in H as [H1 H2]. specialize (IH r t H2 Ht). pose proof (near_ok c z H1) as A. rewrite peval_cons, zeval_cons.
  replace (w40 * (Q2R c + t * peval p t) - (IZR z + t * zeval r t)) with (w40 * Q2R c - IZR z + t * (w40 * peval p t - zeval r t)) by ring.
  eapply Rle_trans; [apply Rabs_triang|]. rewrite Rabs_mult, (Rabs_right t) by lra. pose proof (Rabs_pos (w40 * peval p t - zeval r t)). nra.
Qed.

(** The parabolic sine of one turn. *)
Definition wave (t : R) : R := let y := t * (16 * (1 / 2 - Rabs t)) in y + 225 / 1000 * y * (Rabs y - 1).
Definition turn (v : R) : R := v - floorR (v + 1 / 2).
Lemma turn_range v : - (1 / 2) <= turn v < 1 / 2.
Proof. unfold turn. pose proof (floor_spec (v + 1 / 2)). lra. Qed.
Lemma wave_opp t : wave (- t) = - wave t.
Proof. unfold wave. rewrite Rabs_Ropp. replace (- t * (16 * (1 / 2 - Rabs t))) with (- (t * (16 * (1 / 2 - Rabs t)))) by ring. rewrite Rabs_Ropp. ring. Qed.
Lemma fastCosSin_wave x : fastCosSin x = (- wave (turn (x / (2 * PI) - 1 / 4)), wave (turn (x / (2 * PI)))).
Proof.
  unfold fastCosSin. cbv zeta. replace (x * (1 / (2 * PI))) with (x / (2 * PI)) by (unfold Rdiv; ring). set (u := x / (2 * PI)).
  unfold turn. replace (u - 1 / 4 + 1 / 2) with (u + 1 / 4) by lra. replace (u - (1 / 4 + floorR (u + 1 / 4))) with (u - 1 / 4 - floorR (u + 1 / 4)) by ring. f_equal.
  set (t := u - 1 / 4 - _). unfold wave. replace (t * (16 * (Rabs t - 1 / 2))) with (- (t * (16 * (1 / 2 - Rabs t)))) by ring. rewrite Rabs_Ropp. ring.
Qed.
Lemma y_range t : 0 <= t <= 1 / 2 -> 0 <= t * (16 * (1 / 2 - t)) <= 1.
Proof. intros H. split; [nra|]. pose proof (Rle_0_sqr (4 * t - 1)) as S. unfold Rsqr in S. lra. Qed.
Lemma wave_range t : - (1 / 2) <= t <= 1 / 2 -> -1 <= wave t <= 1.
Proof.
  assert (P : forall t, 0 <= t <= 1 / 2 -> 0 <= wave t <= 1).
  { intros u Hu. unfold wave. rewrite (Rabs_right u) by lra. pose proof (y_range u Hu) as Y. set (y := u * _) in *. clearbody y. rewrite Rabs_right by lra. nra. }
  intros Ht. destruct (Rle_dec 0 t); [specialize (P t ltac:(lra)); lra|]. specialize (P (- t) ltac:(lra)). rewrite wave_opp in P. lra.
Qed.

Definition tau0 : Q := 628318530718 # 100000000000.
Definition waveP : list Q := [0; 62 # 10; 2; -576 # 10; 576 # 10]%Q.
Lemma wave_poly t : 0 <= t <= 1 / 2 -> wave t = peval waveP t.
Proof.
  intros H. unfold wave. rewrite (Rabs_right t) by lra. pose proof (y_range t H) as Y. rewrite Rabs_right by lra. unfold peval, waveP, fold_right. unfold Q2R. cbn [Qnum Qden]. field.
Qed.
Lemma sin_lip x y : Rabs (sin x - sin y) <= Rabs (x - y).
Proof.
  destruct (Rtotal_order x y) as [H|[->|H]].
  - destruct (MVT_cor2 sin cos x y H) as (c & E & _); [intros; apply derivable_pt_lim_sin|]. rewrite <- Rabs_Ropp. replace (- (sin x - sin y)) with (cos c * (y - x)) by lra. rewrite Rabs_mult. rewrite <- (Rabs_Ropp (x - y)). replace (- (x - y)) with (y - x) by ring. pose proof (COS_bound c). assert (Rabs (cos c) <= 1) by (apply Rabs_le; lra). pose proof (Rabs_pos (y - x)). nra.
  - rewrite !Rminus_diag_eq by reflexivity. lra.
  - destruct (MVT_cor2 sin cos y x H) as (c & E & _); [intros; apply derivable_pt_lim_sin|]. rewrite E, Rabs_mult. pose proof (COS_bound c). assert (Rabs (cos c) <= 1) by (apply Rabs_le; lra). pose proof (Rabs_pos (x - y)). nra.
Qed.
(** The difference of the wave and a Taylor sum of the sine, with rounded coefficients, on the grid of step 1 / 256. *)
Definition diffP (n : nat) : list Q := padd waveP (popp (sinpoly tau0 n)).
Definition diff5 : list Z := [0; -91463212505; 2199023255552; -17876187434516; 63331869759897; -89725920466634; 0; 84338984717084; 0; -46244023041515; 0; 16596735030351]%Z.
Definition diff6 : list Z := [0; -91463212505; 2199023255552; -17876187434516; 63331869759897; -89725920466634; 0; 84338984717084; 0; -46244023041515; 0; 16596735030351; 0; -4200082284598]%Z.
Definition lim (r : list Z) : Z := (117 * 2 ^ 40 * 512 ^ Z.of_nat (length r) / (100000 * 512))%Z.
Lemma diff_bound n r : (0 < length r)%nat -> close (diffP n) r = true -> zcheck 64 (zshift (zscale 512 r)) (- lim r) (lim r) = true ->
  forall t, 0 <= t <= 1 / 4 -> Rabs (wave t - sin_approx (Q2R tau0 * t) n) <= 118 / 100000.
Proof.
  intros Hr C1 C2 t Ht. pose proof w40_pos as W. assert (I : INR 64 = 64) by (rewrite INR_IZR_INZ; reflexivity).
  pose proof (zcheck_ok _ _ _ _ C2 ltac:(lia) (512 * t - 1) ltac:(rewrite I; lra)) as B. rewrite zshift_ok in B. replace (512 * t - 1 + 1) with (512 * t) in B by ring.
  pose proof (zscale_ok 512 r (512 * t) ltac:(lia)) as S. replace (512 * t / 512) with t in S by lra.
  pose proof (div_R (117 * 2 ^ 40 * 512 ^ Z.of_nat (length r)) (100000 * 512) ltac:(lia)) as L. fold (lim r) in L. rewrite !mult_IZR in L. fold w40 in L. rewrite opp_IZR in B.
  assert (K : 0 < IZR (512 ^ Z.of_nat (length r))) by (apply IZR_lt; apply Z.pow_pos_nonneg; lia). set (k := IZR (512 ^ Z.of_nat (length r))) in *.
  assert (Z1 : - (117 / 100000 * w40) <= zeval r t <= 117 / 100000 * w40).
  { replace (117 * w40 * k / (100000 * 512)) with (k * (117 / 100000 * w40) / 512) in L by lra. set (z := zeval (zscale 512 r) (512 * t)) in *. set (v := zeval r t) in *. set (u := 117 / 100000 * w40) in *.
    split; apply (Rmult_le_reg_l k); auto; lra. }
  pose proof (close_ok _ _ _ C1 Ht) as M. apply Rabs_le_inv in M. unfold diffP in M. rewrite padd_ok, popp_ok, sinpoly_ok, <- wave_poly in M by lra.
  assert (W2 : 1000000 <= w40) by (unfold w40; apply IZR_le; discriminate). set (d := wave t - sin_approx (Q2R tau0 * t) n). replace (wave t + - sin_approx (Q2R tau0 * t) n) with d in M by (unfold d; ring).
  apply Rabs_le. split; apply (Rmult_le_reg_l w40); auto; lra.
Qed.
Lemma wave_quarter t : 0 <= t <= 1 / 4 -> Rabs (wave t - sin (2 * PI * t)) <= 12 / 10000.
Proof.
  intros Ht. pose proof PI_bounds as HPI. assert (T : Q2R tau0 = 628318530718 / 100000000000) by (unfold Q2R, tau0; cbn [Qnum Qden]; lra).
  assert (L : Rabs (sin (2 * PI * t) - sin (Q2R tau0 * t)) <= 1 / 100000). { eapply Rle_trans; [apply sin_lip|]. rewrite T. apply Rabs_le. nra. }
  apply Rabs_le_inv in L.
  destruct (pre_sin_bound (Q2R tau0 * t) 2) as [S1 S2]; [rewrite T; lra|rewrite T; lra|].
  assert (B1 : Rabs (wave t - sin_approx (Q2R tau0 * t) (2 * 2 + 1)) <= 118 / 100000) by (apply (diff_bound _ diff5); [cbn; lia|vm_compute; reflexivity|vm_compute; reflexivity|auto]).
  assert (B2 : Rabs (wave t - sin_approx (Q2R tau0 * t) (2 * (2 + 1))) <= 118 / 100000) by (apply (diff_bound _ diff6); [cbn; lia|vm_compute; reflexivity|vm_compute; reflexivity|auto]).
  apply Rabs_le_inv in B1, B2. apply Rabs_le. lra.
Qed.
Lemma wave_half t : 0 <= t <= 1 / 2 -> Rabs (wave t - sin (2 * PI * t)) <= 12 / 10000.
Proof.
  intros Ht. destruct (Rle_dec t (1 / 4)); [apply wave_quarter; lra|]. replace (sin (2 * PI * t)) with (sin (2 * PI * (1 / 2 - t))).
  - replace (wave t) with (wave (1 / 2 - t)); [apply wave_quarter; lra|]. rewrite !wave_poly by lra. unfold peval, waveP, fold_right. unfold Q2R. cbn [Qnum Qden]. field.
  - replace (2 * PI * (1 / 2 - t)) with (PI - 2 * PI * t) by lra. now rewrite sin_PI_x.
Qed.
Lemma wave_error t : - (1 / 2) <= t <= 1 / 2 -> Rabs (wave t - sin (2 * PI * t)) <= 12 / 10000.
Proof.
  intros Ht. destruct (Rle_dec 0 t); [apply wave_half; lra|]. pose proof (wave_half (- t) ltac:(lra)) as H. rewrite wave_opp in H. replace (2 * PI * - t) with (- (2 * PI * t)) in H by ring. rewrite sin_neg in H. rewrite <- Rabs_Ropp. replace (- (wave t - sin (2 * PI * t))) with (- wave t - - sin (2 * PI * t)) by ring. exact H.
Qed.
Lemma turn_sin v : sin (2 * PI * turn v) = sin (2 * PI * v).
Proof.
  unfold turn, floorR. set (k := Int_part (v + 1 / 2)). rewrite <- !Rtrigo1.cos_shift. rewrite <- (cos_shift (PI / 2 - 2 * PI * v) k). f_equal. ring.
Qed.
Lemma fastCosSin_lemma x : let (c, s) := fastCosSin x in
  Rabs (c - cos x) <= 12 / 10000 /\ Rabs (s - sin x) <= 12 / 10000 /\ -1 <= c <= 1 /\ -1 <= s <= 1.
Proof.
  rewrite fastCosSin_wave. pose proof PI_bounds as HPI. set (u := x / (2 * PI)). assert (E : 2 * PI * u = x) by (unfold u; field; lra).
  pose proof (turn_range u) as R1. pose proof (turn_range (u - 1 / 4)) as R2.
  pose proof (wave_error (turn u) ltac:(lra)) as W1. pose proof (wave_error (turn (u - 1 / 4)) ltac:(lra)) as W2. rewrite turn_sin in W1, W2. rewrite E in W1.
  replace (2 * PI * (u - 1 / 4)) with (- (PI / 2 - x)) in W2 by (rewrite <- E; lra). rewrite sin_neg, sin_shift in W2.
  pose proof (wave_range (turn u) ltac:(lra)). pose proof (wave_range (turn (u - 1 / 4)) ltac:(lra)). repeat split; try lra.
  rewrite <- Rabs_Ropp. replace (- (- wave (turn (u - 1 / 4)) - cos x)) with (wave (turn (u - 1 / 4)) - - cos x) by ring. exact W2.
Qed.
Lemma turn_shift v k : turn (v + IZR k) = turn v.
Proof.
  unfold turn. pose proof (floor_spec (v + 1 / 2)) as H. replace (floorR (v + IZR k + 1 / 2)) with (floorR (v + 1 / 2) + IZR k); [ring|].
  unfold floorR in H |- * at 1. rewrite <- plus_IZR. symmetry. apply floor_unique. rewrite plus_IZR. lra.
Qed.
Lemma fastCosSin_periodic x k : fastCosSin (x + 2 * PI * IZR k) = fastCosSin x.
Proof.
  rewrite !fastCosSin_wave. pose proof PI_bounds. replace ((x + 2 * PI * IZR k) / (2 * PI)) with (x / (2 * PI) + IZR k) by (field; lra).
  replace (x / (2 * PI) + IZR k - 1 / 4) with (x / (2 * PI) - 1 / 4 + IZR k) by ring. now rewrite !turn_shift.
Qed.
Lemma turn_id v : - (1 / 2) <= v < 1 / 2 -> turn v = v.
Proof. intros H. unfold turn. rewrite (floor_unique (v + 1 / 2) 0) by lra. lra. Qed.
Lemma wave_0 : wave 0 = 0.
Proof. unfold wave. rewrite Rmult_0_l, Rabs_R0. lra. Qed.
Lemma wave_14 : wave (1 / 4) = 1.
Proof. unfold wave. rewrite (Rabs_right (1 / 4)) by lra. replace (1 / 4 * (16 * (1 / 2 - 1 / 4))) with 1 by lra. rewrite Rabs_R1. lra. Qed.
Lemma wave_m14 : wave (- (1 / 4)) = -1.
Proof. rewrite wave_opp, wave_14. lra. Qed.
Lemma wave_m12 : wave (- (1 / 2)) = 0.
Proof. rewrite wave_opp. unfold wave. rewrite (Rabs_right (1 / 2)) by lra. replace (1 / 2 * (16 * (1 / 2 - 1 / 2))) with 0 by lra. rewrite Rabs_R0. lra. Qed.
Lemma fastCosSin_quarters : fastCosSin 0 = (1, 0) /\ fastCosSin (PI / 2) = (0, 1) /\ fastCosSin PI = (-1, 0) /\ fastCosSin (- (PI / 2)) = (0, -1).
Proof.
  pose proof PI_bounds. rewrite !fastCosSin_wave. replace (0 / (2 * PI)) with 0 by (field; lra). replace (PI / 2 / (2 * PI)) with (1 / 4) by (field; lra). replace (PI / (2 * PI)) with (1 / 2) by (field; lra). replace (- (PI / 2) / (2 * PI)) with (- (1 / 4)) by (field; lra).
  replace (0 - 1 / 4) with (- (1 / 4)) by lra. replace (1 / 4 - 1 / 4) with 0 by lra. replace (1 / 2 - 1 / 4) with (1 / 4) by lra. replace (- (1 / 4) - 1 / 4) with (- (1 / 2)) by lra.
  assert (T : turn (1 / 2) = - (1 / 2)). { replace (1 / 2) with (- (1 / 2) + IZR 1) at 1 by lra. rewrite turn_shift. apply turn_id. lra. }
  rewrite T, !turn_id by lra. rewrite wave_0, wave_14, wave_m14, wave_m12. repeat split; f_equal; lra.
Qed.
