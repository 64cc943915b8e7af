(** * The accuracy of the PNEBI table for the order 0. *)
From Coq Require Import Reals Lra Lia List ZArith Bool Arith.
From Verif Require Import Base BaseLemmas FunctionsModel FunctionsSpec PnebiModel PnebiSpec PnebiProofs PolyBound BesselLarge BesselOrders PnebiShape.
Import ListNotations.
Open Scope R_scope.
Open Scope outcome_scope.

Notation F := evaluatePnebi0Polynom.
Lemma cont_dec x y : 0 <= x -> x <= y -> cont y <= cont x.
Proof. intros H0 H1. destruct (cont_steep x y H0 H1) as (_ & B). pose proof (sl_pos y ltac:(lra)). nra. Qed.
Lemma cont_0 : cont 0 = 2.
Proof. unfold cont. destruct (Rlt_dec 0 (15 / 4)); [|lra]. unfold small. rewrite Ropp_0, exp_0. replace (0 / (375 / 100)) with 0 by lra. unfold smallP, zeval, fold_right. lra. Qed.
Lemma F_0 : F 0 = 2.
Proof. destruct (poly_cont 0 ltac:(lra)) as (_ & A & _). rewrite A by lra. apply cont_0. Qed.
Lemma F_le2 x : 0 <= x -> F x <= 2.
Proof.
  intros Hx. destruct (poly_cont x Hx) as (_ & A & B). destruct (Rlt_le_dec x (15 / 4)) as [L|L].
  - rewrite A by lra. rewrite <- cont_0. apply cont_dec; lra.
  - rewrite B by lra. pose proof (cont_dec (15 / 4) x ltac:(lra) L) as D. assert (E : cont (15 / 4) = small (15 / 4)) by (unfold cont, jump; destruct (Rlt_dec (15 / 4) (15 / 4)); lra). pose proof small_end. pose proof jump_bounds. lra.
Qed.
(** the slope on the right is not steeper than the mean slope on the left *)
Lemma lslope_4 : 48 / 1000 <= lslope 4.
Proof.
  unfold lslope. pose proof (fallQ_bounds (15 / 4 / 4) ltac:(lra)). replace (sqrt 4) with 2. 2:{ symmetry. replace 4 with (2 * 2) by ring. apply sqrt_square. lra. } lra.
Qed.
Lemma back x y : 0 <= x -> x + 1 / 1000000 <= y -> sl y * (y - x) <= 125 / 100 * (F x - F y).
Proof.
  intros H0 H1. destruct (cont_steep x y H0 ltac:(lra)) as (_ & B). destruct (poly_cont x H0) as (_ & Xa & Xb). destruct (poly_cont y ltac:(lra)) as (_ & Ya & Yb). pose proof (cont_dec x y H0 ltac:(lra)) as Dc. pose proof jump_bounds as Jb.
  destruct (Rlt_le_dec x (15 / 4)) as [Lx|Lx], (Rlt_le_dec y (15 / 4)) as [Ly|Ly]; rewrite ?Xa, ?Xb, ?Ya, ?Yb by lra; try lra.
  assert (T : 48 / 1000 * (1 / 1000000) <= (1 + 2 / 1000000) * (cont x - cont y)); [|lra].
  destruct (Rle_lt_dec y 4) as [L4|L4].
  - assert (48 / 1000 <= sl y). { unfold sl. destruct (Rlt_dec y (15 / 4)); [lra|]. pose proof (lslope_dec y 4 ltac:(lra) ltac:(lra)). pose proof lslope_4. lra. } nra.
  - destruct (cont_steep x 4 H0 ltac:(lra)) as (_ & B4). pose proof (cont_dec 4 y ltac:(lra) ltac:(lra)). assert (48 / 1000 <= sl 4). { unfold sl. destruct (Rlt_dec 4 (15 / 4)); [lra|]. apply lslope_4. } nra.
Qed.

(** ** The abscissas *)
Definition steps (P : R -> R -> Prop) (t : list node) : Prop := forall i a b, nth_error t i = Some a -> nth_error t (S i) = Some b -> P (fst a) (fst b).
Lemma steps_snoc P t x yx x' y : steps P (t ++ [(x, yx)]) -> P x x' -> steps P ((t ++ [(x, yx)]) ++ [(x', y)]).
Proof.
  intros Inc Hx i a b Ha Hb. assert (Hl : (S i < length ((t ++ [(x, yx)]) ++ [(x', y)]))%nat) by (apply nth_error_Some; congruence). rewrite !app_length in Hl. cbn [length] in Hl.
  rewrite nth_error_app1 in Ha by (rewrite app_length; cbn [length]; lia). destruct (Nat.eq_dec i (length t)) as [->|Hi].
  - rewrite nth_error_app2 in Ha, Hb by (rewrite ?app_length; cbn [length]; lia). rewrite app_length in Hb. cbn [length] in Hb. replace (S (length t) - (length t + 1))%nat with O in Hb by lia. rewrite Nat.sub_diag in Ha. cbn in Ha, Hb. injection Ha as <-. injection Hb as <-. exact Hx.
  - rewrite nth_error_app1 in Hb by (rewrite app_length; cbn [length]; lia). eapply Inc; eauto.
Qed.
Definition fair (tol a b : R) : Prop := 0 <= a /\ a < b /\ sl a * (b - a) <= 1265 / 1000 * tol /\ 1 / 1000000 <= b.
Lemma loop_fair n tol : (1 <= n)%nat -> 2 / 1000000 <= tol -> (Z.of_nat (pnebi_start n) < 2 ^ 31)%Z -> forall fuel x yx d t l, d < 0 -> - d <= 2 -> sl x <= 1265 / 1000 * - d -> 0 <= x ->
  steps (fair tol) (t ++ [(x, yx)]) -> init_loop fuel n tol x d (F x) (t ++ [(x, yx)]) = Ret l -> steps (fair tol) l.
Proof.
  intros Hn Ht Hs. induction fuel as [|fuel IH]; intros x yx d t l Hd Hd2 Hsl Hx HT; cbn [init_loop]; [intros E; injection E as <-; exact HT|].
  destruct (point_ok n (x - tol / d) Hs) as (y & E & L & EV). rewrite E. cbn [obind].
  assert (V0 : vread y 0 = Ret (at_ y 0)) by (apply vread_Ret, at_nth; lia). assert (V1 : vread y 1 = Ret (at_ y 1)) by (apply vread_Ret, at_nth; lia). rewrite V0. cbn [obind]. rewrite V1. cbn [obind].
  assert (Es : x - tol / d = x + tol / - d) by (field; lra). set (s := tol / - d) in *. assert (S1 : tol = s * - d) by (unfold s; field; lra). assert (S2 : 1 / 1000000 <= s) by nra.
  rewrite Es in *. set (x' := x + s) in *. assert (Hx' : 1 / 1000000 <= x') by (unfold x'; lra).
  destruct (first_order n x' _ y Hn ltac:(rewrite Rabs_right; lra) Hs EV) as (Y0 & Y1). rewrite Y0. rewrite (Rabs_right x') in Y1 by lra. intros El.
  assert (Er : d * (F x - F x') / tol = - ((F x - F x') / s)) by (rewrite S1; field; split; nra). rewrite Er in El.
  pose proof (back x x' Hx ltac:(unfold x'; lra)) as B. replace (x' - x) with s in B by (unfold x'; ring). pose proof (slope_rel x' ltac:(lra)) as C. pose proof (F_le2 x' ltac:(lra)) as F2. pose proof (polynom_pos x') as Fp. pose proof (sl_pos x' ltac:(lra)) as Sp.
  assert (R1 : sl x' <= 125 / 100 * ((F x - F x') / s)). { apply (Rmult_le_reg_r s); [lra|]. replace (125 / 100 * ((F x - F x') / s) * s) with (125 / 100 * (F x - F x')) by (field; lra). exact B. }
  pose proof DBL_MIN_pos as Dp. assert (Ds : 10 * DBL_MIN <= 1).
  { unfold DBL_MIN. assert (10 <= IZR (2 ^ 1022)) by (apply IZR_le; discriminate). apply (Rmult_le_reg_r (IZR (2 ^ 1022))); [lra|]. rewrite Rmult_assoc, Rinv_l by lra. lra. }
  refine (IH x' y _ (t ++ [(x, yx)]) l _ _ _ _ _ El).
  - unfold minR. destruct (Rlt_dec (-10 * DBL_MIN) _); lra.
  - unfold minR, maxR. destruct (Rlt_dec (at_ y 1 - F x') _), (Rlt_dec (-10 * DBL_MIN) _); lra.
  - unfold minR, maxR. destruct (Rlt_dec (at_ y 1 - F x') _), (Rlt_dec (-10 * DBL_MIN) _); lra.
  - lra.
  - apply steps_snoc; [exact HT|]. split; [exact Hx|]. split; [unfold x'; lra|]. unfold x'. replace (x + s - x) with s by ring. split; [rewrite S1; nra|exact Hx'].
Qed.
Lemma init_fair n tol t : (1 <= n)%nat -> 2 / 1000000 <= tol -> (Z.of_nat (pnebi_start n) < 2 ^ 31)%Z -> init n tol = Ret t -> steps (fair tol) (nodes t).
Proof.
  intros Hn Ht Hs. unfold init. destruct (Rlt_dec 0 tol); [|lra]. destruct (Z.leb_spec (2 ^ 31) (ceilZ (2 / tol) + 20)); [discriminate|].
  destruct (point_ok n 0 Hs) as (y & E & L & EV). rewrite E. cbn [obind].
  assert (V0 : vread y 0 = Ret (at_ y 0)) by (apply vread_Ret, at_nth; lia). assert (V1 : vread y 1 = Ret (at_ y 1)) by (apply vread_Ret, at_nth; lia). rewrite V1. cbn [obind]. rewrite V0. cbn [obind].
  destruct (pnebi_small n 0 (repeat 0 (n + 1))) as (y' & E' & _ & Y0 & Y1); [rewrite Rabs_R0; lra|]. rewrite EV in E'. injection E' as <-. rewrite Y0, (Y1 1%nat) by lia.
  intros H1. destruct (init_loop _ n tol 0 (0 - 2) 2 [(0, y)]) as [l| | |] eqn:El; try discriminate H1. cbn [obind] in H1. injection H1 as <-. cbn [nodes]. rewrite <- F_0 in El at 3.
  eapply (loop_fair n tol Hn Ht Hs _ 0 y (0 - 2) [] l); [lra|lra| |lra| |exact El].
  - assert (E0 : sl 0 = 2); [|lra]. unfold sl. destruct (Rlt_dec 0 (15 / 4)); [|lra]. unfold slope. rewrite Ropp_0, exp_0. replace (0 / (375 / 100)) with 0 by lra. replace fallP with (150000000%Z :: tl fallP) by reflexivity. rewrite zeval_cons. lra.
  - intros [|i] a b Ha Hb; [discriminate Hb|destruct i; discriminate Ha].
Qed.

(** ** Lookups between the nodes *)
Lemma chord_error c0 c1 cX M eps tau : 0 <= tau <= 1 -> c1 <= cX -> c0 - M * tau <= cX -> c1 <= c0 -> c0 - c1 <= M -> 0 <= M -> cX <= (1 - tau) * c0 + tau * c1 + eps -> 0 <= eps ->
  - eps <= (1 - tau) * c0 + tau * c1 - cX <= M / 4.
Proof.
  intros Ht H1 H2 H3 H4 H5 H6 H7. split; [lra|]. set (D := c0 - c1) in *. assert (PD : 0 <= D) by (unfold D; lra). assert (E : (1 - tau) * c0 + tau * c1 = c0 - tau * D) by (unfold D; ring). rewrite E.
  assert (A : c0 - tau * D - cX <= (M - D) * tau) by lra. assert (B : c0 - tau * D - cX <= D * (1 - tau)) by (unfold D in *; lra). set (g := c0 - tau * D - cX) in *. clearbody g D.
  destruct (Rle_lt_dec (M * tau) D) as [L|L].
  - destruct (Req_dec M 0) as [->|Ne]; [nra|]. apply (Rmult_le_reg_l M); [lra|]. apply (Rle_trans _ ((M - D) * D)); [|pose proof (Rle_0_sqr (M - 2 * D)) as Q; unfold Rsqr in Q; lra]. apply (Rle_trans _ ((M - D) * (M * tau))); [nra|]. apply Rmult_le_compat_l; lra.
  - assert (0 < M) by nra. apply (Rmult_le_reg_l M); [lra|]. apply (Rle_trans _ (D * (M - D))); [|pose proof (Rle_0_sqr (M - 2 * D)) as Q; unfold Rsqr in Q; lra]. apply (Rle_trans _ (D * (M * (1 - tau)))); [nra|]. apply Rmult_le_compat_l; lra.
Qed.
Lemma segment_error tol a b X v : 2 / 1000000 <= tol -> fair tol a b -> a <= X <= b -> on_line a (F a) b (F b) X v -> Rabs (v - F X) <= tol / 3.
Proof.
  intros Ht (Ha & Hab & Hf & _) HX Hl. destruct (poly_cont a Ha) as (Ja & _). destruct (poly_cont b ltac:(lra)) as (Jb & _). destruct (poly_cont X ltac:(lra)) as (JX & _). pose proof jump_bounds as JJ.
  set (s := b - a) in *. assert (Ps : 0 < s) by (unfold s; lra). set (tau := (X - a) / s). assert (Et : X - a = tau * s) by (unfold tau; field; lra). assert (Tr : 0 <= tau <= 1). { unfold s in *. split; [apply (Rmult_le_reg_r (b - a)); lra|apply (Rmult_le_reg_r (b - a)); lra]. }
  assert (Ev : v = (1 - tau) * F a + tau * F b). { unfold on_line in Hl. fold s in Hl. rewrite Et in Hl. apply (Rmult_eq_reg_r s); [|lra]. lra. }
  destruct (cont_steep a X Ha ltac:(lra)) as (U1 & L1). destruct (cont_steep X b ltac:(lra) ltac:(lra)) as (U2 & _). destruct (cont_steep a b Ha ltac:(lra)) as (U3 & _). fold s in U3. replace (b - X) with ((1 - tau) * s) in U2 by (unfold s in *; lra). rewrite Et in U1, L1.
  pose proof (cont_dec a b Ha ltac:(lra)) as D1. pose proof (cont_dec X b ltac:(lra) ltac:(lra)) as D2. pose proof (sl_pos a Ha) as Pa. pose proof (sl_pos X ltac:(lra)) as PX.
  set (eta := 2 / 1000000) in *. assert (He : eta = 2 / 1000000) by reflexivity. set (M := (1 + eta) * (sl a * s)). assert (PM : 0 <= M) by (unfold M; nra).
  set (g := sl X * s) in *. assert (Pg : 0 < g) by (unfold g; nra).
  assert (L1' : tau * g <= (1 + eta) * (cont a - cont X)) by (unfold g; lra). assert (U1' : cont a - cont X <= M * tau) by (unfold M; lra). assert (U2' : cont X - cont b <= (1 + eta) * ((1 - tau) * g)) by (unfold g; lra).
  assert (Hch : cont X <= (1 - tau) * cont a + tau * cont b + 5 * eta * M).
  { assert (K1 : tau * (cont X - cont b) <= tau * ((1 + eta) * ((1 - tau) * g))) by (apply Rmult_le_compat_l; lra). assert (K2 : (1 - tau) * (tau * g) <= (1 - tau) * ((1 + eta) * (cont a - cont X))) by (apply Rmult_le_compat_l; lra).
    set (p := cont a - cont X) in *. set (q := cont X - cont b) in *. assert (G1 : tau * q <= (1 + eta) * (1 + eta) * ((1 - tau) * p)) by nra. assert (Pp : 0 <= (1 - tau) * p). { assert (0 <= p) by (unfold p; pose proof (cont_dec a X Ha ltac:(lra)); lra). nra. } assert (Pp2 : (1 - tau) * p <= M) by nra.
    assert (tau * q - (1 - tau) * p <= 5 * eta * M). { assert ((1 + eta) * (1 + eta) <= 1 + 5 * eta) by (rewrite He; lra). nra. } unfold p, q in *. lra. }
  destruct (chord_error (cont a) (cont b) (cont X) M (5 * eta * M) tau Tr D2 ltac:(lra) D1 ltac:(unfold M; lra) PM Hch ltac:(nra)) as (E1 & E2).
  assert (M <= 127 / 100 * tol) by (unfold M; rewrite He in *; nra).
  assert (V1 : (1 - tau) * cont a + tau * cont b <= v <= (1 - tau) * cont a + tau * cont b + jump) by (rewrite Ev; assert (W1 : (1 - tau) * cont a <= (1 - tau) * F a <= (1 - tau) * (cont a + jump)) by (split; apply Rmult_le_compat_l; lra); assert (W2 : tau * cont b <= tau * F b <= tau * (cont b + jump)) by (split; apply Rmult_le_compat_l; lra); clear - W1 W2; lra).
  clear - V1 E1 E2 H JX JJ Ht He PM. apply Rabs_le. rewrite He in *. lra.
Qed.
Lemma table_accuracy n tol t x v : (1 <= n)%nat -> 2 / 1000000 <= tol -> (Z.of_nat (pnebi_start n) < 2 ^ 31)%Z -> init n tol = Ret t -> (exists p, In p (nodes t) /\ Rabs x <= fst p) -> eval t 0 x = Ret v ->
  Rabs (v - F x) <= tol / 3.
Proof.
  intros Hn Ht Hs Hi (p & Hp & Hxp) Hv. pose proof (init_fair n tol t Hn Ht Hs Hi) as HF.
  assert (Hc : (ceilZ (2 / tol) + 20 < 2 ^ 31)%Z). { unfold init in Hi. destruct (Rlt_dec 0 tol); [|discriminate Hi]. destruct (Z.leb_spec (2 ^ 31) (ceilZ (2 / tol) + 20)); [discriminate Hi|assumption]. }
  destruct (init_lemma n tol Hn ltac:(lra) Hs Hc) as (t' & Ei & Om & HT & _ & Rows). rewrite Hi in Ei. injection Ei as <-. rewrite Forall_forall in Rows. rewrite <- Om in HT.
  destruct (eval_lemma t x [] HT) as (y & _ & _ & Lk & _ & Ev). specialize (Ev 0%nat ltac:(lia)). change (Z.of_nat 0) with 0%Z in Ev. rewrite Hv in Ev. injection Ev as Ev. specialize (Lk 0%nat ltac:(lia)). rewrite <- Ev in Lk.
  assert (Row : forall i q, nth_error (nodes t) i = Some q -> 0 <= fst q /\ at_ (snd q) 0 = F (fst q)).
  { intros i q Hq. pose proof (Rows q (nth_error_In _ _ Hq)) as R. destruct i as [|i].
    - destruct HT as ((y0 & r & E0) & _). rewrite E0 in Hq. injection Hq as <-. cbn [fst snd] in *. split; [lra|]. destruct (pnebi_small n 0 []) as (y' & E' & _ & Y0 & _); [rewrite Rabs_R0; lra|]. rewrite R in E'. injection E' as <-. rewrite Y0, F_0. reflexivity.
    - destruct (nth_error (nodes t) i) as [q'|] eqn:Eq'; [|apply nth_error_None in Eq'; apply nth_error_lt in Hq; lia]. destruct (HF i q' q Eq' Hq) as (_ & _ & _ & Ge).
      destruct (first_order n (fst q) [] (snd q) Hn ltac:(rewrite Rabs_right; lra) Hs R) as (A & _). split; [lra|exact A]. }
  destruct (ub_node _ _ (Rabs x) HT (Rabs_pos x)) as (i & lo & EU & El & Hlo & Llo & Hup). rewrite <- polynom_abs. destruct (Row i lo El) as (Plo & Rlo). destruct (nth_error (nodes t) (S i)) as [up|] eqn:Eu.
  - destruct (Hup _ eq_refl) as (Hx & _). destruct Lk as (Lk & _). specialize (Lk i lo up El Eu ltac:(lra)) as (On & _). destruct (Row _ _ Eu) as (_ & Rup). rewrite Rlo, Rup in On. assert (Hr : fst lo <= Rabs x <= fst up) by lra. exact (segment_error tol _ _ _ _ Ht (HF _ _ _ El Eu) Hr On).
  - assert (Eq : Rabs x = fst lo).
    { apply Rle_antisym; [|exact Hlo]. apply In_nth_error in Hp. destruct Hp as (j & Hp). apply nth_error_None in Eu. pose proof (nth_error_lt _ _ _ Hp). destruct (Nat.eq_dec j i) as [->|Ne]; [congruence|]. assert (J : (j < i)%nat) by lia. pose proof (table_inc _ _ HT j i p lo J Hp El). lra. }
    destruct Lk as (_ & Lk & _). specialize (Lk i lo El Eq). rewrite Lk, Rlo, Eq. rewrite Rminus_eq_0, Rabs_R0. lra.
Qed.

(** ** Tolerances below 2e-6 *)
Lemma loop_prefix n tol : forall fuel x d y0 acc l, init_loop fuel n tol x d y0 acc = Ret l -> exists e, l = acc ++ e.
Proof.
  induction fuel as [|fuel IH]; intros x d y0 acc l; cbn [init_loop]; [intros E; injection E as <-; exists []; now rewrite app_nil_r|].
  destruct (pnebiPoint n (x - tol / d)) as [[p y]| | |]; cbn [obind]; try discriminate. destruct (vread y 0) as [a| | |]; cbn [obind]; try discriminate. destruct (vread y 1) as [b| | |]; cbn [obind]; try discriminate.
  intros E. destruct (IH _ _ _ _ _ E) as (e & ->). rewrite <- app_assoc. eauto.
Qed.
Lemma init_degenerate n tol t : (1 <= n)%nat -> 0 < tol < 2 / 1000000 -> (Z.of_nat (pnebi_start n) < 2 ^ 31)%Z -> init n tol = Ret t ->
  exists y0 y1 y2 r, nodes t = (0, y0) :: (tol / 2, y1) :: (tol / 2 + tol / (10 * DBL_MIN), y2) :: r /\ at_ y0 0 = 2 /\ at_ y1 0 = 2 /\ 0 < at_ y2 0.
Proof.
  intros Hn Ht Hs. unfold init. destruct (Rlt_dec 0 tol); [|lra]. destruct (Z.leb_spec (2 ^ 31) (ceilZ (2 / tol) + 20)) as [|Hc]; [discriminate|].
  destruct (point_ok n 0 Hs) as (y & E & L & EV). rewrite E. cbn [obind].
  assert (V0 : vread y 0 = Ret (at_ y 0)) by (apply vread_Ret, at_nth; lia). assert (V1 : vread y 1 = Ret (at_ y 1)) by (apply vread_Ret, at_nth; lia). rewrite V1. cbn [obind]. rewrite V0. cbn [obind].
  destruct (pnebi_small n 0 (repeat 0 (n + 1))) as (y' & E' & _ & Y0 & Y1); [rewrite Rabs_R0; lra|]. rewrite EV in E'. injection E' as <-. rewrite Y0, (Y1 1%nat) by lia.
  pose proof (ceil_pos (2 / tol) ltac:(apply Rdiv_lt_0_compat; lra)) as Hc0.
  destruct (Z.to_nat (ceilZ (2 / tol) + 20 - 1)) as [|[|f]] eqn:Ef; [lia|lia|].
  intros H1. destruct (init_loop (S (S f)) n tol 0 (0 - 2) 2 [(0, y)]) as [l| | |] eqn:El; try discriminate H1. cbn [obind] in H1. injection H1 as <-. cbn [nodes]. revert El. cbn [init_loop].
  replace (0 - tol / (0 - 2)) with (tol / 2) by field.
  destruct (point_ok n (tol / 2) Hs) as (ya & Ea & La & EVa). rewrite Ea. cbn [obind].
  assert (Va0 : vread ya 0 = Ret (at_ ya 0)) by (apply vread_Ret, at_nth; lia). assert (Va1 : vread ya 1 = Ret (at_ ya 1)) by (apply vread_Ret, at_nth; lia). rewrite Va0. cbn [obind]. rewrite Va1. cbn [obind].
  destruct (pnebi_small n (tol / 2) (repeat 0 (n + 1))) as (y' & E' & _ & Ya0 & Ya1); [rewrite Rabs_right; lra|]. rewrite EVa in E'. injection E' as <-. rewrite Ya0, (Ya1 1%nat) by lia.
  pose proof DBL_MIN_pos as Dp. assert (Ed : minR (maxR (0 - 2) ((0 - 2) * (2 - 2) / tol)) (-10 * DBL_MIN) = -10 * DBL_MIN).
  { replace ((0 - 2) * (2 - 2) / tol) with 0 by (field; lra). unfold maxR. destruct (Rlt_dec (0 - 2) 0); [|lra]. unfold minR. destruct (Rlt_dec (-10 * DBL_MIN) 0); lra. }
  rewrite Ed. replace (tol / 2 - tol / (-10 * DBL_MIN)) with (tol / 2 + tol / (10 * DBL_MIN)) by (field; lra). set (x2 := tol / 2 + tol / (10 * DBL_MIN)).
  destruct (point_ok n x2 Hs) as (yb & Eb & Lb & EVb). rewrite Eb. cbn [obind].
  assert (Vb0 : vread yb 0 = Ret (at_ yb 0)) by (apply vread_Ret, at_nth; lia). assert (Vb1 : vread yb 1 = Ret (at_ yb 1)) by (apply vread_Ret, at_nth; lia). rewrite Vb0. cbn [obind]. rewrite Vb1. cbn [obind].
  intros El. destruct (loop_prefix _ _ _ _ _ _ _ _ El) as (e & ->). exists y, ya, yb, e. split; [reflexivity|]. split; [exact Y0|]. split; [exact Ya0|].
  destruct (Rlt_dec (Rabs x2) (1 / 1000000)) as [Lx|Lx].
  - destruct (pnebi_small n x2 (repeat 0 (n + 1)) Lx) as (y' & E' & _ & Yb0 & _). rewrite EVb in E'. injection E' as <-. lra.
  - destruct (pnebi_large n x2 (repeat 0 (n + 1)) ltac:(lra) Hs) as (y' & w & E' & _ & _ & W0 & _ & _ & A). rewrite EVb in E'. injection E' as <-. rewrite A by lia. rewrite W0. apply polynom_pos.
Qed.
Lemma tol_int tol : 0 < tol -> (ceilZ (2 / tol) + 20 < 2 ^ 31)%Z -> 1 / 10000000000 <= tol.
Proof.
  intros Ht Hc. unfold ceilZ in Hc. pose proof (base_Int_part (- (2 / tol))) as [B _]. set (k := Int_part (- (2 / tol))) in *. assert (K : (- k <= 2 ^ 31)%Z) by lia. apply IZR_le in K. rewrite opp_IZR in K. change (IZR (2 ^ 31)) with 2147483648 in K.
  assert (2 / tol <= 2147483648) by lra. replace 2 with (2 / tol * tol) in * at 1 by (field; lra). destruct (Rle_lt_dec (1 / 10000000000) tol); [assumption|]. exfalso. assert (X : 2 = 2 / tol * tol) by (field; lra). assert (0 < 2 / tol) by (apply Rdiv_lt_0_compat; lra). nra.
Qed.
Lemma degenerate_lookup n tol t x v : (1 <= n)%nat -> 0 < tol < 2 / 1000000 -> (Z.of_nat (pnebi_start n) < 2 ^ 31)%Z -> init n tol = Ret t -> Rabs x <= 10 ^ 100 -> eval t 0 x = Ret v -> 199 / 100 <= v.
Proof.
  intros Hn Ht Hs Hi Hx Hv. destruct (init_degenerate n tol t Hn Ht Hs Hi) as (y0 & y1 & y2 & r & EN & R0 & R1 & R2).
  assert (Hc : (ceilZ (2 / tol) + 20 < 2 ^ 31)%Z). { unfold init in Hi. destruct (Rlt_dec 0 tol); [|discriminate Hi]. destruct (Z.leb_spec (2 ^ 31) (ceilZ (2 / tol) + 20)); [discriminate Hi|assumption]. }
  pose proof (tol_int tol ltac:(lra) Hc) as Lt. destruct (init_lemma n tol Hn ltac:(lra) Hs Hc) as (t' & Ei & Om & HT & _ & _). rewrite Hi in Ei. injection Ei as <-. rewrite <- Om in HT.
  destruct (eval_lemma t x [] HT) as (y & _ & _ & Lk & _ & Ev). specialize (Ev 0%nat ltac:(lia)). change (Z.of_nat 0) with 0%Z in Ev. rewrite Hv in Ev. injection Ev as Ev. specialize (Lk 0%nat ltac:(lia)). rewrite <- Ev in Lk. destruct Lk as (Lk & _). rewrite EN in Lk. pose proof (Rabs_pos x) as Px.
  assert (Hbig : tol / (10 * DBL_MIN) >= 10 ^ 200).
  { unfold DBL_MIN. replace (tol / (10 * / IZR (2 ^ 1022))) with (tol / 10 * IZR (2 ^ 1022)) by (field; apply not_0_IZR; discriminate). rewrite pow_IZR. assert (IZR (10 ^ 211) <= IZR (2 ^ 1022)) by (apply IZR_le; apply Z.leb_le; vm_compute; reflexivity).
    apply Rle_ge. apply (Rle_trans _ (1 / 100000000000 * IZR (10 ^ 211))); [|nra]. replace (10 ^ 211)%Z with (10 ^ 11 * 10 ^ 200)%Z by (rewrite <- Z.pow_add_r by lia; reflexivity). rewrite mult_IZR. change (Z.of_nat 200) with 200%Z. replace (IZR (10 ^ 11)) with 100000000000 by reflexivity. right. field. }
  assert (Hp : 10 ^ 200 = 10 ^ 100 * 10 ^ 100) by (rewrite <- pow_add; reflexivity). assert (Hq : 1000 <= 10 ^ 100). { replace 100%nat with (3 + 97)%nat by reflexivity. rewrite pow_add. assert (1 <= 10 ^ 97) by (apply pow_R1_Rle; lra). lra. }
  set (B := 10 ^ 100) in *. clearbody B. set (h := tol / (10 * DBL_MIN)) in *. clearbody h. destruct (Rle_lt_dec (Rabs x) (tol / 2)) as [L|L].
  - destruct (Lk 0%nat (0, y0) (tol / 2, y1) eq_refl eq_refl) as (_ & Bt); [cbn [fst]; lra|]. cbn [snd] in Bt. rewrite R0, R1 in Bt. unfold between in Bt. lra.
  - destruct (Lk 1%nat (tol / 2, y1) (tol / 2 + h, y2) eq_refl eq_refl) as (On & _); [cbn [fst]; nra|]. cbn [fst snd] in On. rewrite R1 in On. unfold on_line in On. replace (tol / 2 + h - tol / 2) with h in On by ring.
    assert (Ph : 0 < h) by nra. assert ((v - 2) * h >= - (2) * B) by nra. destruct (Rle_lt_dec (199 / 100) v); [assumption|]. exfalso. nra.
Qed.
Lemma degenerate_refuted : exists n tol t x v, init n tol = Ret t /\ (1 <= n)%nat /\ 0 < tol /\ eval t 0 x = Ret v /\ 1 < Rabs (v - F x).
Proof.
  assert (Hc : (ceilZ (2 / (1 / 1000000)) + 20 < 2 ^ 31)%Z). { replace (2 / (1 / 1000000)) with 2000000 by lra. unfold ceilZ. pose proof (base_Int_part (- (2000000))) as [_ B]. assert (H : IZR (-2000002) < IZR (Int_part (- (2000000)))) by lra. apply lt_IZR in H. lia. }
  destruct (init_lemma 1 (1 / 1000000) ltac:(lia) ltac:(lra) ltac:(reflexivity) Hc) as (t & Ei & Om & HT & _). rewrite <- Om in HT. destruct (eval_lemma t (15 / 4) [] HT) as (y & _ & _ & _ & _ & Ev). specialize (Ev 0%nat ltac:(lia)). change (Z.of_nat 0) with 0%Z in Ev.
  exists 1%nat, (1 / 1000000), t, (15 / 4), (at_ y 0). split; [exact Ei|]. split; [lia|]. split; [lra|]. split; [exact Ev|].
  assert (V : 199 / 100 <= at_ y 0). { apply (degenerate_lookup 1 (1 / 1000000) t (15 / 4)); [lia|lra|reflexivity|exact Ei| |exact Ev]. rewrite Rabs_right by lra. replace 100%nat with (1 + 99)%nat by reflexivity. rewrite pow_add. assert (1 <= 10 ^ 99) by (apply pow_R1_Rle; lra). lra. }
  rewrite large_eq by (rewrite Rabs_right; lra). rewrite (Rabs_right (15 / 4)) by lra. pose proof large_start. rewrite Rabs_right; lra.
Qed.

(** ** Decrease *)
Lemma decreasing_branches x y : Rabs x < Rabs y -> (Rabs y < 375 / 100 \/ 375 / 100 <= Rabs x -> F y < F x) /\ F y < F x + 1 / 100000000.
Proof.
  intros H. pose proof (Rabs_pos x) as P. rewrite <- (polynom_abs x), <- (polynom_abs y). set (a := Rabs x) in *. set (b := Rabs y) in *. clearbody a b. destruct (poly_cont a P) as (A & A1 & A2). destruct (poly_cont b ltac:(lra)) as (B & B1 & B2). pose proof jump_bounds.
  destruct (cont_steep a b P ltac:(lra)) as (_ & S). pose proof (sl_pos b ltac:(lra)). assert (0 < cont a - cont b) by nra. split; [|lra]. intros [L|L].
  - rewrite A1, B1 by lra. lra.
  - rewrite A2, B2 by lra. lra.
Qed.
Lemma jump_refuted : exists x y, 0 <= x < y /\ F x < F y.
Proof.
  exists (15 / 4 - 1 / 1000000000), (15 / 4). split; [lra|]. rewrite small_eq; rewrite Rabs_right by lra; [|lra]. rewrite large_eq; rewrite Rabs_right by lra; [|lra].
  pose proof (small_convex (15 / 4 - 1 / 1000000000) (15 / 4) ltac:(lra) ltac:(lra) ltac:(lra)) as (_ & S). pose proof (slope_dec 0 (15 / 4 - 1 / 1000000000) ltac:(lra) ltac:(lra) ltac:(lra)) as D. pose proof small_end. pose proof large_start.
  assert (E0 : slope 0 = 2). { unfold slope. rewrite Ropp_0, exp_0. replace (0 / (375 / 100)) with 0 by lra. replace fallP with (150000000%Z :: tl fallP) by reflexivity. rewrite zeval_cons. lra. } lra.
Qed.
Lemma table_case : exists t v, init 1 1 = Ret t /\ (exists p, In p (nodes t) /\ Rabs (1 / 4) <= fst p) /\ eval t 0 (1 / 4) = Ret v.
Proof.
  destruct (init_lemma 1 1 ltac:(lia) ltac:(lra) ltac:(reflexivity) ceil4) as (t & Ei & Om & HT & Ln & _). rewrite <- Om in HT. destruct (eval_lemma t (1 / 4) [] HT) as (y & _ & _ & _ & _ & Ev). specialize (Ev 0%nat ltac:(lia)). change (Z.of_nat 0) with 0%Z in Ev.
  exists t, (at_ y 0). split; [exact Ei|]. split; [|exact Ev]. revert Ei. unfold init. destruct (Rlt_dec 0 1); [|lra]. destruct (Z.leb_spec (2 ^ 31) (ceilZ (2 / 1) + 20)); [discriminate|].
  destruct (point_ok 1 0 ltac:(reflexivity)) as (y' & E & L & EV). rewrite E. cbn [obind].
  assert (V0 : vread y' 0 = Ret (at_ y' 0)) by (apply vread_Ret, at_nth; lia). assert (V1 : vread y' 1 = Ret (at_ y' 1)) by (apply vread_Ret, at_nth; lia). rewrite V1. cbn [obind]. rewrite V0. cbn [obind].
  destruct (pnebi_small 1 0 (repeat 0 (1 + 1))) as (y'' & E' & _ & Y0 & Y1); [rewrite Rabs_R0; lra|]. rewrite EV in E'. injection E' as <-. rewrite Y0, (Y1 1%nat) by lia.
  pose proof (ceil_pos (2 / 1) ltac:(lra)) as Hc0. destruct (Z.to_nat (ceilZ (2 / 1) + 20 - 1)) as [|f] eqn:Ef; [lia|].
  destruct (init_loop (S f) 1 1 0 (0 - 2) 2 [(0, y')]) as [l| | |] eqn:El; try discriminate. cbn [obind]. intros Ei. injection Ei as <-. cbn [nodes]. revert El. cbn [init_loop].
  destruct (point_ok 1 (0 - 1 / (0 - 2)) ltac:(reflexivity)) as (ya & Ea & La & EVa). rewrite Ea. cbn [obind].
  assert (Va0 : vread ya 0 = Ret (at_ ya 0)) by (apply vread_Ret, at_nth; lia). assert (Va1 : vread ya 1 = Ret (at_ ya 1)) by (apply vread_Ret, at_nth; lia). rewrite Va0. cbn [obind]. rewrite Va1. cbn [obind].
  intros El. destruct (loop_prefix _ _ _ _ _ _ _ _ El) as (e & ->). eexists. split; [right; left; reflexivity|]. cbn [fst]. rewrite Rabs_right by lra. lra.
Qed.
