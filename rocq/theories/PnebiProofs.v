(** * Proofs for PnebiModel. *)
From Coq Require Import List Reals ZArith Arith Lra Lia Bool.
From Verif Require Import Base BaseLemmas FunctionsModel FunctionsSpec FunctionsProofs PnebiModel PnebiSpec.
Import ListNotations.
Open Scope R_scope.

(** ** The polynomial of order 0 *)
Lemma polynom_even x : evaluatePnebi0Polynom (- x) = evaluatePnebi0Polynom x.
Proof.
  unfold evaluatePnebi0Polynom. replace (if Rlt_dec (- x) 0 then - - x else - x) with (if Rlt_dec x 0 then - x else x); [reflexivity|].
  destruct (Rlt_dec x 0), (Rlt_dec (- x) 0); lra.
Qed.
Lemma polynom_pos x : 0 < evaluatePnebi0Polynom x.
Proof.
  unfold evaluatePnebi0Polynom. set (u := if Rlt_dec x 0 then - x else x). assert (Hu : 0 <= u) by (unfold u; destruct (Rlt_dec x 0); lra). clearbody u.
  set (t := u / (375 / 100)). assert (Ht : 0 <= t) by (unfold t; lra). destruct (Rlt_dec t 1) as [H|H].
  - apply Rmult_lt_0_compat; [apply Rmult_lt_0_compat; [lra|apply exp_pos]|]. set (z := t * t). assert (0 <= z) by (unfold z; nra). clearbody z.
    apply Rplus_lt_le_0_compat; [lra|]. apply Rmult_le_pos; [auto|]. repeat (apply Rplus_le_le_0_compat; [lra|apply Rmult_le_pos; [auto|]]). lra.
  - assert (Hu2 : 0 < u) by (unfold t in H; lra). pose proof (sqrt_lt_R0 u Hu2) as S. apply Rdiv_lt_0_compat; [|exact S]. apply Rmult_lt_0_compat; [lra|].
    assert (Hi : 0 < 1 / t <= 1). { split; [apply Rdiv_lt_0_compat; lra|]. apply (Rmult_le_reg_r t); [lra|]. unfold Rdiv. rewrite Rmult_assoc, Rinv_l; lra. }
    set (z := 1 / t) in *. clearbody z. clear - Hi.
    set (e1 := -1647633 / 100000000 + z * (392377 / 100000000)). assert (E1 : -2 / 100 <= e1 <= 0) by (unfold e1; nra). clearbody e1.
    set (e2 := 2635537 / 100000000 + z * e1). assert (E2 : 0 <= e2 <= 3 / 100) by (unfold e2; nra). clearbody e2.
    set (e3 := -2057706 / 100000000 + z * e2). assert (E3 : -3 / 100 <= e3 <= 1 / 100) by (unfold e3; nra). clearbody e3.
    set (e4 := 916281 / 100000000 + z * e3). assert (E4 : -3 / 100 <= e4 <= 3 / 100) by (unfold e4; nra). clearbody e4.
    set (e5 := -157565 / 100000000 + z * e4). assert (E5 : -4 / 100 <= e5 <= 4 / 100) by (unfold e5; nra). clearbody e5.
    set (e6 := 225319 / 100000000 + z * e5). assert (E6 : -5 / 100 <= e6 <= 5 / 100) by (unfold e6; nra). clearbody e6.
    set (e7 := 1328592 / 100000000 + z * e6). assert (E7 : -7 / 100 <= e7 <= 7 / 100) by (unfold e7; nra). clearbody e7. nra.
Qed.

(** ** The recurrence *)
Lemma at_nth v i : (i < length v)%nat -> nth_error v i = Some (at_ v i).
Proof. intros H. unfold at_. now apply nth_error_nth'. Qed.
Lemma at_map (f : R -> R) v i : (i < length v)%nat -> at_ (map f v) i = f (at_ v i).
Proof. intros H. unfold at_. rewrite (nth_indep _ 0 (f 0)) by (now rewrite map_length). apply map_nth. Qed.
Lemma at_lset_eq v i a : (i < length v)%nat -> at_ (lset v i a) i = a.
Proof. intros H. unfold at_. erewrite nth_error_nth; [reflexivity|]. now apply nth_error_lset_eq. Qed.
Lemma at_lset_neq v i j a : i <> j -> at_ (lset v i a) j = at_ v j.
Proof.
  intros H. unfold at_. destruct (nth_error v j) eqn:E.
  - rewrite (nth_error_nth _ _ _ E). apply nth_error_nth. now rewrite nth_error_lset_neq.
  - apply nth_error_None in E. rewrite !nth_overflow; auto. now rewrite length_lset.
Qed.
Lemma vwrite_lt {A} (v : list A) i a : (i < length v)%nat -> vwrite v i a = Ret (lset v i a).
Proof. intros H. unfold vwrite. destruct (nth_error_ex v i H) as (b & ->). reflexivity. Qed.
Lemma SMALL_pos : 0 < SMALL_NUM.
Proof. unfold SMALL_NUM. lra. Qed.

Lemma pnebi_loop_ok n f : 0 < f -> forall k prev curr v, 0 <= prev -> 0 < curr -> (n < length v)%nat ->
  exists v' s w, pnebi_loop k n f prev curr v = Ret v' /\ length v' = length v /\ 0 < s /\
    w (S k) = s * prev /\ w k = s * curr /\
    (forall j, (1 <= j <= k)%nat -> w (j - 1)%nat = w (j + 1)%nat + f * INR j * w j) /\
    (forall j, (j <= k)%nat -> (j <= n)%nat -> at_ v' j = w j) /\
    (forall j, (k < j)%nat \/ (n < j)%nat -> (j < length v)%nat -> at_ v' j = s * at_ v j) /\
    (forall j, (j <= k)%nat -> 0 < w j).
Proof.
  intros Hf. induction k as [|k IH]; intros prev curr v Hp Hc Hn.
  - cbn [pnebi_loop Nat.leb]. rewrite vwrite_lt by lia. cbn [obind].
    assert (W : forall c v1, 0 < c -> length v1 = length v -> at_ v1 0 = c * curr -> (forall j, (0 < j)%nat -> (j < length v)%nat -> at_ v1 j = c * at_ v j) ->
      exists v' s w, @Ret (list R) v1 = Ret v' /\ length v' = length v /\ 0 < s /\ w 1%nat = s * prev /\ w 0%nat = s * curr /\
        (forall j, (1 <= j <= 0)%nat -> w (j - 1)%nat = w (j + 1)%nat + f * INR j * w j) /\ (forall j, (j <= 0)%nat -> (j <= n)%nat -> at_ v' j = w j) /\
        (forall j, (0 < j)%nat \/ (n < j)%nat -> (j < length v)%nat -> at_ v' j = s * at_ v j) /\ (forall j, (j <= 0)%nat -> 0 < w j)).
    { intros c v1 Hc0 L1 A0 Aj. exists v1, c, (fun j => match j with O => c * curr | S _ => c * prev end). split; [reflexivity|]. split; [exact L1|]. split; [exact Hc0|]. split; [reflexivity|]. split; [reflexivity|].
      split; [intros j Hj; lia|]. split; [intros j Hj _; assert (j = O) as -> by lia; exact A0|]. split; [intros j Hj Hl; apply Aj; lia|]. intros j Hj. assert (j = O) as -> by lia. nra. }
    pose proof SMALL_pos. match goal with |- context [if Rlt_dec BIG_NUM ?e then _ else _] => destruct (Rlt_dec BIG_NUM e) end.
    + apply (W SMALL_NUM); [auto|now rewrite map_length, length_lset| |].
      * rewrite at_map by (rewrite length_lset; lia). rewrite at_lset_eq by lia. ring.
      * intros j Hj Hl. rewrite at_map by (rewrite length_lset; lia). rewrite at_lset_neq by lia. ring.
    + apply (W 1); [lra|now rewrite length_lset| |].
      * rewrite at_lset_eq by lia. ring.
      * intros j Hj Hl. rewrite at_lset_neq by lia. ring.
  - cbn [pnebi_loop]. set (next := prev + f * INR (S k) * curr). assert (Hk : 0 < INR (S k)) by (apply lt_0_INR; lia).
    assert (Hnext : 0 < next) by (unfold next; assert (0 < f * INR (S k) * curr) by (repeat apply Rmult_lt_0_compat; auto); lra).
    set (v1 := if (S k <=? n)%nat then lset v (S k) curr else v).
    replace (if (S k <=? n)%nat then vwrite v (S k) curr else Ret v) with (Ret v1) by (unfold v1; destruct (Nat.leb_spec (S k) n); [rewrite vwrite_lt by lia|]; reflexivity). cbn [obind].
    assert (L1 : length v1 = length v) by (unfold v1; destruct (S k <=? n)%nat; [apply length_lset|reflexivity]).
    assert (A1 : (S k <= n)%nat -> at_ v1 (S k) = curr) by (intros Hk1; unfold v1; destruct (Nat.leb_spec (S k) n); [apply at_lset_eq; lia|lia]).
    assert (A2 : forall j, (S k < j)%nat \/ (n < j)%nat -> at_ v1 j = at_ v j) by (intros j Hj; unfold v1; destruct (Nat.leb_spec (S k) n); [apply at_lset_neq; lia|reflexivity]).
    assert (W : forall c v2, 0 < c -> length v2 = length v -> (forall j, (j < length v)%nat -> at_ v2 j = c * at_ v1 j) ->
      exists v' s w, pnebi_loop k n f (curr * c) (next * c) v2 = Ret v' /\ length v' = length v /\ 0 < s /\ w (S (S k)) = s * prev /\ w (S k) = s * curr /\
        (forall j, (1 <= j <= S k)%nat -> w (j - 1)%nat = w (j + 1)%nat + f * INR j * w j) /\ (forall j, (j <= S k)%nat -> (j <= n)%nat -> at_ v' j = w j) /\
        (forall j, (S k < j)%nat \/ (n < j)%nat -> (j < length v)%nat -> at_ v' j = s * at_ v j) /\ (forall j, (j <= S k)%nat -> 0 < w j)).
    { intros c v2 Hc0 L2 A3. assert (0 < curr * c) by (apply Rmult_lt_0_compat; auto). assert (0 < next * c) by (apply Rmult_lt_0_compat; auto).
      destruct (IH (curr * c) (next * c) v2) as (v' & s & w & E & L & Hs & W1 & W2 & W3 & W4 & W5 & W6); [lra|auto|lia|]. exists v', (s * c), (fun j => if Nat.eqb j (S (S k)) then s * c * prev else w j).
      rewrite L2 in *. split; [exact E|]. split; [exact L|]. split; [apply Rmult_lt_0_compat; auto|]. split; [now rewrite Nat.eqb_refl|].
      assert (NE : forall j, (j <= S k)%nat -> Nat.eqb j (S (S k)) = false) by (intros j Hj; apply Nat.eqb_neq; lia).
      split; [rewrite NE by lia; rewrite W1; ring|]. split; [|split; [|split]].
      - intros j Hj. rewrite (NE (j - 1)%nat), (NE j) by lia. destruct (Nat.eqb_spec (j + 1) (S (S k))) as [Ej|Ej].
        + assert (j = S k) as -> by lia. replace (S k - 1)%nat with k by lia. rewrite W1, W2. unfold next. ring.
        + apply W3. lia.
      - intros j Hj Hjn. rewrite NE by lia. destruct (Nat.eq_dec j (S k)) as [->|]; [|apply W4; lia]. rewrite W5 by lia. rewrite A3 by lia. rewrite A1 by lia. rewrite W1. ring.
      - intros j Hj Hl. rewrite W5 by lia. rewrite A3 by lia. rewrite A2 by lia. ring.
      - intros j Hj. rewrite NE by lia. destruct (Nat.eq_dec j (S k)) as [->|]; [|apply W6; lia]. rewrite W1. apply Rmult_lt_0_compat; auto. }
    pose proof SMALL_pos. match goal with |- context [if Rlt_dec BIG_NUM ?e then _ else _] => destruct (Rlt_dec BIG_NUM e) end.
    + apply W; [auto|now rewrite map_length|]. intros j Hj. rewrite at_map by lia. ring.
    + specialize (W 1 v1). rewrite !Rmult_1_r in W. apply W; [lra|auto|]. intros j Hj. ring.
Qed.

Definition grown (v : list R) (m : nat) : list R := if (length v <? m)%nat then v ++ repeat 0 (m - length v) else v.
Lemma grown_length v m : length (grown v m) = Nat.max (length v) m.
Proof. unfold grown. destruct (Nat.ltb_spec (length v) m); [rewrite app_length, repeat_length|]; lia. Qed.
Lemma abs_if x : (if Rlt_dec x 0 then - x else x) = Rabs x.
Proof. destruct (Rlt_dec x 0); [rewrite Rabs_left|rewrite Rabs_right]; lra. Qed.
Lemma polynom_abs x : evaluatePnebi0Polynom (Rabs x) = evaluatePnebi0Polynom x.
Proof. unfold Rabs. destruct (Rcase_abs x); [apply polynom_even|reflexivity]. Qed.

Lemma pnebi_small n x v : Rabs x < 1 / 1000000 -> exists y, evaluatePnebiVector n x v = Ret y /\ length y = Nat.max (length v) (n + 1) /\
  at_ y 0 = 2 /\ forall k, (1 <= k)%nat -> at_ y k = 0.
Proof.
  intros Hx. unfold evaluatePnebiVector. fold (grown v (n + 1)). rewrite abs_if. destruct (Rlt_dec (Rabs x) (1 / 1000000)); [|contradiction].
  pose proof (grown_length v (n + 1)) as L. set (g := grown v (n + 1)) in *. rewrite vwrite_lt by (rewrite map_length; lia). eexists. split; [reflexivity|]. split; [rewrite length_lset, map_length; lia|].
  split; [apply at_lset_eq; rewrite map_length; lia|]. intros k Hk. rewrite at_lset_neq by lia. destruct (Nat.lt_ge_cases k (length g)).
  - now rewrite at_map by lia.
  - unfold at_. apply nth_overflow. now rewrite map_length.
Qed.
Lemma pnebi_large n x v : 1 / 1000000 <= Rabs x -> (Z.of_nat (pnebi_start n) < 2 ^ 31)%Z -> exists y w, evaluatePnebiVector n x v = Ret y /\ length y = Nat.max (length v) (n + 1) /\
  downward (Rabs x) (pnebi_start n) w /\ w 0%nat = evaluatePnebi0Polynom x /\ (forall k, (k <= pnebi_start n)%nat -> 0 < w k) /\
  (n <= pnebi_start n)%nat /\ forall k, (k <= n)%nat -> at_ y k = w k.
Proof.
  intros Hx Hs. unfold evaluatePnebiVector. fold (grown v (n + 1)). rewrite abs_if. destruct (Rlt_dec (Rabs x) (1 / 1000000)); [lra|]. destruct (Z.leb_spec (2 ^ 31) (Z.of_nat (pnebi_start n))); [lia|].
  pose proof (grown_length v (n + 1)) as L. set (g := grown v (n + 1)) in *. set (a := Rabs x) in *.
  destruct (pnebi_loop_ok n (2 / a) ltac:(apply Rdiv_lt_0_compat; lra) (pnebi_start n) 0 1 g) as (v' & s & w & E & L' & Hs0 & W1 & W2 & W3 & W4 & W5 & W6); [lra|lra|lia|].
  assert (Hst : (n <= pnebi_start n)%nat) by (unfold pnebi_start; lia).
  rewrite E. cbn [obind]. assert (V0 : vread v' 0 = Ret (at_ v' 0)) by (apply vread_Ret, at_nth; lia). rewrite V0. cbn [obind]. unfold a at 1. rewrite polynom_abs.
  set (c := evaluatePnebi0Polynom x / at_ v' 0). assert (W0 : at_ v' 0 = w 0%nat) by (apply W4; lia). pose proof (W6 0%nat ltac:(lia)) as Hw0. pose proof (polynom_pos x) as Hpx.
  assert (Hc : 0 < c) by (unfold c; apply Rdiv_lt_0_compat; lra).
  exists (map (fun y => c * y) v'), (fun k => c * w k). split; [reflexivity|]. split; [rewrite map_length; lia|]. split; [|split; [|split; [|split]]].
  - split; [rewrite W1; ring|]. intros k Hk. rewrite W3 by lia. field. lra.
  - unfold c. rewrite W0. field. lra.
  - intros k Hk. apply Rmult_lt_0_compat; auto.
  - exact Hst.
  - intros k Hk. rewrite at_map by lia. rewrite W4 by lia. reflexivity.
Qed.

(** ** Building the table *)
Lemma DBL_MIN_pos : 0 < DBL_MIN.
Proof. unfold DBL_MIN. apply Rinv_0_lt_compat. apply IZR_lt. apply Z.pow_pos_nonneg; lia. Qed.
Lemma pnebi_total n x v : (Z.of_nat (pnebi_start n) < 2 ^ 31)%Z -> exists y, evaluatePnebiVector n x v = Ret y /\ length y = Nat.max (length v) (n + 1).
Proof.
  intros H. destruct (Rlt_dec (Rabs x) (1 / 1000000)) as [Hx|Hx].
  - destruct (pnebi_small n x v Hx) as (y & E & L & _). eauto.
  - destruct (pnebi_large n x v) as (y & w & E & L & _); [lra|auto|]. eauto.
Qed.
Lemma point_ok n x : (Z.of_nat (pnebi_start n) < 2 ^ 31)%Z -> exists y, pnebiPoint n x = Ret (x, y) /\ length y = S n /\ evaluatePnebiVector n x (repeat 0 (n + 1)) = Ret y.
Proof.
  intros H. destruct (pnebi_total n x (repeat 0 (n + 1)) H) as (y & E & L). exists y. unfold pnebiPoint. rewrite E. rewrite repeat_length in L. split; [reflexivity|]. split; [lia|reflexivity].
Qed.
Lemma table_snoc t n x yx x' y : is_table (t ++ [(x, yx)]) n -> x < x' -> length y = S n -> is_table ((t ++ [(x, yx)]) ++ [(x', y)]) n.
Proof.
  intros ((y0 & r & E0) & Inc & Rows) Hx Hy. split; [|split].
  - rewrite E0. exists y0, (r ++ [(x', y)]). reflexivity.
  - intros i a b Ha Hb. assert (Hl : (S i < length ((t ++ [(x, yx)]) ++ [(x', y)]))%nat) by (apply nth_error_Some; congruence). rewrite !app_length in Hl. cbn [length] in Hl.
    rewrite nth_error_app1 in Ha by (rewrite app_length; cbn [length]; lia). destruct (Nat.eq_dec i (length t)) as [->|Hi].
    + rewrite nth_error_app2 in Ha, Hb by (rewrite ?app_length; cbn [length]; lia). rewrite app_length in Hb. cbn [length] in Hb. replace (S (length t) - (length t + 1))%nat with O in Hb by lia. rewrite Nat.sub_diag in Ha. cbn in Ha, Hb. injection Ha as <-. injection Hb as <-. exact Hx.
    + rewrite nth_error_app1 in Hb by (rewrite app_length; cbn [length]; lia). eapply Inc; eauto.
  - intros i a Ha. destruct (Nat.lt_ge_cases i (length (t ++ [(x, yx)]))) as [Hi|Hi].
    + rewrite nth_error_app1 in Ha by lia. eapply Rows; eauto.
    + rewrite nth_error_app2 in Ha by lia. destruct (i - length (t ++ [(x, yx)]))%nat as [|m]; [|destruct m; discriminate Ha]. injection Ha as <-. exact Hy.
Qed.
Lemma init_loop_ok n tol : (1 <= n)%nat -> 0 < tol -> (Z.of_nat (pnebi_start n) < 2 ^ 31)%Z -> forall fuel x yx d y0 t, d < 0 -> is_table (t ++ [(x, yx)]) n ->
  Forall (fun p => evaluatePnebiVector n (fst p) (repeat 0 (n + 1)) = Ret (snd p)) (t ++ [(x, yx)]) ->
  exists l, init_loop fuel n tol x d y0 (t ++ [(x, yx)]) = Ret l /\ is_table l n /\ length l = (length t + 1 + fuel)%nat /\
    Forall (fun p => evaluatePnebiVector n (fst p) (repeat 0 (n + 1)) = Ret (snd p)) l.
Proof.
  intros Hn Ht Hs. induction fuel as [|fuel IH]; intros x yx d y0 t Hd HT HF; cbn [init_loop].
  - eexists. split; [reflexivity|]. split; [exact HT|]. split; [rewrite app_length; cbn; lia|exact HF].
  - destruct (point_ok n (x - tol / d) Hs) as (y & E & L & EV). rewrite E. cbn [obind].
    assert (V0 : vread y 0 = Ret (at_ y 0)) by (apply vread_Ret, at_nth; lia). assert (V1 : vread y 1 = Ret (at_ y 1)) by (apply vread_Ret, at_nth; lia). rewrite V0. cbn [obind]. rewrite V1. cbn [obind].
    match goal with |- context [init_loop fuel n tol ?x' ?d' ?yy _] => destruct (IH x' y d' yy (t ++ [(x, yx)])) as (l & El & Tl & Ll & Fl) end.
    + pose proof DBL_MIN_pos. unfold minR. destruct (Rlt_dec (-10 * DBL_MIN) _); lra.
    + apply table_snoc; [auto| |exact L]. assert (0 < tol / - d) by (apply Rdiv_lt_0_compat; lra). replace (tol / d) with (- (tol / - d)) by (field; lra). lra.
    + apply Forall_app. split; [auto|]. constructor; [exact EV|constructor].
    + exists l. split; [exact El|]. split; [exact Tl|]. split; [rewrite Ll, app_length; cbn; lia|exact Fl].
Qed.
Lemma ceil_pos x : 0 < x -> (0 < ceilZ x)%Z.
Proof.
  intros H. unfold ceilZ. pose proof (base_Int_part (- x)) as [B _]. assert (IZR (Int_part (- x)) < 0) by lra. apply lt_IZR in H0. lia.
Qed.
Lemma init_lemma n tol : (1 <= n)%nat -> 0 < tol -> (Z.of_nat (pnebi_start n) < 2 ^ 31)%Z -> (ceilZ (2 / tol) + 20 < 2 ^ 31)%Z ->
  exists t, init n tol = Ret t /\ orderMax t = n /\ is_table (nodes t) n /\ Z.of_nat (length (nodes t)) = (ceilZ (2 / tol) + 20)%Z /\
    Forall (fun p => evaluatePnebiVector n (fst p) [] = Ret (snd p)) (nodes t).
Proof.
  intros Hn Ht Hs Hc. unfold init. destruct (Rlt_dec 0 tol); [|contradiction]. destruct (Z.leb_spec (2 ^ 31) (ceilZ (2 / tol) + 20)); [lia|].
  destruct (point_ok n 0 Hs) as (y & E & L & EV). rewrite E. cbn [obind].
  assert (V0 : vread y 0 = Ret (at_ y 0)) by (apply vread_Ret, at_nth; lia). assert (V1 : vread y 1 = Ret (at_ y 1)) by (apply vread_Ret, at_nth; lia). rewrite V1. cbn [obind]. rewrite V0. cbn [obind].
  destruct (pnebi_small n 0 (repeat 0 (n + 1))) as (y' & E' & _ & Y0 & Y1); [rewrite Rabs_R0; lra|]. rewrite EV in E'. injection E' as <-. rewrite Y0, (Y1 1%nat) by lia.
  pose proof (ceil_pos (2 / tol) ltac:(apply Rdiv_lt_0_compat; lra)) as Hc0.
  destruct (init_loop_ok n tol Hn Ht Hs (Z.to_nat (ceilZ (2 / tol) + 20 - 1)) 0 y (0 - 2) 2 []) as (l & El & Tl & Ll & Fl).
  - lra.
  - split; [exists y, []; reflexivity|]. split.
    + intros [|i] a b Ha Hb; [discriminate Hb|destruct i; discriminate Ha].
    + intros [|[|i]] a Ha; try discriminate Ha. injection Ha as <-. exact L.
  - constructor; [exact EV|constructor].
  - cbn [app] in El. rewrite El. cbn [obind]. eexists. split; [reflexivity|]. cbn [nodes orderMax]. split; [reflexivity|]. split; [exact Tl|]. split; [rewrite Ll; cbn [length]; lia|].
    eapply Forall_impl; [|exact Fl]. intros [p q]. cbn [fst snd]. unfold evaluatePnebiVector. cbn [length]. rewrite repeat_length, Nat.ltb_irrefl. destruct (Nat.ltb_spec 0 (n + 1)); [|lia]. rewrite Nat.sub_0_r. auto.
Qed.
Lemma init_zero tol : 0 < tol -> (ceilZ (2 / tol) + 20 < 2 ^ 31)%Z -> init 0 tol = UB.
Proof.
  intros Ht Hc. unfold init. destruct (Rlt_dec 0 tol); [|contradiction]. destruct (Z.leb_spec (2 ^ 31) (ceilZ (2 / tol) + 20)); [lia|].
  destruct (point_ok 0 0 ltac:(reflexivity)) as (y & E & L & EV). rewrite E. cbn [obind]. unfold vread. destruct (nth_error y 1) eqn:E1; [|reflexivity]. apply nth_error_lt in E1. lia.
Qed.

(** ** Looking up *)
Lemma table_inc t n : is_table t n -> forall i j a b, (i < j)%nat -> nth_error t i = Some a -> nth_error t j = Some b -> fst a < fst b.
Proof.
  intros (_ & Inc & _) i j a b Hij. revert b. induction Hij as [|j Hij IH]; intros b Ha Hb; [eapply Inc; eauto|].
  destruct (nth_error_ex t j) as (c & Ec); [apply nth_error_lt in Hb; lia|]. specialize (IH c Ha Ec). pose proof (Inc j c b Ec Hb). lra.
Qed.
Lemma ub_spec t x : let u := upper_bound t x in (u <= length t)%nat /\ (forall i a, (i < u)%nat -> nth_error t i = Some a -> fst a <= x) /\ (forall a, nth_error t u = Some a -> x < fst a).
Proof.
  induction t as [|[p y] t IH]; cbn [upper_bound length].
  - split; [lia|]. split; [intros i a Hi; lia|intros a Ha; discriminate Ha].
  - destruct (Rlt_dec x p) as [H|H].
    + split; [lia|]. split; [intros i a Hi; lia|]. intros a Ha. injection Ha as <-. exact H.
    + destruct IH as (I1 & I2 & I3). split; [lia|]. split.
      * intros [|i] a Hi Ha; [injection Ha as <-; cbn; lra|]. apply (I2 i); [lia|exact Ha].
      * intros a Ha. apply I3. exact Ha.
Qed.

(** The value of order k at X >= 0. *)
Definition looked_up (t : list node) (k : nat) (X v : R) : Prop :=
  exists i lo, nth_error t i = Some lo /\ fst lo <= X /\
    match nth_error t (S i) with
    | None => v = at_ (snd lo) k
    | Some up => X < fst up /\ v = (1 - (X - fst lo) / (fst up - fst lo)) * at_ (snd lo) k + (X - fst lo) / (fst up - fst lo) * at_ (snd up) k
    end.
Lemma ub_node t n X : is_table t n -> 0 <= X -> exists i lo, upper_bound t X = S i /\ nth_error t i = Some lo /\ fst lo <= X /\ length (snd lo) = S n /\
  (forall up, nth_error t (S i) = Some up -> X < fst up /\ length (snd up) = S n).
Proof.
  intros HT HX. pose proof (ub_spec t X) as UB0; cbv zeta in UB0; destruct UB0 as (U1 & U2 & U3). destruct HT as ((y & r & E) & Inc & Rows).
  destruct (upper_bound t X) as [|i] eqn:EU. { specialize (U3 (0, y)). rewrite E in U3. specialize (U3 eq_refl). cbn in U3. lra. }
  destruct (nth_error_ex t i ltac:(lia)) as (lo & El). exists i, lo. split; [reflexivity|]. split; [exact El|]. split; [apply (U2 i); [lia|exact El]|]. split; [eapply Rows; eauto|]. intros up Eu. split; [auto|eapply Rows; eauto].
Qed.
Lemma eval_looked t k x : is_table (nodes t) (orderMax t) -> (0 <= k < Z.of_nat (orderMax t))%Z ->
  exists v, eval t k x = Ret v /\ looked_up (nodes t) (Z.to_nat k) (Rabs x) v.
Proof.
  intros HT Hk. destruct (ub_node _ _ (Rabs x) HT (Rabs_pos x)) as (i & lo & EU & El & Hlo & Llo & Hup).
  unfold eval. destruct (nodes t) as [|p r] eqn:EN; [destruct i; discriminate El|]. rewrite <- EN in *. rewrite abs_if.
  replace ((0 <=? k)%Z && (k <? Z.of_nat (orderMax t))%Z)%bool with true by (symmetry; apply andb_true_iff; split; [apply Z.leb_le|apply Z.ltb_lt]; lia).
  rewrite EU. assert (VL : vread (nodes t) i = Ret lo) by (now apply vread_Ret). rewrite VL. cbn [obind]. destruct lo as [lx ly]. cbn [fst snd] in *.
  assert (Va : vread ly (Z.to_nat k) = Ret (at_ ly (Z.to_nat k))) by (apply vread_Ret, at_nth; lia). rewrite Va. cbn [obind].
  destruct (nth_error (nodes t) (S i)) as [[ux uy]|] eqn:Eu.
  - destruct (Hup _ eq_refl) as [Hx Lu]. cbn [fst snd] in *. assert (Vb : vread uy (Z.to_nat k) = Ret (at_ uy (Z.to_nat k))) by (apply vread_Ret, at_nth; lia). rewrite Vb. cbn [obind].
    eexists. split; [reflexivity|]. exists i, (lx, ly). split; [exact El|]. split; [exact Hlo|]. rewrite Eu. cbn [fst snd]. auto.
  - eexists. split; [reflexivity|]. exists i, (lx, ly). split; [exact El|]. split; [exact Hlo|]. rewrite Eu. reflexivity.
Qed.
Lemma mix_ok w a b : forall y, length a = length b -> (length a <= length y)%nat -> length (mix w a b y) = length y /\
  (forall k, (k < length a)%nat -> at_ (mix w a b y) k = (1 - w) * at_ a k + w * at_ b k) /\ (forall k, (length a <= k)%nat -> at_ (mix w a b y) k = at_ y k).
Proof.
  revert b. induction a as [|p a IH]; intros [|q b] [|z y] H1 H2; cbn [length] in *; try lia; cbn [mix length].
  - split; [reflexivity|]. split; [intros k Hk; lia|reflexivity].
  - split; [reflexivity|]. split; [intros k Hk; lia|reflexivity].
  - destruct (IH b y) as (I1 & I2 & I3); [lia|lia|]. split; [lia|]. split; intros [|k] Hk; try lia; [reflexivity|apply I2; lia|apply I3; lia].
Qed.
Lemma copy_ok a : forall y, (length a <= length y)%nat -> exists r, copy a y = Ret r /\ length r = length y /\
  (forall k, (k < length a)%nat -> at_ r k = at_ a k) /\ (forall k, (length a <= k)%nat -> at_ r k = at_ y k).
Proof.
  induction a as [|p a IH]; intros [|z y] H; cbn [length] in *; try lia; cbn [copy].
  - exists []. split; [reflexivity|]. split; [reflexivity|]. split; [intros k Hk; lia|reflexivity].
  - exists (z :: y). split; [reflexivity|]. split; [reflexivity|]. split; [intros k Hk; lia|reflexivity].
  - destruct (IH y ltac:(lia)) as (r & E & L & A & B). rewrite E. cbn [obind]. exists (p :: r). split; [reflexivity|]. split; [cbn; lia|]. split; intros [|k] Hk; try lia; [reflexivity|apply A; lia|apply B; lia].
Qed.
Lemma at_grown v m k : at_ (grown v m) k = at_ v k.
Proof.
  unfold grown. destruct (length v <? m)%nat; [|reflexivity]. unfold at_. destruct (Nat.lt_ge_cases k (length v)); [now apply app_nth1|]. rewrite app_nth2, nth_repeat by lia. symmetry. now apply nth_overflow.
Qed.
Lemma evalAll_looked t x y0 : is_table (nodes t) (orderMax t) ->
  exists y, evalAll t x y0 = Ret y /\ length y = Nat.max (length y0) (orderMax t + 1) /\
    (forall k, (k <= orderMax t)%nat -> looked_up (nodes t) k (Rabs x) (at_ y k)) /\ (forall k, (orderMax t < k)%nat -> at_ y k = at_ y0 k).
Proof.
  intros HT. destruct (ub_node _ _ (Rabs x) HT (Rabs_pos x)) as (i & lo & EU & El & Hlo & Llo & Hup).
  unfold evalAll. destruct (nodes t) as [|p r] eqn:EN; [destruct i; discriminate El|]. rewrite <- EN in *. rewrite abs_if. fold (grown y0 (orderMax t + 1)).
  pose proof (grown_length y0 (orderMax t + 1)) as LG. pose proof (at_grown y0 (orderMax t + 1)) as AG. set (g := grown y0 (orderMax t + 1)) in *.
  rewrite EU. assert (VL : vread (nodes t) i = Ret lo) by (now apply vread_Ret). rewrite VL. cbn [obind]. destruct lo as [lx ly]. cbn [fst snd] in *.
  destruct (nth_error (nodes t) (S i)) as [[ux uy]|] eqn:Eu.
  - destruct (Hup _ eq_refl) as [Hx Lu]. cbn [fst snd] in *. destruct (mix_ok ((Rabs x - lx) / (ux - lx)) ly uy g) as (M1 & M2 & M3); [lia|lia|]. eexists. split; [reflexivity|]. split; [lia|]. split.
    + intros k Hk. exists i, (lx, ly). split; [exact El|]. split; [exact Hlo|]. rewrite Eu. cbn [fst snd]. split; [exact Hx|]. apply M2. lia.
    + intros k Hk. rewrite M3 by lia. apply AG.
  - destruct (copy_ok ly g ltac:(lia)) as (r' & E & L & A & B). rewrite E. eexists. split; [reflexivity|]. split; [lia|]. split.
    + intros k Hk. exists i, (lx, ly). split; [exact El|]. split; [exact Hlo|]. rewrite Eu. apply A. cbn [snd]. lia.
    + intros k Hk. rewrite B by lia. apply AG.
Qed.
Lemma looked_up_unique t n k X v v' : is_table t n -> looked_up t k X v -> looked_up t k X v' -> v = v'.
Proof.
  intros HT (i & lo & E & H & M) (j & lo' & E' & H' & M').
  assert (i = j) as <-.
  { destruct (Nat.lt_total i j) as [L|[->|L]]; [|reflexivity|].
    - exfalso. destruct (nth_error_ex t (S i)) as (c & Ec); [apply nth_error_lt in E'; lia|]. rewrite Ec in M. destruct M as [M _]. destruct (Nat.eq_dec (S i) j) as [<-|]; [rewrite Ec in E'; injection E' as <-; lra|].
      pose proof (table_inc t n HT (S i) j c lo' ltac:(lia) Ec E'). lra.
    - exfalso. destruct (nth_error_ex t (S j)) as (c & Ec); [apply nth_error_lt in E; lia|]. rewrite Ec in M'. destruct M' as [M' _]. destruct (Nat.eq_dec (S j) i) as [<-|]; [rewrite Ec in E; injection E as <-; lra|].
      pose proof (table_inc t n HT (S j) i c lo ltac:(lia) Ec E). lra. }
  rewrite E in E'. injection E' as <-. destruct (nth_error t (S i)); [destruct M, M'|]; congruence.
Qed.

Lemma node_value t n k i a v : is_table t n -> nth_error t i = Some a -> looked_up t k (fst a) v -> v = at_ (snd a) k.
Proof.
  intros HT Ea (j & lo & E & H & M). destruct (Nat.lt_total i j) as [L|[->|L]].
  - pose proof (table_inc t n HT i j a lo L Ea E). lra.
  - rewrite Ea in E. injection E as <-. destruct (nth_error t (S j)) as [up|]; [|exact M]. destruct M as [Hu ->]. field. lra.
  - destruct (nth_error_ex t (S j)) as (c & Ec); [apply nth_error_lt in Ea; lia|]. rewrite Ec in M. destruct M as [M _]. destruct (Nat.eq_dec (S j) i) as [<-|]; [rewrite Ec in Ea; injection Ea as <-; lra|]. pose proof (table_inc t n HT (S j) i c a ltac:(lia) Ec Ea). lra.
Qed.
Lemma looked_up_of t n k X v : is_table t n -> looked_up t k X v -> lookup_of t k X v.
Proof.
  intros HT L. split; [|split].
  - intros i a b Ea Eb HX. assert (Hab : fst a < fst b) by (eapply (table_inc t n HT i (S i)); eauto). destruct (Req_dec X (fst b)) as [->|Hne].
    + rewrite (node_value t n k (S i) b v HT Eb L). split; [unfold on_line; ring|]. unfold between. destruct (Rle_lt_dec (at_ (snd a) k) (at_ (snd b) k)); [left|right]; lra.
    + set (w := (X - fst a) / (fst b - fst a)). assert (Hw : 0 <= w <= 1). { unfold w. split; [apply Rmult_le_pos; [lra|left; apply Rinv_0_lt_compat; lra]|]. apply (Rmult_le_reg_r (fst b - fst a)); [lra|]. unfold Rdiv. rewrite Rmult_assoc, Rinv_l; lra. }
      assert (v = (1 - w) * at_ (snd a) k + w * at_ (snd b) k) as ->. { apply (looked_up_unique t n k X _ _ HT L). exists i, a. split; [exact Ea|]. split; [lra|]. rewrite Eb. split; [lra|reflexivity]. }
      split; [unfold on_line, w; field; lra|]. unfold between. destruct (Rle_lt_dec (at_ (snd a) k) (at_ (snd b) k)); [left|right]; nra.
  - intros i a Ea ->. eapply node_value; eauto.
  - intros i a Ea Hl HX. apply (looked_up_unique t n k X _ _ HT L). exists i, a. split; [exact Ea|]. split; [exact HX|]. assert (nth_error t (S i) = None) as -> by (apply nth_error_None; lia). reflexivity.
Qed.
Lemma eval_lemma t x y0 : is_table (nodes t) (orderMax t) -> exists y, evalAll t x y0 = Ret y /\ length y = Nat.max (length y0) (orderMax t + 1) /\
  (forall k, (k <= orderMax t)%nat -> lookup_of (nodes t) k (Rabs x) (at_ y k)) /\
  (forall k, (orderMax t < k)%nat -> at_ y k = at_ y0 k) /\
  (forall k, (k < orderMax t)%nat -> eval t (Z.of_nat k) x = Ret (at_ y k)).
Proof.
  intros HT. destruct (evalAll_looked t x y0 HT) as (y & E & L & A & B). exists y. split; [exact E|]. split; [exact L|]. split; [|split].
  - intros k Hk. eapply looked_up_of; eauto.
  - exact B.
  - intros k Hk. destruct (eval_looked t (Z.of_nat k) x HT ltac:(lia)) as (v & Ev & Lv). rewrite Ev. rewrite Nat2Z.id in Lv. f_equal. eapply looked_up_unique; eauto. apply A. lia.
Qed.
Lemma eval_rejects t k x : nodes t <> [] -> (k < 0 \/ Z.of_nat (orderMax t) <= k)%Z -> eval t k x = Exit.
Proof.
  intros HN Hk. unfold eval. destruct (nodes t); [congruence|]. replace ((0 <=? k)%Z && (k <? Z.of_nat (orderMax t))%Z)%bool with false; [reflexivity|].
  symmetry. apply andb_false_iff. destruct Hk; [left; apply Z.leb_gt|right; apply Z.ltb_ge]; lia.
Qed.

(** ** Dependence on the order *)
Lemma pnebi_decreasing n x v y k : 1 / 1000000 <= Rabs x -> (Z.of_nat (pnebi_start n) < 2 ^ 31)%Z -> evaluatePnebiVector n x v = Ret y ->
  (1 <= k <= n)%nat -> Rabs x <= 2 * INR k -> 0 < at_ y k <= at_ y (k - 1).
Proof.
  intros Hx Hs E Hk Hxk. destruct (pnebi_large n x v Hx Hs) as (y' & w & E' & _ & (W0 & W) & _ & P & Hn & A). rewrite E in E'. injection E' as <-. rewrite !A by lia.
  split; [apply P; lia|]. rewrite (W k) by lia. assert (0 <= w (k + 1)%nat). { destruct (Nat.eq_dec (k + 1) (S (pnebi_start n))) as [->|]; [lra|]. left. apply P. lia. }
  pose proof (P k ltac:(lia)) as Pk. assert (1 <= 2 * INR k / Rabs x). { apply (Rmult_le_reg_r (Rabs x)); [lra|]. unfold Rdiv. rewrite Rmult_assoc, Rinv_l; lra. }
  nra.
Qed.
Lemma pnebi_not_decreasing : exists y, evaluatePnebiVector 2 1000 [] = Ret y /\ 0 < at_ y 1 < at_ y 2.
Proof.
  destruct (pnebi_large 2 1000 []) as (y & w & E & _ & (W0 & W) & _ & P & Hn & A); [rewrite Rabs_right; lra|reflexivity|]. exists y. split; [exact E|]. rewrite !A by lia. change (pnebi_start 2) with 20%nat in *. rewrite (Rabs_right 1000) in W by lra.
  pose proof (P 1%nat ltac:(lia)). pose proof (P 20%nat ltac:(lia)) as P20. split; [auto|].
  pose proof (W 1%nat ltac:(lia)). pose proof (W 2%nat ltac:(lia)) as E2. pose proof (W 3%nat ltac:(lia)) as E3. pose proof (W 4%nat ltac:(lia)) as E4. pose proof (W 5%nat ltac:(lia)) as E5. pose proof (W 6%nat ltac:(lia)) as E6. pose proof (W 7%nat ltac:(lia)) as E7. pose proof (W 8%nat ltac:(lia)) as E8. pose proof (W 9%nat ltac:(lia)) as E9. pose proof (W 10%nat ltac:(lia)) as E10.
  pose proof (W 11%nat ltac:(lia)) as E11. pose proof (W 12%nat ltac:(lia)) as E12. pose proof (W 13%nat ltac:(lia)) as E13. pose proof (W 14%nat ltac:(lia)) as E14. pose proof (W 15%nat ltac:(lia)) as E15. pose proof (W 16%nat ltac:(lia)) as E16. pose proof (W 17%nat ltac:(lia)) as E17. pose proof (W 18%nat ltac:(lia)) as E18. pose proof (W 19%nat ltac:(lia)) as E19. pose proof (W 20%nat ltac:(lia)) as E20.
  cbn [Nat.sub Nat.add INR] in *. clear - W0 E2 E3 E4 E5 E6 E7 E8 E9 E10 E11 E12 E13 E14 E15 E16 E17 E18 E19 E20 P20.
  rewrite W0 in E20. set (u := w 20%nat) in *. clearbody u.
  assert (F19 : w 19%nat = 40 / 1000 * u) by lra. rewrite F19 in E19. assert (F18 : u <= w 18%nat <= 11 / 10 * u) by lra.
  lra.
Qed.
Lemma ceil4 : (ceilZ (2 / 1) + 20 < 2 ^ 31)%Z.
Proof. replace (2 / 1) with 2 by lra. unfold ceilZ. pose proof (base_Int_part (- (2))) as [_ B]. assert (H : IZR (-4) < IZR (Int_part (- (2)))) by lra. apply lt_IZR in H. lia. Qed.
Lemma init_zero_refuted : exists tol, 0 < tol /\ init 0 tol = UB.
Proof. exists 1. split; [lra|]. apply init_zero; [lra|apply ceil4]. Qed.
Lemma last_order_refuted : exists n tol t, init n tol = Ret t /\ forall x, eval t (Z.of_nat n) x = Exit.
Proof.
  destruct (init_lemma 1 1) as (t & E & O & T & L & _); [lia|lra|reflexivity|apply ceil4|]. exists 1%nat, 1, t. split; [exact E|]. intros x. apply eval_rejects; [|right; rewrite O; lia].
  destruct T as ((y & r & ->) & _). discriminate.
Qed.
Lemma orders_lemma t k x : is_table (nodes t) (orderMax t) ->
  ((0 <= k < Z.of_nat (orderMax t))%Z -> exists v, eval t k x = Ret v /\ lookup_of (nodes t) (Z.to_nat k) (Rabs x) v) /\
  ((k < 0 \/ Z.of_nat (orderMax t) <= k)%Z -> eval t k x = Exit).
Proof.
  intros T. split.
  - intros Hk. destruct (eval_looked t k x T Hk) as (v & E & L). exists v. split; [exact E|]. eapply looked_up_of; eauto.
  - apply eval_rejects. destruct T as ((y & r & ->) & _). discriminate.
Qed.
