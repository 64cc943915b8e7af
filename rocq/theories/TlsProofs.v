(** * Proofs about estimateTranslationTls. *)
From Coq Require Import List ZArith QArith Qabs Bool Lia Lqa Sorting.Sorted Permutation.
From Verif Require Import Base BaseLemmas IntervalModel TlsModel TlsSpec.
Import ListNotations.
Open Scope Q_scope.

(** ** Sums over sets *)
Lemma total_cons f i S : total f (i :: S) = f i + total f S.
Proof. reflexivity. Qed.
Lemma total_perm f S T : Permutation S T -> total f S == total f T.
Proof. induction 1; rewrite ?total_cons in *; try lra. Qed.
Lemma total_ext f g S : (forall i, In i S -> f i == g i) -> total f S == total g S.
Proof. induction S as [|i S IH]; intros H; [reflexivity|]. rewrite !total_cons, IH, H; [reflexivity|now left|]. intros k Hk. apply H. now right. Qed.
Lemma total_add f g S : total (fun i => f i + g i) S == total f S + total g S.
Proof. induction S as [|i S IH]; [cbn; lra|]. rewrite !total_cons, IH. lra. Qed.
Lemma total_scale k f S : total (fun i => k * f i) S == k * total f S.
Proof. induction S as [|i S IH]; [cbn; ring|]. rewrite !total_cons, IH. ring. Qed.
Lemma total_const k S : total (fun _ => k) S == inject_Z (Z.of_nat (length S)) * k.
Proof.
  induction S as [|i S IH]; [cbn; ring|]. rewrite total_cons, IH. cbn [length]. rewrite Nat2Z.inj_succ. unfold Z.succ. rewrite inject_Z_plus. cbn [inject_Z]. ring.
Qed.
Lemma total_pos f S : (forall i, In i S -> 0 < f i) -> S <> [] -> 0 < total f S.
Proof.
  induction S as [|i S IH]; intros H Hne; [contradiction|]. rewrite total_cons. assert (0 < f i) by (apply H; now left).
  destruct S as [|j S]; [cbn; lra|]. assert (0 < total f (j :: S)); [|lra]. apply IH; [|discriminate]. intros k Hk. apply H. now right.
Qed.
Lemma total_flip f l i (a b : nat -> bool) : NoDup l -> In i l -> a i = false -> b i = true -> (forall k, k <> i -> a k = b k) ->
  total f (filter b l) == total f (filter a l) + f i.
Proof.
  intros Hnd Hin Ha Hb Hk. induction l as [|x l IH]; [contradiction|]. inversion Hnd as [|? ? Hx Hnd']; subst. cbn [filter].
  destruct (Nat.eq_dec x i) as [->|Hne].
  - rewrite Ha, Hb, total_cons. assert (E : filter b l = filter a l). { apply filter_ext_in. intros k Hkl. symmetry. apply Hk. intros ->. contradiction. } rewrite E. lra.
  - destruct Hin as [->|Hin]; [contradiction|]. specialize (IH Hnd' Hin). rewrite <- (Hk x Hne). destruct (a x); rewrite ?total_cons; lra.
Qed.
Lemma length_flip l i (a b : nat -> bool) : NoDup l -> In i l -> a i = false -> b i = true -> (forall k, k <> i -> a k = b k) ->
  length (filter b l) = S (length (filter a l)).
Proof.
  intros Hnd Hin Ha Hb Hk. induction l as [|x l IH]; [contradiction|]. inversion Hnd as [|? ? Hx Hnd']; subst. cbn [filter].
  destruct (Nat.eq_dec x i) as [->|Hne].
  - rewrite Ha, Hb. cbn [length]. do 2 f_equal. apply filter_ext_in. intros k Hkl. symmetry. apply Hk. intros ->. contradiction.
  - destruct Hin as [->|Hin]; [contradiction|]. specialize (IH Hnd' Hin). rewrite <- (Hk x Hne). destruct (a x); cbn [length]; lia.
Qed.

(** ** Sorted lists *)
Lemma sorted_app {A} (R : A -> A -> Prop) l1 l2 : StronglySorted R (l1 ++ l2) -> forall x y, In x l1 -> In y l2 -> R x y.
Proof.
  induction l1 as [|a l1 IH]; intros H x y Hx Hy; [contradiction|]. cbn [app] in H. inversion H as [|? ? Hs Hf]; subst. destruct Hx as [->|Hx]; [|eapply IH; eauto].
  rewrite Forall_forall in Hf. apply Hf. apply in_or_app. now right.
Qed.
Lemma sorted_split (l : list (Q * Z)) y : StronglySorted (fun a b => fst a <= fst b) l -> exists p r, l = p ++ r /\ (forall e, In e p -> fst e < y) /\ (forall e, In e r -> y <= fst e).
Proof.
  induction 1 as [|a l Hs (p & r & E & Hp & Hr) Hf]; [exists [], []; repeat split; intros ? []|].
  destruct (Qlt_le_dec (fst a) y) as [Hlt|Hle].
  - exists (a :: p), r. subst. split; [reflexivity|]. split; [|auto]. intros e [<-|He]; auto.
  - exists [], (a :: l). split; [reflexivity|]. split; [intros ? []|]. rewrite Forall_forall in Hf. intros e [<-|He]; [auto|]. specialize (Hf e He). cbn in Hf. lra.
Qed.
Lemma sorted_le_last (l : list (Q * Z)) x e : StronglySorted (fun a b => fst a <= fst b) (l ++ [(x, e)]) -> forall y, In y (l ++ [(x, e)]) -> fst y <= x.
Proof.
  intros H y Hy. apply in_app_or in Hy as [Hy|[<-|[]]]; [|cbn; lra]. change x with (fst (x, e)). apply (sorted_app _ _ _ H); [auto|now left].
Qed.

(** ** End points *)
Lemma to_int_id z : (- 2 ^ 31 <= z < 2 ^ 31)%Z -> to_int z = z.
Proof. intros H. unfold to_int. rewrite Z.mod_small; lia. Qed.
Lemma to_int_neg z : (0 < z < 2 ^ 31)%Z -> to_int (to_size (- z)) = (- z)%Z.
Proof.
  intros H. unfold to_int, to_size. replace (- z mod 2 ^ 64)%Z with (2 ^ 64 - z)%Z.
  - replace (2 ^ 64 - z + 2 ^ 31)%Z with ((2 ^ 31 - z) + (2 ^ 32) * 2 ^ 32)%Z by lia. rewrite Z.mod_add by lia. rewrite Z.mod_small by lia. lia.
  - apply (Z.mod_unique_pos _ _ (-1)); lia.
Qed.

Section E.
Variables values ranges : list Q.
Notation val := (val values).
Notation rng := (rng ranges).
Notation wt := (wt ranges).
Notation n := (length values).

Definition sgn (i : nat) : Z := (Z.of_nat i + 1)%Z.
Definition point (x : Q) (e : Z) : Prop := exists i, (i < n)%nat /\ ((x = val i - rng i /\ e = sgn i) \/ (x = val i + rng i /\ e = (- sgn i)%Z)).

Lemma endpoints_gen vs : forall rs k, length rs = length vs -> (k + Z.of_nat (length vs) < 2 ^ 31)%Z -> (0 <= k)%Z ->
  (forall x e, In (x, e) (endpoints k vs rs) <-> exists i, (i < length vs)%nat /\
    ((x = nth i vs 0 - nth i rs 0 /\ e = (k + sgn i)%Z) \/ (x = nth i vs 0 + nth i rs 0 /\ e = (- (k + sgn i))%Z))) /\
  NoDup (map snd (endpoints k vs rs)) /\ (forall e, In e (map snd (endpoints k vs rs)) -> (k < Z.abs e)%Z) /\ length (endpoints k vs rs) = (2 * length vs)%nat.
Proof.
  induction vs as [|v vs IH]; intros [|r rs] k Hl Hk Hk0; try discriminate.
  - cbn. split; [|split; [constructor|split; [intros e []|reflexivity]]]. intros x e. split; [intros []|]. intros (i & Hi & _). lia.
  - cbn [length] in *. destruct (IH rs (k + 1)%Z) as (H1 & H2 & H3 & H4); try lia. cbn [endpoints]. replace (- k - 1)%Z with (- (k + 1))%Z by lia. rewrite to_int_id, to_int_neg by lia. split; [|split; [|split]].
    + intros x e. cbn [In]. rewrite H1. split.
      * intros [E|[E|(i & Hi & Hx)]].
        -- exists 0%nat. split; [lia|]. left. injection E as <- <-. cbn [nth]. split; [auto|unfold sgn; lia].
        -- exists 0%nat. split; [lia|]. right. injection E as <- <-. cbn [nth]. split; [auto|unfold sgn; lia].
        -- exists (S i). split; [lia|]. cbn [nth]. unfold sgn in *. destruct Hx as [[-> ->]|[-> ->]]; [left|right]; (split; [auto|lia]).
      * intros ([|i] & Hi & Hx); cbn [nth] in Hx.
        -- unfold sgn in Hx. destruct Hx as [[-> ->]|[-> ->]]; [left|right; left]; f_equal; lia.
        -- right; right. exists i. split; [lia|]. unfold sgn in *. destruct Hx as [[-> ->]|[-> ->]]; [left|right]; (split; [auto|lia]).
    + cbn [map snd]. constructor; [|constructor; [|auto]].
      * intros [E|Hin]; [lia|]. apply H3 in Hin. lia.
      * intros Hin. apply H3 in Hin. lia.
    + cbn [map snd]. intros e [<-|[<-|He]]; [lia|lia|]. apply H3 in He. lia.
    + cbn [length]. lia.
Qed.

Hypothesis PR : positive_ranges values ranges.
Hypothesis Hn31 : (Z.of_nat n < 2 ^ 31)%Z.
Variable eps : list (Q * Z).
Hypothesis EP : Permutation (endpoints 0 values ranges) eps.
Hypothesis ES : StronglySorted (fun a b => fst a <= fst b) eps.

Lemma eps_in x e : In (x, e) eps <-> point x e.
Proof.
  destruct PR as [Hl _]. destruct (endpoints_gen values ranges 0 Hl ltac:(lia) ltac:(lia)) as (H1 & _).
  split; intros H; [apply (Permutation_in _ (Permutation_sym EP)) in H; now apply H1 in H|apply (Permutation_in _ EP); now apply H1].
Qed.
Lemma eps_nodup : NoDup (map snd eps).
Proof.
  destruct PR as [Hl _]. destruct (endpoints_gen values ranges 0 Hl ltac:(lia) ltac:(lia)) as (_ & H2 & _). eapply Permutation_NoDup; [|exact H2]. now apply Permutation_map.
Qed.
Lemma eps_length : length eps = (2 * n)%nat.
Proof.
  destruct PR as [Hl _]. destruct (endpoints_gen values ranges 0 Hl ltac:(lia) ltac:(lia)) as (_ & _ & _ & H4). rewrite <- (Permutation_length EP). exact H4.
Qed.

Definition has (e : Z) (p : list (Q * Z)) : bool := existsb (fun x => (snd x =? e)%Z) p.
Lemma has_in e p : has e p = true <-> In e (map snd p).
Proof.
  unfold has. rewrite existsb_exists, in_map_iff. split; intros (x & H1 & H2); exists x; [apply Z.eqb_eq in H2|split; [auto|apply Z.eqb_eq]]; auto.
Qed.
Definition active (p : list (Q * Z)) (i : nat) : bool := has (sgn i) p && negb (has (- sgn i)%Z p).
Definition act (p : list (Q * Z)) : list nat := filter (active p) (seq 0 n).

Lemma has_app e p q : has e (p ++ q) = has e p || has e q.
Proof. apply existsb_app. Qed.
(** In a prefix, an end point is present exactly when it is not in the rest. *)
Lemma side p r e : eps = p ++ r -> In e (map snd eps) -> has e p = negb (has e r).
Proof.
  intros E Hin. pose proof eps_nodup as Hnd. rewrite E, map_app in *. apply in_app_or in Hin.
  destruct (has e p) eqn:E1, (has e r) eqn:E2; auto.
  - apply has_in in E1, E2. exfalso. clear - Hnd E1 E2. induction (map snd p) as [|a l IH]; [contradiction|]. cbn [app] in Hnd. inversion Hnd as [|? ? Ha Hnd']; subst.
    destruct E1 as [->|E1]; [apply Ha; apply in_or_app; now right|auto].
  - exfalso. destruct Hin as [H|H]; apply has_in in H; congruence.
Qed.
Lemma has_point p r e : eps = p ++ r -> has e p = true -> exists x, In (x, e) p /\ point x e.
Proof.
  intros E H. apply has_in, in_map_iff in H as ([x e'] & He & Hin). cbn in He. subst e'. exists x. split; [auto|]. apply eps_in. rewrite E. apply in_or_app. now left.
Qed.
Lemma has_point_r p r e : eps = p ++ r -> has e r = true -> exists x, In (x, e) r /\ point x e.
Proof.
  intros E H. apply has_in, in_map_iff in H as ([x e'] & He & Hin). cbn in He. subst e'. exists x. split; [auto|]. apply eps_in. rewrite E. apply in_or_app. now right.
Qed.
Lemma point_start x i : point x (sgn i) -> x = val i - rng i.
Proof. intros (k & _ & [[-> H]|[-> H]]); unfold sgn in H; [replace k with i by lia; auto|lia]. Qed.
Lemma point_end x i : point x (- sgn i) -> x = val i + rng i.
Proof. intros (k & _ & [[-> H]|[-> H]]); unfold sgn in H; [lia|replace k with i by lia; auto]. Qed.
Lemma start_in i : (i < n)%nat -> In (sgn i) (map snd eps).
Proof. intros H. apply in_map_iff. exists (val i - rng i, sgn i). split; [reflexivity|]. apply eps_in. exists i. auto. Qed.
Lemma end_in i : (i < n)%nat -> In (- sgn i)%Z (map snd eps).
Proof. intros H. apply in_map_iff. exists (val i + rng i, (- sgn i)%Z). split; [reflexivity|]. apply eps_in. exists i. auto. Qed.

(** Where a start or an end stands. *)
Lemma start_before p r i x : eps = p ++ r -> (i < n)%nat -> (forall e, In e r -> x <= fst e) -> val i - rng i < x -> has (sgn i) p = true.
Proof.
  intros E Hi Hr Hx. rewrite (side p r) by auto using start_in. destruct (has (sgn i) r) eqn:H; [|auto]. exfalso.
  destruct (has_point_r p r _ E H) as (y & Hy & Hp). apply point_start in Hp. subst y. apply Hr in Hy. cbn in Hy. lra.
Qed.
Lemma end_after p r i x : eps = p ++ r -> (i < n)%nat -> (forall e, In e p -> fst e <= x) -> x < val i + rng i -> has (- sgn i)%Z p = false.
Proof.
  intros E Hi Hr Hx. destruct (has (- sgn i)%Z p) eqn:H; [|auto]. exfalso.
  destruct (has_point p r _ E H) as (y & Hy & Hp). apply point_end in Hp. subst y. apply Hr in Hy. cbn in Hy. lra.
Qed.

Lemma act_in p i : In i (act p) <-> (i < n)%nat /\ active p i = true.
Proof. unfold act. rewrite filter_In, in_seq. split; intros [H1 H2]; (split; [lia|auto]). Qed.
Lemma act_subset p : subset values (act p).
Proof. split; [apply NoDup_filter, seq_NoDup|]. intros i Hi. now apply act_in in Hi. Qed.

Lemma act_bounds p r i x : eps = p ++ r -> In i (act p) -> (forall e, In e p -> fst e <= x) -> (forall e, In e r -> x <= fst e) -> Qabs (val i - x) <= rng i.
Proof.
  intros E Hi Hp Hr. apply act_in in Hi as [Hi Ha]. apply andb_true_iff in Ha as [H1 H2]. apply negb_true_iff in H2.
  destruct (has_point p r _ E H1) as (y & Hy & Hpy). apply point_start in Hpy. subst y. apply Hp in Hy. cbn in Hy.
  rewrite (side p r) in H2 by auto using end_in. apply negb_false_iff in H2. destruct (has_point_r p r _ E H2) as (z & Hz & Hpz). apply point_end in Hpz. subst z. apply Hr in Hz. cbn in Hz.
  apply Qabs_Qle_condition. lra.
Qed.
Lemma act_bounds_strict p r i x : eps = p ++ r -> In i (act p) -> (forall e, In e p -> fst e <= x) -> (forall e, In e r -> x < fst e) -> val i - rng i <= x /\ x < val i + rng i.
Proof.
  intros E Hi Hp Hr. apply act_in in Hi as [Hi Ha]. apply andb_true_iff in Ha as [H1 H2]. apply negb_true_iff in H2.
  destruct (has_point p r _ E H1) as (y & Hy & Hpy). apply point_start in Hpy. subst y. apply Hp in Hy. cbn in Hy.
  rewrite (side p r) in H2 by auto using end_in. apply negb_false_iff in H2. destruct (has_point_r p r _ E H2) as (z & Hz & Hpz). apply point_end in Hpz. subst z. apply Hr in Hz. cbn in Hz. lra.
Qed.
Lemma act_interior p r i x : eps = p ++ r -> (i < n)%nat -> (forall e, In e p -> fst e <= x) -> (forall e, In e r -> x <= fst e) -> Qabs (val i - x) < rng i -> In i (act p).
Proof.
  intros E Hi Hp Hr Hx. apply Qabs_Qlt_condition in Hx. apply act_in. split; [auto|]. apply andb_true_iff. split; [eapply start_before; eauto; lra|]. apply negb_true_iff. eapply end_after; eauto. lra.
Qed.
Lemma act_covering p x e r : eps = p ++ (x, e) :: r -> covering values ranges x (act (p ++ [(x, e)])).
Proof.
  intros E. assert (E' : eps = (p ++ [(x, e)]) ++ r) by (rewrite <- app_assoc; exact E).
  assert (Hp : forall y, In y (p ++ [(x, e)]) -> fst y <= x).
  { intros y Hy. apply in_app_or in Hy as [Hy|[<-|[]]]; [|cbn; lra]. rewrite E in ES. apply (sorted_app _ _ _ ES y (x, e) Hy). now left. }
  assert (Hr : forall y, In y r -> x <= fst y). { intros y Hy. rewrite E' in ES. apply (sorted_app _ _ _ ES (x, e) y); [apply in_or_app; right; now left|auto]. }
  split; [apply act_subset|]. split; [intros i Hi Hx; eapply act_interior; eauto|]. intros i Hi. eapply act_bounds; eauto.
Qed.

(** ** The running sums *)
Definition sums_of (S : list nat) (s : sums) : Prop :=
  cw s == total wt S /\ card s = Z.of_nat (length S) /\ sumXi s == total val S /\ sumXiSquare s == total (fun i => val i * val i) S /\
  vw s == total (fun i => wt i * val i) S /\ ris s == total rng (seq 0 n) - total rng S.

Lemma weight_wt i : weight (rng i) == wt i.
Proof.
  unfold weight, TlsSpec.wt. destruct (Qlt_le_dec (Qabs (rng i)) (1 # 1000000)) as [H|H]; destruct (Qle_bool (1 # 1000000) (Qabs (rng i))) eqn:E.
  - apply Qle_bool_iff in E. lra.
  - reflexivity.
  - unfold Qdiv. ring.
  - apply Qle_bool_iff in H. congruence.
Qed.
Lemma zread_nth l i : (i < length l)%nat -> zread l (Z.abs (sgn i) - 1) = Ret (nth i l (0:Q)).
Proof.
  intros H. unfold zread, sgn. destruct (Z.ltb_spec (Z.abs (Z.of_nat i + 1) - 1) 0); [lia|]. unfold vread. replace (Z.to_nat (Z.abs (Z.of_nat i + 1) - 1)) with i by lia. now rewrite (nth_error_nth' l 0 H).
Qed.

Lemma total_seq_plus f : forall l k, total f (seq k l) == fold_right Qplus 0 (map f (seq k l)).
Proof. intros l. induction l as [|l IH]; intros k; [reflexivity|]. cbn [seq map fold_right]. rewrite total_cons, IH. reflexivity. Qed.
Lemma fold_left_plus l : forall a, fold_left Qplus l a == a + fold_right Qplus 0 l.
Proof. induction l as [|x l IH]; intros a; cbn [fold_left fold_right]; [lra|]. rewrite IH. lra. Qed.
Lemma map_nth_seq (l : list Q) : map (fun i => nth i l 0) (seq 0 (length l)) = l.
Proof.
  apply (nth_ext _ _ 0 0); [now rewrite map_length, seq_length|]. intros k Hk. rewrite map_length, seq_length in Hk.
  rewrite (nth_indep _ 0 (nth 0 l 0)) by (now rewrite map_length, seq_length). rewrite (map_nth (fun i => nth i l 0)). now rewrite seq_nth.
Qed.
Lemma act_nil : act [] = [].
Proof. unfold act. induction (seq 0 n) as [|x l IH]; [reflexivity|]. exact IH. Qed.
Lemma sums0_ok : sums_of (act []) (sums0 ranges).
Proof.
  rewrite act_nil. unfold sums_of, sums0. cbn. repeat split; try reflexivity. rewrite total_seq_plus, fold_left_plus.
  destruct PR as [Hl _]. rewrite <- Hl. unfold TlsSpec.rng. rewrite map_nth_seq. cbn [total fold_right]. lra.
Qed.

Lemma step_ok p x e r s : eps = p ++ (x, e) :: r -> sums_of (act p) s -> exists s1, step values ranges s e = Ret s1 /\ sums_of (act (p ++ [(x, e)])) s1.
Proof.
  intros E (I1 & I2 & I3 & I4 & I5 & I6). pose proof PR as [Hl Hpos].
  assert (Hpt : point x e) by (apply eps_in; rewrite E; apply in_or_app; right; now left).
  assert (Hne : has e p = false). { rewrite (side p ((x, e) :: r)) by (auto; rewrite E, map_app; apply in_or_app; right; now left). cbn. now rewrite Z.eqb_refl. }
  assert (Hold : forall y, In y p -> fst y <= x). { intros y Hy. rewrite E in ES. apply (sorted_app _ _ _ ES y (x, e) Hy). now left. }
  assert (Hnew : forall y, In y ((x, e) :: r) -> x <= fst y).
  { intros y [<-|Hy]; [cbn; lra|]. rewrite E in ES. replace (p ++ (x, e) :: r) with ((p ++ [(x, e)]) ++ r) in ES by now rewrite <- app_assoc. apply (sorted_app _ _ _ ES (x, e) y); [apply in_or_app; right; now left|auto]. }
  destruct Hpt as (i & Hi & [[Hx He]|[Hx He]]).
  - assert (Ha : active p i = false) by (unfold active; rewrite <- He, Hne; reflexivity).
    assert (Hb : active (p ++ [(x, e)]) i = true).
    { unfold active. rewrite !has_app. subst e. rewrite Hne. cbn [has existsb snd orb]. rewrite Z.eqb_refl. cbn [orb andb].
      replace (sgn i =? - sgn i)%Z with false by (symmetry; apply Z.eqb_neq; unfold sgn; lia). rewrite !orb_false_r. apply negb_true_iff. eapply end_after with (x := x); [exact E|auto|auto|]. specialize (Hpos i Hi). rewrite Hx. lra. }
    assert (Hk : forall k, k <> i -> active p k = active (p ++ [(x, e)]) k).
    { intros k Hk. unfold active. rewrite !has_app. subst e. cbn [has existsb snd].
      replace (sgn i =? sgn k)%Z with false by (symmetry; apply Z.eqb_neq; unfold sgn; lia). replace (sgn i =? - sgn k)%Z with false by (symmetry; apply Z.eqb_neq; unfold sgn; lia). now rewrite !orb_false_r. }
    assert (Hin : In i (seq 0 n)) by (apply in_seq; lia).
    unfold step. subst e. rewrite !zread_nth by lia. cbn [obind]. replace (0 <? sgn i)%Z with true by (symmetry; apply Z.ltb_lt; unfold sgn; lia). eexists. split; [reflexivity|].
    fold (val i). fold (rng i). change (inject_Z 1) with 1. pose proof (weight_wt i) as Hw. unfold sums_of, act in *. cbn [cw card sumXi sumXiSquare vw ris].
    rewrite !(fun f => total_flip f _ i _ _ (seq_NoDup n 0) Hin Ha Hb Hk), (length_flip _ i _ _ (seq_NoDup n 0) Hin Ha Hb Hk), I1, I2, I3, I4, I5, I6, Hw.
    repeat split; try ring. lia.
  - assert (Hs : has (sgn i) p = true).
    { eapply start_before with (x := x); [exact E|auto|auto|]. specialize (Hpos i Hi). rewrite Hx. lra. }
    assert (Hb : active p i = true) by (unfold active; rewrite Hs, <- He, Hne; reflexivity).
    assert (Ha : active (p ++ [(x, e)]) i = false).
    { unfold active. rewrite !has_app. subst e. rewrite Hs. cbn [has existsb snd orb]. rewrite Z.eqb_refl. cbn [orb]. now rewrite orb_true_r. }
    assert (Hk : forall k, k <> i -> active (p ++ [(x, e)]) k = active p k).
    { intros k Hk. unfold active. rewrite !has_app. subst e. cbn [has existsb snd].
      replace (- sgn i =? sgn k)%Z with false by (symmetry; apply Z.eqb_neq; unfold sgn; lia). replace (- sgn i =? - sgn k)%Z with false by (symmetry; apply Z.eqb_neq; unfold sgn; lia). now rewrite !orb_false_r. }
    assert (Hin : In i (seq 0 n)) by (apply in_seq; lia).
    unfold step. subst e. rewrite Z.abs_opp. rewrite !zread_nth by lia. cbn [obind]. replace (0 <? - sgn i)%Z with false by (symmetry; apply Z.ltb_ge; unfold sgn; lia). eexists. split; [reflexivity|].
    fold (val i). fold (rng i). change (inject_Z (-1)) with (- (1)). pose proof (weight_wt i) as Hw. unfold sums_of, act in *. cbn [cw card sumXi sumXiSquare vw ris].
    rewrite !(fun f => total_flip f _ i _ _ (seq_NoDup n 0) Hin Ha Hb Hk) in *. rewrite (length_flip _ i _ _ (seq_NoDup n 0) Hin Ha Hb Hk) in I2. rewrite I1, I2, I3, I4, I5, I6, Hw.
    repeat split; try ring. lia.
Qed.

(** ** Candidates *)
Lemma wt_pos i : (i < n)%nat -> 0 < wt i.
Proof.
  intros Hi. destruct PR as [_ Hp]. specialize (Hp i Hi). unfold TlsSpec.wt. destruct (Qlt_le_dec _ _); [reflexivity|]. apply Qinv_lt_0_compat. apply Qmult_lt_0_compat; auto.
Qed.
Lemma square_sum S h : total (fun i => (val i - h) * (val i - h)) S == inject_Z (Z.of_nat (length S)) * h * h + total (fun i => val i * val i) S - 2 * total val S * h.
Proof.
  induction S as [|i S IH]; [cbn; ring|]. rewrite !total_cons, IH. cbn [length]. rewrite Nat2Z.inj_succ. unfold Z.succ. rewrite inject_Z_plus. change (inject_Z 1) with 1. ring.
Qed.
Lemma candidate_ok S s : subset values S -> sums_of S s ->
  (S = [] /\ candidate s = Ret (None, None)) \/
  (S <> [] /\ exists h c, candidate s = Ret (Some h, Some c) /\ h == wmean values ranges S /\ c == cost values ranges S h).
Proof.
  intros [_ Hlt] (I1 & I2 & I3 & I4 & I5 & I6). unfold candidate. destruct S as [|i S'] eqn:ES'.
  - left. split; [auto|]. cbn in I1, I5. rewrite (proj2 (Qeq_bool_iff _ _) I1), (proj2 (Qeq_bool_iff _ _) I5). reflexivity.
  - right. split; [discriminate|]. rewrite <- ES' in *. assert (Hp : 0 < total wt S). { apply total_pos; [|now rewrite ES']. intros k Hk. apply wt_pos. auto. }
    assert (Hq : Qeq_bool (cw s) 0 = false). { destruct (Qeq_bool (cw s) 0) eqn:E; [|auto]. apply Qeq_bool_iff in E. rewrite I1 in E. lra. }
    rewrite Hq. do 2 eexists. split; [reflexivity|]. split; [unfold wmean; rewrite I1, I5; reflexivity|]. unfold cost. rewrite square_sum, I2, I3, I4, I6. ring.
Qed.

Lemma sweep_ok r : forall p s, eps = p ++ r -> sums_of (act p) s -> exists t, sweep values ranges s r = Ret t /\ length t = length r /\
  forall j, (j < length r)%nat -> exists sj cj x e r', nth_error t j = Some (sj, cj) /\ eps = (p ++ firstn j r) ++ (x, e) :: r' /\ sums_of (act ((p ++ firstn j r) ++ [(x, e)])) sj /\ candidate sj = Ret cj.
Proof.
  induction r as [|[x e] r IH]; intros p s E I; cbn [sweep]; [exists []; split; [auto|]; split; [auto|]; intros j Hj; cbn in Hj; lia|].
  destruct (step_ok p x e r s E I) as (s1 & E1 & I1). rewrite E1. cbn [obind].
  destruct (candidate_ok _ s1 (act_subset _) I1) as [[_ C]|(_ & h & c & C & _)]; rewrite C; cbn [obind].
  all: assert (E' : eps = (p ++ [(x, e)]) ++ r) by (rewrite <- app_assoc; exact E).
  all: destruct (IH _ s1 E' I1) as (t & -> & Hl & Ht); cbn [obind]; eexists; (split; [reflexivity|]); (split; [cbn [length]; congruence|]).
  all: intros [|j] Hj; [exists s1; eexists; exists x, e, r; cbn [firstn nth_error]; rewrite app_nil_r; auto|].
  all: cbn [length] in Hj; destruct (Ht j ltac:(lia)) as (sj & cj & y & f & r' & H1 & H2 & H3 & H4); exists sj, cj, y, f, r'; cbn [nth_error firstn].
  all: replace (p ++ (x, e) :: firstn j r) with ((p ++ [(x, e)]) ++ firstn j r) by now rewrite <- app_assoc.
  all: auto.
Qed.
End E.

(** ** min_element *)
Lemma less_some a b : less (Some a) (Some b) = true <-> a < b.
Proof.
  unfold less. rewrite negb_true_iff. split; intros H; [apply Qnot_le_lt; intros Hle; apply Qle_bool_iff in Hle; congruence|].
  destruct (Qle_bool b a) eqn:E; [|auto]. apply Qle_bool_iff in E. lra.
Qed.
Lemma min_loop_ok l : forall bi b i pre, nth_error pre bi = Some (Some b) -> length pre = i -> (forall k c, nth_error pre k = Some (Some c) -> b <= c) ->
  exists c, nth_error (pre ++ l) (min_loop bi (Some b) i l) = Some (Some c) /\ forall k c', nth_error (pre ++ l) k = Some (Some c') -> c <= c'.
Proof.
  induction l as [|x l IH]; intros bi b i pre H1 H2 H3; cbn [min_loop]; [rewrite app_nil_r; exists b; auto|].
  replace (pre ++ x :: l) with ((pre ++ [x]) ++ l) by now rewrite <- app_assoc.
  assert (Hnew : nth_error (pre ++ [x]) i = Some x) by (rewrite nth_error_app2 by lia; replace (i - length pre)%nat with 0%nat by lia; reflexivity).
  assert (Hl : length (pre ++ [x]) = S i) by (rewrite app_length; cbn; lia).
  assert (Hold : forall k c, nth_error (pre ++ [x]) k = Some (Some c) -> nth_error pre k = Some (Some c) \/ x = Some c).
  { intros k c Hk. destruct (Nat.lt_ge_cases k i); [left; now rewrite nth_error_app1 in Hk by lia|right]. rewrite nth_error_app2 in Hk by lia. destruct (k - length pre)%nat as [|m]; cbn in Hk; [congruence|destruct m; discriminate]. }
  destruct (less x (Some b)) eqn:E.
  - destruct x as [x|]; [|discriminate]. apply less_some in E. apply (IH i x (S i) (pre ++ [Some x]) Hnew Hl). intros k c Hk. destruct (Hold k c Hk) as [H|H]; [apply H3 in H; lra|injection H as ->; lra].
  - apply (IH bi b (S i) (pre ++ [x])); [|auto|].
    + rewrite nth_error_app1; [auto|]. apply nth_error_Some. congruence.
    + intros k c Hk. destruct (Hold k c Hk) as [H|H]; [now apply H3 in H|]. subst x. destruct (Qlt_le_dec c b) as [Hc|Hc]; [|auto]. apply less_some in Hc. congruence.
Qed.
Lemma min_element_ok l b : nth_error l 0 = Some (Some b) ->
  exists c, nth_error l (min_element l) = Some (Some c) /\ forall k c', nth_error l k = Some (Some c') -> c <= c'.
Proof.
  destruct l as [|x l]; intros H; [discriminate|]. injection H as ->. cbn [min_element]. apply (min_loop_ok l 0 b 1 [Some b]); auto.
  intros [|k] c Hc; cbn in Hc; [injection Hc as ->; lra|destruct k; discriminate].
Qed.

(** ** The results *)
Lemma perm_of_same S T : NoDup S -> NoDup T -> (forall i : nat, In i S <-> In i T) -> Permutation S T.
Proof. intros. now apply NoDup_Permutation. Qed.
Lemma cost_perm values ranges S T h : Permutation S T -> cost values ranges S h == cost values ranges T h.
Proof. intros P. unfold cost. rewrite !(total_perm _ _ _ P). reflexivity. Qed.
Lemma wmean_perm values ranges S T : Permutation S T -> wmean values ranges S == wmean values ranges T.
Proof. intros P. unfold wmean. rewrite !(total_perm _ _ _ P). reflexivity. Qed.
Lemma cost_eq values ranges S h k : h == k -> cost values ranges S h == cost values ranges S k.
Proof. intros E. unfold cost. rewrite (total_ext _ (fun i => (val values i - k) * (val values i - k))); [reflexivity|]. intros i _. rewrite E. reflexivity. Qed.

Lemma firstn_S_app {A} (r : list A) j x r' : r = firstn j r ++ x :: r' -> (j < length r)%nat -> nth_error r j = Some x /\ forall y, nth_error r (S j) = Some y -> In y r' /\ exists r'', r' = y :: r''.
Proof.
  intros E Hj. assert (Hl : length (firstn j r) = j) by (rewrite firstn_length; lia). split.
  - rewrite E. rewrite nth_error_app2 by lia. rewrite Hl, Nat.sub_diag. reflexivity.
  - intros y Hy. rewrite E in Hy. rewrite nth_error_app2 in Hy by lia. rewrite Hl in Hy. replace (S j - j)%nat with 1%nat in Hy by lia. destruct r' as [|z r'']; [discriminate|]. cbn in Hy. injection Hy as ->.
    split; [now left|eauto].
Qed.

Section R.
Variables values ranges : list Q.
Variable sort : list (Q * Z) -> list (Q * Z).
Hypothesis SO : sorts sort.
Hypothesis PR : positive_ranges values ranges.
Hypothesis Hn31 : (Z.of_nat (length values) < 2 ^ 31)%Z.
Notation eps := (sort (endpoints 0 values ranges)).
Let EP : Permutation (endpoints 0 values ranges) eps := proj1 (SO _).
Let ES : StronglySorted (fun a b => fst a <= fst b) eps := proj2 (SO _).
Notation n := (length values).

Lemma eps_len : length eps = (2 * n)%nat.
Proof. exact (eps_length values ranges PR Hn31 eps EP). Qed.

Lemma trace_lemma : exists t, sweep values ranges (sums0 ranges) eps = Ret t /\ length t = (2 * n)%nat /\
  forall j, (j < 2 * n)%nat -> exists x e S s c, nth_error eps j = Some (x, e) /\ covering values ranges x S /\ nth_error t j = Some (s, c) /\
    (cw s == total (wt ranges) S /\ card s = Z.of_nat (length S) /\ sumXi s == total (val values) S /\
     sumXiSquare s == total (fun i => val values i * val values i) S /\ vw s == total (fun i => wt ranges i * val values i) S /\
     ris s == total (rng ranges) (seq 0 n) - total (rng ranges) S) /\
    (S = [] -> c = (None, None)) /\
    (S <> [] -> exists h k, c = (Some h, Some k) /\ h == wmean values ranges S /\ k == cost values ranges S h) /\
    (forall y f, nth_error eps (j + 1) = Some (y, f) -> x < y -> forall i, (i < n)%nat -> (In i S <-> val values i - rng ranges i <= x /\ x < val values i + rng ranges i)).
Proof.
  destruct (sweep_ok values ranges PR Hn31 eps EP ES eps [] (sums0 ranges) eq_refl (sums0_ok values ranges PR)) as (t & Et & Hl & Ht).
  exists t. split; [exact Et|]. rewrite eps_len in *. split; [auto|]. intros j Hj. destruct (Ht j Hj) as (s & c & x & e & r' & H1 & H2 & H3 & H4). cbn [app] in *.
  set (p := firstn j eps) in *. exists x, e, (act values (p ++ [(x, e)])), s, c.
  assert (Hj' : (j < length eps)%nat) by (rewrite eps_len; lia). destruct (firstn_S_app eps j (x, e) r' H2 Hj') as [Hx Hy].
  split; [exact Hx|]. split; [eapply act_covering; eauto|]. split; [auto|]. split; [exact H3|].
  assert (G : forall y f, nth_error eps (j + 1) = Some (y, f) -> x < y -> forall i, (i < n)%nat -> (In i (act values (p ++ [(x, e)])) <-> val values i - rng ranges i <= x /\ x < val values i + rng ranges i)).
  { intros y f Hyf Hlt i Hi. replace (j + 1)%nat with (S j) in Hyf by lia. destruct (Hy _ Hyf) as (_ & r'' & ->).
    assert (E' : eps = (p ++ [(x, e)]) ++ (y, f) :: r'') by (rewrite <- app_assoc; exact H2).
    assert (Hlo : forall z, In z (p ++ [(x, e)]) -> fst z <= x).
    { intros z Hz. apply in_app_or in Hz as [Hz|[<-|[]]]; [|cbn; lra]. pose proof ES as ES2. rewrite H2 in ES2. apply (sorted_app _ _ _ ES2 z (x, e) Hz). now left. }
    assert (Hhi : forall z, In z ((y, f) :: r'') -> y <= fst z).
    { intros z [<-|Hz]; [cbn; lra|]. pose proof ES as ES2. rewrite E' in ES2. replace ((p ++ [(x, e)]) ++ (y, f) :: r'') with (((p ++ [(x, e)]) ++ [(y, f)]) ++ r'') in ES2 by (rewrite <- !app_assoc; reflexivity).
      apply (sorted_app _ _ _ ES2 (y, f) z); [apply in_or_app; right; now left|auto]. }
    split.
    - intros Ha. apply (act_bounds_strict values ranges PR Hn31 eps EP ES _ _ i x E' Ha Hlo). intros z Hz. apply Hhi in Hz. lra.
    - intros [Ha Hb]. apply act_in. split; [auto|]. apply andb_true_iff. split.
      + apply (start_before values ranges PR Hn31 eps EP ES _ _ i y E' Hi Hhi). lra.
      + apply negb_true_iff. apply (end_after values ranges PR Hn31 eps EP _ _ i x E' Hi Hlo Hb). }
  destruct (candidate_ok values ranges PR _ s (act_subset values (p ++ [(x, e)])) H3) as [[HS C]|(HS & h & k & C & Hh & Hk)]; rewrite C in H4; injection H4 as <-.
  - split; [auto|]. split; [contradiction|exact G].
  - split; [contradiction|]. split; [|exact G]. intros _. exists h, k. auto.
Qed.

(** The consensus set of a position that is no end point is one of the candidates. *)
Lemma gap_lemma y T : covers_exactly values ranges y T -> T <> [] -> exists p x e r, eps = p ++ (x, e) :: r /\ Permutation (act values (p ++ [(x, e)])) T.
Proof.
  intros ((Tnd & Tlt) & Hno & HT) Hne. destruct (sorted_split eps y ES) as (p & r & E & Hp & Hr).
  assert (Hr' : forall e, In e r -> y < fst e).
  { intros [x e] He. pose proof (Hr _ He) as H. cbn in *. destruct (proj1 (eps_in values ranges PR Hn31 eps EP x e)) as (i & Hi & Hx); [rewrite E; apply in_or_app; now right|].
    destruct (Hno i Hi) as [N1 N2]. destruct (Qlt_le_dec y x) as [|Hle]; [auto|exfalso]. destruct Hx as [[-> _]|[-> _]]; [apply N1|apply N2]; lra. }
  assert (HS : forall i, In i (act values p) <-> In i T).
  { intros i. split; intros H.
    - assert (Hi : (i < n)%nat) by (apply act_in in H; tauto). apply HT; [auto|]. apply Qabs_Qlt_condition.
      destruct (act_bounds_strict values ranges PR Hn31 eps EP ES p r i y E H) as [H1 H2]; [intros e He; apply Hp in He; lra|auto|]. destruct (Hno i Hi) as [N1 _].
      destruct (Qlt_le_dec (val values i - rng ranges i) y) as [|Hle]; [lra|exfalso; apply N1; lra].
    - pose proof (Tlt i H) as Hi. apply HT in H; [|auto]. eapply (act_interior values ranges PR Hn31 eps EP ES p r i y); eauto. intros e He. apply Hp in He. lra. }
  assert (Hpne : p <> []). { intros ->. destruct T as [|i T]; [contradiction|]. assert (Hi : In i (act values [])) by (apply HS; now left). rewrite act_nil in Hi. contradiction. }
  destruct (exists_last Hpne) as (p' & [x e] & ->). exists p', x, e, r. split; [rewrite <- app_assoc in E; exact E|].
  apply perm_of_same; auto. apply act_subset.
Qed.

Lemma first_start x e r : eps = (x, e) :: r -> act values [(x, e)] <> [].
Proof.
  intros E. destruct (proj1 (eps_in values ranges PR Hn31 eps EP x e)) as (i & Hi & Hx); [rewrite E; now left|]. destruct PR as [_ Hpos]. specialize (Hpos i Hi).
  assert (Hr : forall z, In z r -> x <= fst z). { intros z Hz. pose proof ES as ES2. rewrite E in ES2. apply (sorted_app _ [(x, e)] r ES2 (x, e) z); [now left|auto]. }
  assert (Hin : In i (act values [(x, e)])).
  { destruct Hx as [[-> ->]|[-> ->]].
    - apply act_in. split; [auto|]. unfold active. cbn [has existsb snd]. rewrite Z.eqb_refl. cbn [orb andb]. rewrite orb_false_r. apply negb_true_iff, Z.eqb_neq. unfold sgn. lia.
    - exfalso. assert (Hs : has (sgn i) (@nil (Q * Z)) = true); [|discriminate].
      eapply (start_before values ranges PR Hn31 eps EP ES [] eps i (val values i + rng ranges i)); auto; [|lra]. intros z Hz. rewrite E in Hz. destruct Hz as [<-|Hz]; [cbn; lra|auto]. }
  intros H. rewrite H in Hin. contradiction.
Qed.

Lemma last_empty : act values eps = [].
Proof.
  destruct (act values eps) as [|i l] eqn:E; [auto|]. assert (Hi : In i (act values eps)) by (rewrite E; now left). apply act_in in Hi as [Hi Ha]. apply andb_true_iff in Ha as [_ Ha]. apply negb_true_iff in Ha.
  pose proof (end_in values ranges PR Hn31 eps EP i Hi) as H. apply has_in in H. congruence.
Qed.

Lemma last_lemma : (0 < n)%nat -> exists t s, sweep values ranges (sums0 ranges) eps = Ret t /\ nth_error t (2 * n - 1) = Some (s, (None, None)) /\ cw s == 0 /\ vw s == 0.
Proof.
  intros Hn. destruct (sweep_ok values ranges PR Hn31 eps EP ES eps [] (sums0 ranges) eq_refl (sums0_ok values ranges PR)) as (t & Et & Hl & Ht).
  rewrite eps_len in Ht. destruct (Ht (2 * n - 1)%nat ltac:(lia)) as (s & c & x & e & r' & H1 & H2 & H3 & H4). cbn [app] in *.
  assert (Hr : r' = []). { pose proof (f_equal (@length _) H2) as HL. rewrite app_length, firstn_length, eps_len in HL. cbn [length] in HL. destruct r'; [auto|cbn [length] in HL; lia]. }
  subst r'. rewrite <- H2 in H3. destruct (candidate_ok values ranges PR _ s (act_subset values eps) H3) as [[HS C]|(HS & _)]; [|now rewrite last_empty in HS].
  rewrite C in H4. injection H4 as <-. destruct H3 as (I1 & _ & _ & _ & I5 & _). rewrite HS in I1, I5. exists t, s. auto.
Qed.

Lemma flags_ok est : forall vs rs, length rs = length vs -> length (inlier_flags est vs rs) = length vs /\
  forall i, (i < length vs)%nat -> nth i (inlier_flags est vs rs) false = inlier est (nth i vs 0) (nth i rs 0).
Proof.
  induction vs as [|v vs IH]; intros [|r rs] Hl; try discriminate; cbn [inlier_flags length]; [split; [auto|intros; lia]|]. injection Hl as Hl. destruct (IH rs Hl) as [H1 H2]. split; [now rewrite H1|].
  intros [|i] Hi; cbn [nth]; [auto|]. apply H2. lia.
Qed.
Lemma inlier_ok x v r : inlier (Some x) v r = true <-> Qabs (v - x) < r.
Proof.
  unfold inlier. rewrite negb_true_iff. split; intros H; [apply Qnot_le_lt; intros Hle; apply Qle_bool_iff in Hle; congruence|].
  destruct (Qle_bool r (Qabs (v - x))) eqn:E; [|auto]. apply Qle_bool_iff in E. lra.
Qed.

Lemma estimate_lemma : (0 < n)%nat -> exists est flags t j x S,
  estimate sort values ranges = Ret (Some est, flags) /\
  sweep values ranges (sums0 ranges) eps = Ret t /\ nth_error (map fst eps) j = Some x /\ covering values ranges x S /\ S <> [] /\
  (exists s k, nth_error t j = Some (s, (Some est, Some k)) /\ k == cost values ranges S est /\
     forall j' s' h' k', nth_error t j' = Some (s', (h', Some k')) -> k <= k') /\
  est == wmean values ranges S /\
  (forall y T, covers_exactly values ranges y T -> T <> [] -> cost values ranges S est <= cost values ranges T (wmean values ranges T)) /\
  length flags = n /\ (forall i, (i < n)%nat -> (nth i flags false = true <-> Qabs (val values i - est) < rng ranges i)).
Proof.
  intros Hn. destruct (sweep_ok values ranges PR Hn31 eps EP ES eps [] (sums0 ranges) eq_refl (sums0_ok values ranges PR)) as (t & Et & Hl & Ht).
  rewrite eps_len in Ht, Hl. cbn [app] in Ht. unfold estimate. destruct PR as [HL Hpos]. rewrite HL, Nat.eqb_refl, Et. cbn [obind].
  set (costs := map (fun x => snd (snd x)) t).
  assert (H0 : exists b, nth_error costs 0 = Some (Some b)).
  { destruct (Ht 0%nat ltac:(lia)) as (s & c & x & e & r & H1 & H2 & H3 & H4). cbn [firstn app] in *.
    destruct (candidate_ok values ranges PR _ s (act_subset values [(x, e)]) H3) as [[HS C]|(HS & h & k & C & Hh & Hk)]; [exfalso; eapply first_start; eauto|].
    rewrite C in H4. injection H4 as <-. exists k. unfold costs. rewrite nth_error_map, H1. reflexivity. }
  destruct H0 as (b & H0). destruct (min_element_ok costs b H0) as (m & Hm & Hmin). set (j := min_element costs) in *.
  assert (Hjl : (j < 2 * n)%nat). { rewrite <- Hl. rewrite <- (map_length (fun x => snd (snd x)) t). apply nth_error_Some. unfold costs in Hm. congruence. }
  destruct (Ht j Hjl) as (s & c & x & e & r & H1 & H2 & H3 & H4). set (S := act values (firstn j eps ++ [(x, e)])) in *.
  assert (Hmc : snd c = Some m). { unfold costs in Hm. rewrite nth_error_map, H1 in Hm. cbn in Hm. congruence. }
  destruct (candidate_ok values ranges PR S s (act_subset values _) H3) as [[HS C]|(HS & h & k & C & Hh & Hk)]; rewrite C in H4; injection H4 as <-; cbn in Hmc; [discriminate|].
  injection Hmc as ->. exists h, (inlier_flags (Some h) values ranges), t, j, x, S.
  destruct (firstn_S_app eps j (x, e) r H2 ltac:(rewrite eps_len; lia)) as [Hx _]. destruct (flags_ok (Some h) values ranges HL) as [F1 F2].
  split; [|split; [reflexivity|split; [|split; [|split; [exact HS|split; [|split; [exact Hh|split; [|split; [exact F1|]]]]]]]]].
  - destruct t as [|t0 t'] eqn:Et'; [cbn in Hl; lia|]. rewrite <- Et' in *. fold costs. fold j. unfold vread. rewrite H1. reflexivity.
  - rewrite nth_error_map, Hx. reflexivity.
  - eapply act_covering; eauto.
  - exists s, m. split; [auto|]. split; [auto|]. intros j' s' h' k' Hj'. apply (Hmin j'). unfold costs. rewrite nth_error_map, Hj'. reflexivity.
  - intros y T HT HTne. destruct (gap_lemma y T HT HTne) as (p & x' & e' & r' & E' & P).
    assert (Hpl : (length p < 2 * n)%nat). { rewrite <- eps_len, E', app_length. cbn. lia. }
    destruct (Ht (length p) Hpl) as (s' & c' & x2 & e2 & r2 & G1 & G2 & G3 & G4).
    assert (Hfp : firstn (length p) eps = p) by (rewrite E'; rewrite firstn_app, Nat.sub_diag, firstn_all; apply app_nil_r). rewrite Hfp in *.
    assert (E2 : (x', e') = (x2, e2)). { rewrite E' in G2 at 1. apply app_inv_head in G2. congruence. } injection E2 as <- <-.
    destruct (candidate_ok values ranges PR _ s' (act_subset values _) G3) as [[HS' C']|(HS' & h' & k' & C' & Hh' & Hk')].
    { rewrite HS' in P. apply Permutation_nil in P. contradiction. }
    rewrite C' in G4. injection G4 as <-. assert (Hle : m <= k'). { apply (Hmin (length p)). unfold costs. rewrite nth_error_map, G1. reflexivity. }
    rewrite Hk, Hk' in Hle. rewrite (cost_perm _ _ _ _ _ P), (cost_eq _ _ _ _ _ Hh'), (cost_eq _ _ _ _ _ (wmean_perm values ranges _ _ P)) in Hle. exact Hle.
  - intros i Hi. rewrite F2 by auto. apply inlier_ok.
Qed.

Lemma wmean_bounds S lo hi : subset values S -> S <> [] -> (forall i, (i < n)%nat -> lo <= val values i /\ val values i <= hi) -> lo <= wmean values ranges S /\ wmean values ranges S <= hi.
Proof.
  intros [_ Hlt] Hne Hb. assert (Hp : 0 < total (wt ranges) S) by (apply total_pos; auto; intros i Hi; apply (wt_pos values ranges PR); auto).
  assert (G : lo * total (wt ranges) S <= total (fun i => wt ranges i * val values i) S /\ total (fun i => wt ranges i * val values i) S <= hi * total (wt ranges) S).
  { clear Hne Hp. induction S as [|i S IH]; [cbn; lra|]. rewrite !total_cons. destruct IH as [I1 I2]; [intros k Hk; apply Hlt; now right|]. assert (Hi : (i < n)%nat) by (apply Hlt; now left).
    destruct (Hb i Hi) as [B1 B2]. pose proof (wt_pos values ranges PR i Hi) as Hw. nra. }
  unfold wmean. destruct G as [G1 G2]. split; [apply Qle_shift_div_l; auto|apply Qle_shift_div_r; auto].
Qed.

Lemma range_lemma lo hi : (0 < n)%nat -> (forall i, (i < n)%nat -> lo <= val values i /\ val values i <= hi) ->
  exists est flags, estimate sort values ranges = Ret (Some est, flags) /\ lo <= est /\ est <= hi.
Proof.
  intros Hn Hb. destruct (estimate_lemma Hn) as (est & flags & t & j & x & S & H1 & _ & _ & (H4 & _) & H5 & _ & H7 & _). exists est, flags. split; [auto|]. rewrite H7. now apply wmean_bounds.
Qed.

Lemma unanimous_lemma v : (0 < n)%nat -> (forall i, (i < n)%nat -> val values i == v) ->
  exists est flags, estimate sort values ranges = Ret (Some est, flags) /\ est == v /\ forall i, (i < n)%nat -> nth i flags false = true.
Proof.
  intros Hn Hv. destruct (estimate_lemma Hn) as (est & flags & t & j & x & S & H1 & _ & _ & (H4 & _) & H5 & _ & H7 & _ & _ & H10). exists est, flags. split; [auto|].
  assert (E : est == v). { rewrite H7. destruct (wmean_bounds S v v H4 H5) as [A B]; [intros i Hi; rewrite (Hv i Hi); lra|lra]. }
  split; [auto|]. intros i Hi. apply H10; [auto|]. rewrite E, (Hv i Hi). setoid_replace (v - v) with 0 by ring. destruct PR as [_ Hpos]. apply (Hpos i Hi).
Qed.
End R.

(** ** Degenerate input *)
Lemma empty_lemma sort : sorts sort -> estimate sort [] [] = UB.
Proof. intros SO. unfold estimate. cbn [length Nat.eqb endpoints]. destruct (SO []) as [P _]. apply Permutation_nil in P. rewrite P. reflexivity. Qed.
Lemma mismatch_lemma sort values ranges : length values <> length ranges -> estimate sort values ranges = Exit.
Proof. intros H. unfold estimate. destruct (Nat.eqb_spec (length values) (length ranges)); [contradiction|reflexivity]. Qed.

(** Insertion sort, an instance of [sorts]. *)
Fixpoint ins (x : Q * Z) (l : list (Q * Z)) : list (Q * Z) :=
  match l with [] => [x] | y :: r => if Qle_bool (fst x) (fst y) then x :: l else y :: ins x r end.
Definition isort (l : list (Q * Z)) : list (Q * Z) := fold_right ins [] l.
Lemma ins_perm x l : Permutation (x :: l) (ins x l).
Proof. induction l as [|y l IH]; cbn [ins]; [auto|]. destruct (Qle_bool (fst x) (fst y)); [auto|]. rewrite <- IH. apply perm_swap. Qed.
Lemma ins_sorted x l : StronglySorted (fun a b => fst a <= fst b) l -> StronglySorted (fun a b => fst a <= fst b) (ins x l).
Proof.
  induction 1 as [|y l Hs IH Hf]; cbn [ins]; [repeat constructor|]. destruct (Qle_bool (fst x) (fst y)) eqn:E.
  - apply Qle_bool_iff in E. constructor; [constructor; auto|]. constructor; [auto|]. rewrite Forall_forall in *. intros z Hz. specialize (Hf z Hz). cbn in Hf. lra.
  - constructor; [auto|]. rewrite Forall_forall in *. intros z Hz. apply (Permutation_in _ (Permutation_sym (ins_perm x l))) in Hz. destruct Hz as [<-|Hz]; [|auto].
    apply Qnot_lt_le. intros Hlt. assert (Hle : fst x <= fst y) by lra. apply Qle_bool_iff in Hle. congruence.
Qed.
Lemma isort_sorts : sorts isort.
Proof.
  intros l. split; induction l as [|x l IH]; cbn [isort fold_right]; [constructor|rewrite IH at 1; apply ins_perm|constructor|now apply ins_sorted].
Qed.

(** Two overlapping measurements: the estimate has one inlier although one position has two. *)
Lemma consensus_refuted : exists values ranges est flags y, positive_ranges values ranges /\ estimate isort values ranges = Ret (Some est, flags) /\
  (length (filter (fun b => b) flags) < length (filter (fun i => if Qlt_le_dec (Qabs (val values i - y)) (rng ranges i) then true else false) (seq 0 (length values))))%nat.
Proof.
  exists [0; 10], [6; 6]. eexists. eexists. exists 5. split; [split; [reflexivity|]|split; [vm_compute; reflexivity|vm_compute; auto]].
  intros [|[|i]] Hi; cbn in *; try reflexivity. lia.
Qed.
