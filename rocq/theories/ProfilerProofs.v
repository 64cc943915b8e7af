(** * Proofs about the profiler. *)
From Coq Require Import List ZArith QArith Bool Lia Lqa.
From Verif Require Import Base ParamModel ParamSpec ParamProofs ProfilerModel ProfilerSpec.
Import ListNotations.
Open Scope Q_scope.

(** The statistic of a list of samples. *)
Definition stat_of (x : Q) (l : list Q) : stat := fold_left update l (newStat x).

Lemma sfind_in k s m : sfind k m = Some s -> In (k, s) m.
Proof.
  induction m as [|[k' s'] m IH]; cbn [sfind]; [discriminate|]. destruct (str_eqb k k') eqn:E; [|right; auto]. apply str_eqb_spec in E. intros H. left. congruence.
Qed.
Lemma sfind_none k m : (forall s, ~ In (k, s) m) -> sfind k m = None.
Proof. intros H. destruct (sfind k m) eqn:E; auto. apply sfind_in in E. now apply H in E. Qed.

Lemma updateStat_in m k x p : In p (updateStat m k x) -> fst p = k \/ In p m.
Proof.
  induction m as [|[k' s'] m IH]; cbn [updateStat]; [intros [<-|[]]; auto|]. destruct (str_eqb k k') eqn:E.
  - apply str_eqb_spec in E. subst. intros [<-|H]; auto. right. now right.
  - destruct (str_ltb k k'); intros [<-|H]; auto; [right; now left|]. destruct (IH H); auto. right. now right.
Qed.
Lemma updateStat_sorted m k x : keys_sorted m -> keys_sorted (updateStat m k x).
Proof.
  induction 1 as [|k' s' m Hm IH Hlt]; cbn [updateStat]; [constructor; [constructor|intros ? ? []]|]. destruct (str_eqb k k') eqn:E; [constructor; auto|].
  destruct (str_ltb k k') eqn:El.
  - apply str_ltb_spec in El. constructor; [now constructor|]. intros k2 v2 [H|H]; [injection H as <- <-; auto|]. eapply slt_trans; eauto.
  - constructor; [auto|]. intros k2 v2 Hin. apply updateStat_in in Hin as [H|Hin]; [|eauto]. cbn [fst] in H. subst k2.
    apply slt_total; [intros ->; now rewrite str_eqb_refl in E|]. rewrite <- str_ltb_spec. congruence.
Qed.
Lemma updateStat_find m k x k' : keys_sorted m ->
  sfind k' (updateStat m k x) = if list_eq_dec Z.eq_dec k k' then Some (match sfind k m with Some s => update s x | None => newStat x end) else sfind k' m.
Proof.
  induction 1 as [|k1 s1 m Hm IH Hlt]; cbn [updateStat sfind].
  - destruct (list_eq_dec Z.eq_dec k k') as [<-|Hne]; [now rewrite str_eqb_refl|]. now rewrite str_eqb_neq by auto.
  - destruct (str_eqb k k1) eqn:E.
    + apply str_eqb_spec in E. subst k1. cbn [sfind]. destruct (list_eq_dec Z.eq_dec k k') as [<-|Hne]; [now rewrite str_eqb_refl|]. now rewrite str_eqb_neq by auto.
    + destruct (str_ltb k k1) eqn:El.
      * apply str_ltb_spec in El. cbn [sfind]. destruct (list_eq_dec Z.eq_dec k k') as [<-|Hne]; [|now rewrite (str_eqb_neq k' k) by auto].
        rewrite str_eqb_refl. rewrite sfind_none; [reflexivity|]. intros s Hin. apply (slt_irrefl k). eapply slt_trans; [exact El|eauto].
      * cbn [sfind]. rewrite IH. destruct (str_eqb k' k1) eqn:E'; [|reflexivity]. apply str_eqb_spec in E'. subst k1.
        destruct (list_eq_dec Z.eq_dec k k') as [->|]; [|reflexivity]. rewrite str_eqb_refl in E. discriminate.
Qed.

Lemma run_find h : keys_sorted (runStats [] h) /\ forall k,
  sfind k (runStats [] h) = match samples k h with [] => None | x :: l => Some (stat_of x l) end.
Proof.
  unfold runStats. induction h as [|[k1 x1] h IH] using rev_ind; [split; [constructor|reflexivity]|]. destruct IH as [IHs IHf].
  rewrite fold_left_app. cbn [fold_left fst snd]. split; [now apply updateStat_sorted|]. intros k. rewrite updateStat_find by auto.
  unfold samples. rewrite filter_app, map_app. cbn [filter fst]. destruct (list_eq_dec Z.eq_dec k1 k) as [->|Hne].
  - rewrite IHf. unfold samples. destruct (map snd _) as [|y l]; cbn [app map snd]; [reflexivity|]. unfold stat_of. now rewrite fold_left_app.
  - cbn [map]. rewrite app_nil_r. apply IHf.
Qed.

(** ** Statistics of a list *)
Lemma stat_count l : forall s, count (fold_left update l s) = (count s + Z.of_nat (length l))%Z.
Proof. induction l as [|x l IH]; intros s; cbn [fold_left length]; [lia|]. rewrite IH. cbn [count update]. lia. Qed.

Lemma qltb_spec a b : qltb a b = true <-> a < b.
Proof. unfold qltb. rewrite negb_true_iff. split; [intros H; apply Qnot_le_lt; intros Hle; apply Qle_bool_iff in Hle; congruence|].
  intros H. destruct (Qle_bool b a) eqn:E; auto. apply Qle_bool_iff in E. exfalso. eapply Qlt_not_le; eauto. Qed.
Lemma qltb_false a b : qltb a b = false <-> b <= a.
Proof. unfold qltb. rewrite negb_false_iff. apply Qle_bool_iff. Qed.

Lemma stat_min l : forall s, let m := timeMin (fold_left update l s) in In m (timeMin s :: l) /\ forall x, In x (timeMin s :: l) -> m <= x.
Proof.
  induction l as [|y l IH]; intros s; cbn [fold_left]; [split; [now left|intros x [<-|[]]; apply Qle_refl]|].
  destruct (IH (update s y)) as [H1 H2]. cbn [timeMin update] in H1, H2. set (m := timeMin _) in *. cbv zeta.
  destruct (qltb y (timeMin s)) eqn:E.
  - apply qltb_spec in E. split; [right; destruct H1; [now left|now right]|]. intros x [<-|[<-|Hx]].
    + apply Qle_trans with y; [apply H2; now left|now apply Qlt_le_weak].
    + apply H2. now left.
    + apply H2. now right.
  - apply qltb_false in E. split; [destruct H1 as [H1|H1]; [now left|right; now right]|]. intros x [<-|[<-|Hx]].
    + apply H2. now left.
    + apply Qle_trans with (timeMin s); [apply H2; now left|auto].
    + apply H2. now right.
Qed.
Lemma stat_max l : forall s, let m := timeMax (fold_left update l s) in In m (timeMax s :: l) /\ forall x, In x (timeMax s :: l) -> x <= m.
Proof.
  induction l as [|y l IH]; intros s; cbn [fold_left]; [split; [now left|intros x [<-|[]]; apply Qle_refl]|].
  destruct (IH (update s y)) as [H1 H2]. cbn [timeMax update] in H1, H2. set (m := timeMax _) in *. cbv zeta.
  destruct (qltb (timeMax s) y) eqn:E.
  - apply qltb_spec in E. split; [right; destruct H1; [now left|now right]|]. intros x [<-|[<-|Hx]].
    + apply Qle_trans with y; [now apply Qlt_le_weak|apply H2; now left].
    + apply H2. now left.
    + apply H2. now right.
  - apply qltb_false in E. split; [destruct H1 as [H1|H1]; [now left|right; now right]|]. intros x [<-|[<-|Hx]].
    + apply H2. now left.
    + apply Qle_trans with (timeMax s); [auto|apply H2; now left].
    + apply H2. now right.
Qed.

(** ** Average and accumulated squares: everything but the first sample. *)
Lemma qsum_app a b : qsum (a ++ b) == qsum a + qsum b.
Proof.
  induction a as [|x a IH]; [change (qsum ([] ++ b)) with (qsum b); change (qsum []) with 0; ring|].
  change (qsum ((x :: a) ++ b)) with (x + qsum (a ++ b)). change (qsum (x :: a)) with (x + qsum a). rewrite IH. ring.
Qed.
Lemma qsum_one x : qsum [x] == x.
Proof. unfold qsum. cbn [fold_right]. ring. Qed.
Lemma qlen_app1 l x : qlen (l ++ [x]) == qlen l + 1.
Proof. unfold qlen. rewrite app_length. cbn [length]. rewrite Nat2Z.inj_add, inject_Z_plus. reflexivity. Qed.
Lemma qlen_pos l : l <> [] -> 0 < qlen l.
Proof. intros H. unfold qlen. change 0 with (inject_Z 0). rewrite <- Zlt_Qlt. destruct l; [contradiction|]. cbn [length]. lia. Qed.

Lemma stat_of_app x l y : stat_of x (l ++ [y]) = update (stat_of x l) y.
Proof. unfold stat_of. now rewrite fold_left_app. Qed.
Lemma stat_of_count x l : inject_Z (count (stat_of x l)) == qlen l + 1.
Proof. unfold stat_of, qlen. rewrite stat_count. cbn [count newStat]. rewrite inject_Z_plus. change (inject_Z 1) with 1. ring. Qed.

Lemma avg_exact x l : l <> [] -> timeAvg (stat_of x l) == mean l.
Proof.
  induction l as [|y l IH] using rev_ind; intros H; [contradiction|]. rewrite stat_of_app. cbn [timeAvg update]. unfold mean at 1. rewrite qsum_app, qlen_app1, qsum_one.
  rewrite stat_of_count. destruct l as [|z l].
  - change (qlen []) with 0. change (qsum []) with 0. change (timeAvg (stat_of x [])) with x. field.
  - specialize (IH ltac:(discriminate)). rewrite IH. unfold mean. pose proof (qlen_pos (z :: l) ltac:(discriminate)) as Hp. field. lra.
Qed.

Lemma sqdev_expand l : l <> [] -> sqdev l == qsum (map (fun x => x * x) l) - qsum l * qsum l / qlen l.
Proof.
  intros H. pose proof (qlen_pos l H) as Hp. unfold sqdev.
  assert (G : forall m q, qsum (map (fun x => (x - m) * (x - m)) q) == qsum (map (fun x => x * x) q) - 2 * m * qsum q + m * m * qlen q).
  { intros m q. induction q as [|x q IH] using rev_ind; [cbn; unfold qlen; cbn; ring|]. rewrite !map_app, !qsum_app, qlen_app1. cbn [map]. rewrite IH, !qsum_one. ring. }
  rewrite G. unfold mean. field. lra.
Qed.

Lemma var_exact x l : timeVar (stat_of x l) == match l with [] => 0 | _ => sqdev l end.
Proof.
  induction l as [|y l IH] using rev_ind; [reflexivity|]. rewrite stat_of_app. cbn [timeVar update]. rewrite IH. rewrite stat_of_count.
  replace (match l ++ [y] with [] => 0 | _ => sqdev (l ++ [y]) end) with (sqdev (l ++ [y])) by (destruct l; reflexivity).
  destruct l as [|z l].
  - change (qlen []) with 0. change (timeAvg (stat_of x [])) with x. cbn [app]. unfold sqdev, mean. cbn [map]. rewrite !qsum_one. change (qlen [y]) with 1. field.
  - assert (Hne : z :: l <> []) by discriminate. pose proof (avg_exact x (z :: l) Hne) as HA. rewrite HA. rewrite !sqdev_expand by (try discriminate; intros E; destruct l; discriminate).
    rewrite map_app, !qsum_app, qlen_app1. unfold mean. pose proof (qlen_pos (z :: l) Hne) as Hp. revert Hp. clear HA IH Hne. generalize (qlen (z :: l)). intros n Hp.
    generalize (qsum (z :: l)). intros s1. generalize (qsum (map (fun x0 => x0 * x0) (z :: l))). intros s2. cbn [map]. rewrite !qsum_one. field. lra.
Qed.

(** ** Main lemmas *)
Lemma counts_lemma h k : let m := runStats [] h in
  keys_sorted m /\ (samples k h = [] -> sfind k m = None) /\
  (samples k h <> [] -> exists s, sfind k m = Some s /\ count s = Z.of_nat (length (samples k h)) /\
     is_minimum (timeMin s) (samples k h) /\ is_maximum (timeMax s) (samples k h)).
Proof.
  cbv zeta. destruct (run_find h) as [Hs Hf]. split; [auto|]. rewrite (Hf k). destruct (samples k h) as [|x l]; [split; [reflexivity|congruence]|].
  split; [discriminate|]. intros _. eexists. split; [reflexivity|]. split; [unfold stat_of; rewrite stat_count; cbn [count newStat length]; lia|].
  split; [apply (stat_min l (newStat x))|apply (stat_max l (newStat x))].
Qed.
Lemma frame_lemma h k1 x k : k1 <> k -> sfind k (runStats [] (h ++ [(k1, x)])) = sfind k (runStats [] h).
Proof.
  intros H. destruct (run_find (h ++ [(k1, x)])) as [_ H1]. destruct (run_find h) as [_ H2]. rewrite H1, H2. unfold samples. rewrite filter_app, map_app. cbn [filter fst].
  destruct (list_eq_dec Z.eq_dec k1 k); [contradiction|]. cbn [map]. now rewrite app_nil_r.
Qed.
Lemma only_samples_lemma h1 h2 k : samples k h1 = samples k h2 -> sfind k (runStats [] h1) = sfind k (runStats [] h2).
Proof. intros H. destruct (run_find h1) as [_ H1]. destruct (run_find h2) as [_ H2]. now rewrite H1, H2, H. Qed.

Lemma mean_refuted_lemma : exists h k s, sfind k (runStats [] h) = Some s /\ ~ timeAvg s == mean (samples k h) /\ ~ getVariance s == variance (samples k h).
Proof. exists [([97%Z], 2); ([97%Z], 4)], [97%Z]. eexists. split; [vm_compute; reflexivity|]. split; vm_compute; congruence. Qed.

Lemma mean_exact_lemma h k x l : samples k h = x :: l -> exists s, sfind k (runStats [] h) = Some s /\
  (l = [] -> timeAvg s == x /\ getVariance s == 0 /\ timeVar s == 0) /\
  (l <> [] -> timeAvg s == mean l /\ getVariance s == mean l / qlen l /\ timeVar s == sqdev l).
Proof.
  intros E. destruct (run_find h) as [_ Hf]. rewrite (Hf k), E. eexists. split; [reflexivity|]. split.
  - intros ->. repeat split; reflexivity.
  - intros H. split; [now apply avg_exact|]. split; [|rewrite var_exact; destruct l; [contradiction|reflexivity]].
    unfold getVariance. assert (Hc : count (stat_of x l) = (1 + Z.of_nat (length l))%Z) by (unfold stat_of; rewrite stat_count; reflexivity).
    rewrite Hc. destruct (Z.ltb_spec 1 (1 + Z.of_nat (length l))); [|destruct l; [contradiction|cbn [length] in *; lia]].
    rewrite avg_exact by auto. replace (1 + Z.of_nat (length l) - 1)%Z with (Z.of_nat (length l)) by lia. reflexivity.
Qed.

Lemma in_sfind k s m : keys_sorted m -> In (k, s) m -> sfind k m = Some s.
Proof.
  induction 1 as [|k1 s1 m Hm IH Hlt]; [contradiction|]. cbn [sfind]. intros [E|Hin].
  - injection E as -> ->. now rewrite str_eqb_refl.
  - rewrite str_eqb_neq; auto. intros ->. apply (slt_irrefl k1). eauto.
Qed.
Lemma print_lemma h k a v mi ma c : In (k, a, v, mi, ma, c) (printStats (runStats [] h)) <->
  exists s, sfind k (runStats [] h) = Some s /\ a = timeAvg s /\ v = getVariance s /\ mi = timeMin s /\ ma = timeMax s /\ c = count s.
Proof.
  destruct (run_find h) as [Hs _]. unfold printStats. rewrite in_map_iff. split.
  - intros ([k' s] & E & Hin). cbn [fst snd] in E. injection E as <- <- <- <- <- <-. exists s. split; [now apply in_sfind|auto].
  - intros (s & E & -> & -> & -> & -> & ->). exists (k, s). split; [reflexivity|now apply sfind_in].
Qed.
