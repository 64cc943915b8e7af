(** Index arithmetic of the implicit tree and the order-generic core of the heap proofs. *)
From Coq Require Import List ZArith Arith Bool Lia ZifyBool ZifyNat.
From Verif Require Import Base MinMaxHeapModel.
Import ListNotations.
Ltac Zify.zify_post_hook ::= Z.div_mod_to_equations.

Inductive anc : nat -> nat -> Prop :=
| anc1 b : 0 < b -> anc (hparent b) b
| ancS a b : 0 < b -> anc a (hparent b) -> anc a b.

Lemma hparent_lt b : 0 < b -> hparent b < b.
Proof. unfold hparent. lia. Qed.

Lemma anc_lt a b : anc a b -> a < b.
Proof.
  induction 1 as [b H|a b H Ha IH]; [now apply hparent_lt|].
  pose proof (hparent_lt b H). lia.
Qed.

Lemma anc_inv a b : anc a b -> 0 < b /\ (a = hparent b \/ anc a (hparent b)).
Proof. intros H. destruct H; auto. Qed.

Lemma anc_trans a b c : anc a b -> anc b c -> anc a c.
Proof.
  intros Hab Hbc. induction Hbc as [c Hc|b c Hc Hbc IH].
  - apply ancS; auto.
  - apply ancS; auto.
Qed.

Lemma gp_parent p : 2 < p -> grandparent p = hparent (hparent p) /\ 0 < hparent p.
Proof. unfold grandparent, hparent. lia. Qed.

Lemma anc_gp p : 2 < p -> anc (grandparent p) p.
Proof.
  intros H. destruct (gp_parent p H) as [-> H1]. apply ancS; [lia|]. now apply anc1.
Qed.

Lemma child_parent p c : 0 < c -> hparent c = p -> c = 2 * p + 1 \/ c = 2 * p + 2.
Proof. unfold hparent. lia. Qed.

(** A descendant lies at or below a child. *)
Lemma anc_down a b : anc a b -> exists c, 0 < c /\ hparent c = a /\ (c = b \/ anc c b).
Proof.
  induction 1 as [b H|a b H Ha (c & Hc & Hp & Hcb)].
  - exists b. auto.
  - exists c. split; auto. split; auto. right. destruct Hcb as [->|Hcb].
    + now apply anc1.
    + now apply ancS.
Qed.

Lemma level_loop_spec fuel : forall i n, i <= fuel -> level_loop fuel i n = n + level_loop i i 0.
Proof.
  induction fuel as [fuel IH] using lt_wf_ind. intros i n Hi.
  destruct fuel as [|f].
  - assert (i = 0) by lia. subst. simpl. lia.
  - destruct i as [|i].
    + simpl. lia.
    + cbn [level_loop]. replace (0 <? S i) with true by reflexivity.
      pose proof (hparent_lt (S i) ltac:(lia)).
      rewrite (IH f) by lia. rewrite (IH i ltac:(lia) (hparent (S i)) 1) by lia. lia.
Qed.

Lemma level_S b : 0 < b -> level b = S (level (hparent b)).
Proof.
  intros H. unfold level at 1. destruct b as [|b]; [lia|].
  cbn [level_loop]. replace (0 <? S b) with true by reflexivity.
  pose proof (hparent_lt (S b) H). rewrite level_loop_spec by lia. reflexivity.
Qed.

Definition ev (i : nat) : bool := level i mod 2 =? 0.

Lemma ev_0 : ev 0 = true. Proof. reflexivity. Qed.

Lemma ev_S b : 0 < b -> ev b = negb (ev (hparent b)).
Proof.
  intros H. unfold ev. rewrite level_S by auto. generalize (level (hparent b)). intros n.
  destruct (Nat.eqb_spec (S n mod 2) 0), (Nat.eqb_spec (n mod 2) 0); simpl; auto; lia.
Qed.

Lemma ev_gp p : 2 < p -> ev (grandparent p) = ev p.
Proof.
  intros H. destruct (gp_parent p H) as [-> H1].
  rewrite (ev_S p), (ev_S (hparent p)) by lia. now rewrite negb_involutive.
Qed.

Definition swap {A} (f : nat -> A) (i j k : nat) : A :=
  if Nat.eqb k i then f j else if Nat.eqb k j then f i else f k.

Section Generic.
Context {A : Type}.
Variable O : A -> A -> Prop.
Hypothesis Orefl : forall a, O a a.
Hypothesis Otrans : forall a b c, O a b -> O b c -> O a c.
Variable P : nat -> bool.
Hypothesis PS : forall b, 0 < b -> P b = negb (P (hparent b)).

Definition pr (f : nat -> A) (a b : nat) : Prop := if P a then O (f a) (f b) else O (f b) (f a).
Definition MM (f : nat -> A) (n : nat) : Prop := forall a b, anc a b -> b < n -> pr f a b.

Lemma pr_true f a b : P a = true -> pr f a b = O (f a) (f b).
Proof. unfold pr. now intros ->. Qed.
Lemma pr_false f a b : P a = false -> pr f a b = O (f b) (f a).
Proof. unfold pr. now intros ->. Qed.

Lemma MM_ext f g n : (forall k, f k = g k) -> MM f n -> MM g n.
Proof. intros H HM a b Hab Hb. unfold pr. rewrite <- !H. now apply HM. Qed.

Lemma MM_le f n m : m <= n -> MM f n -> MM f m.
Proof. intros H HM a b Hab Hb. apply HM; auto. lia. Qed.

Lemma P_gp p : 2 < p -> P (grandparent p) = P p.
Proof.
  intros H. destruct (gp_parent p H) as [-> H1].
  rewrite (PS p), (PS (hparent p)) by lia. now rewrite negb_involutive.
Qed.

(** Values along one parity line are ordered. *)
Definition Up f n p : Prop := P p = true /\
  (forall a b, anc a b -> b < n -> b <> p -> pr f a b) /\
  (forall a, anc a p -> P a = false -> O (f p) (f a)).

Lemma up_step f f' n p : Up f n p -> 2 < p -> p < n ->
  (forall k, f' k = swap f p (grandparent p) k) ->
  O (f p) (f (grandparent p)) -> Up f' n (grandparent p).
Proof.
  intros (Hp & Hall & Hodd) H2 Hn Hf HO. set (g := grandparent p) in *.
  destruct (gp_parent p H2) as [Hg Hpp]. fold g in Hg.
  assert (Hgp : anc g p) by (unfold g; now apply anc_gp).
  assert (Hlt := anc_lt _ _ Hgp).
  assert (HPg : P g = true) by (unfold g; now rewrite P_gp).
  assert (Fp : f' p = f g) by (rewrite Hf; unfold swap; now rewrite Nat.eqb_refl).
  assert (Fg : f' g = f p).
  { rewrite Hf; unfold swap. destruct (Nat.eqb_spec g p); [lia|]. now rewrite Nat.eqb_refl. }
  assert (Fk : forall k, k <> p -> k <> g -> f' k = f k).
  { intros k H3 H4. rewrite Hf. unfold swap. destruct (Nat.eqb_spec k p); [lia|]. destruct (Nat.eqb_spec k g); [lia|auto]. }
  split; [auto|]. split.
  - intros a b Hab Hb Hbg. destruct (Nat.eq_dec b p) as [->|Hbp].
    + (* b = p *)
      unfold pr. rewrite Fp.
      destruct (anc_inv _ _ Hab) as [_ [Ha|Ha]].
      * (* a = parent p: odd *)
        subst a. assert (HPa : P (hparent p) = false).
        { rewrite PS in Hp by lia. destruct (P (hparent p)); auto. }
        rewrite HPa. rewrite Fk by (unfold hparent, g, grandparent in *; lia).
        assert (Hgpar : anc g (hparent p)) by (rewrite Hg; apply anc1; lia).
        pose proof (Hall _ _ Hgpar ltac:(unfold hparent in *; lia) ltac:(unfold hparent in *; lia)) as H.
        now rewrite pr_true in H.
      * destruct (anc_inv _ _ Ha) as [_ [Ha'|Ha']].
        -- rewrite <- Hg in Ha'. subst a. rewrite HPg, Fg. auto.
        -- rewrite <- Hg in Ha'. pose proof (anc_lt _ _ Ha') as Hl. rewrite Fk by lia.
           pose proof (Hall _ _ Ha' ltac:(lia) ltac:(lia)) as H. exact H.
    + destruct (Nat.eq_dec a p) as [->|Hap].
      * rewrite pr_true by auto. rewrite Fp, Fk by auto.
        pose proof (Hall _ _ (anc_trans _ _ _ Hgp Hab) Hb Hbp) as H. now rewrite pr_true in H.
      * destruct (Nat.eq_dec a g) as [->|Hag].
        -- rewrite pr_true by auto. rewrite Fg, Fk by auto.
           pose proof (Hall _ _ Hab Hb Hbp) as H. rewrite pr_true in H by auto. eauto.
        -- unfold pr. rewrite !Fk by auto. exact (Hall _ _ Hab Hb Hbp).
  - intros a Ha HPa. rewrite Fg. pose proof (anc_lt _ _ Ha). rewrite Fk by lia.
    apply Hodd; auto. eapply anc_trans; eauto.
Qed.

Lemma up_stop f n p : Up f n p -> p < n -> (2 < p -> O (f (grandparent p)) (f p)) -> MM f n.
Proof.
  intros (Hp & Hall & Hodd) Hn Hg a b Hab Hb. destruct (Nat.eq_dec b p) as [->|Hne]; [|now apply Hall].
  destruct (P a) eqn:HPa; [|rewrite pr_false by auto; now apply Hodd].
  rewrite pr_true by auto.
  destruct (anc_inv _ _ Hab) as [H0 [Ha|Ha]].
  { subst a. rewrite PS in Hp by auto. rewrite HPa in Hp. discriminate. }
  destruct (anc_inv _ _ Ha) as [H1 Ha'].
  assert (H2 : 2 < p) by (unfold hparent in H1; lia).
  destruct (gp_parent p H2) as [Hgp _]. rewrite <- Hgp in Ha'.
  destruct Ha' as [->|Ha']; [auto|].
  eapply Otrans; [|apply Hg; auto].
  assert (Hgl : grandparent p < p) by (unfold grandparent; lia).
  pose proof (Hall _ _ Ha' ltac:(lia) ltac:(lia)) as H. now rewrite pr_true in H.
Qed.

(** Moving down. *)
Definition Down f n p : Prop := P p = true /\ forall a b, anc a b -> b < n -> a <> p -> pr f a b.

Lemma down_stop f n p : Down f n p -> (forall b, anc p b -> b < n -> O (f p) (f b)) -> MM f n.
Proof.
  intros (Hp & Hall) H a b Hab Hb. destruct (Nat.eq_dec a p) as [->|Hne]; [|auto].
  rewrite pr_true by auto. auto.
Qed.

Lemma least_desc f n p v : Down f n p ->
  (forall c, 0 < c -> hparent c = p -> c < n -> O v (f c)) ->
  (forall g, 2 < g -> grandparent g = p -> g < n -> O v (f g)) ->
  forall b, anc p b -> b < n -> O v (f b).
Proof.
  intros (Hp & Hall) Hc Hg b Hb Hn. destruct (anc_down _ _ Hb) as (c & Hc0 & Hcp & [->|Hcb]); [auto|].
  destruct (anc_down _ _ Hcb) as (g & Hg0 & Hgc & Hgb).
  assert (Hg2 : 2 < g) by (unfold hparent in Hgc; lia).
  assert (Hgp : grandparent g = p) by (destruct (gp_parent g Hg2) as [-> _]; congruence).
  destruct Hgb as [->|Hgb]; [auto|].
  pose proof (anc_lt _ _ Hgb) as Hlt.
  eapply Otrans; [apply (Hg g); auto; lia|].
  assert (Hpg : p < g) by (rewrite <- Hgp; unfold grandparent; lia).
  pose proof (Hall _ _ Hgb Hn ltac:(lia)) as H. rewrite pr_true in H; auto.
  rewrite <- P_gp by auto. congruence.
Qed.

Lemma down_grand f f1 f2 n p g : Down f n p -> 2 < g -> grandparent g = p -> g < n ->
  (forall b, anc p b -> b < n -> O (f g) (f b)) -> O (f g) (f p) ->
  (forall k, f1 k = swap f p g k) ->
  ((O (f1 g) (f1 (hparent g)) /\ forall k, f2 k = f1 k) \/
   (O (f1 (hparent g)) (f1 g) /\ forall k, f2 k = swap f1 (hparent g) g k)) ->
  Down f2 n g.
Proof.
  intros (Hp & Hall) H2 Hgp Hn Hleast Hgp' Hf1 Hf2.
  destruct (gp_parent g H2) as [Hgpp Hq0]. 
  assert (Hqe : exists q, q = hparent g) by eauto. destruct Hqe as [q Hqe]. rewrite <- Hqe in *.
  assert (Hqp : hparent q = p) by congruence.
  assert (Haqg : anc q g) by (rewrite Hqe; apply anc1; lia).
  assert (Hapq : anc p q) by (rewrite <- Hqp; now apply anc1).
  assert (Hapg : anc p g) by (eapply anc_trans; eauto).
  assert (Hlt1 := anc_lt _ _ Haqg). assert (Hlt2 := anc_lt _ _ Hapq).
  assert (HPg : P g = true) by (rewrite <- P_gp by auto; congruence).
  assert (HPq : P q = false).
  { rewrite PS in HPg by lia. rewrite <- Hqe in HPg. destruct (P q); auto. }
  assert (Fp : f1 p = f g) by (rewrite Hf1; unfold swap; now rewrite Nat.eqb_refl).
  assert (Fg : f1 g = f p).
  { rewrite Hf1; unfold swap. destruct (Nat.eqb_spec g p); [lia|]. now rewrite Nat.eqb_refl. }
  assert (Fk : forall k, k <> p -> k <> g -> f1 k = f k).
  { intros k H3 H4. rewrite Hf1. unfold swap. destruct (Nat.eqb_spec k p); [lia|]. destruct (Nat.eqb_spec k g); [lia|auto]. }
  assert (Hq : f1 q = f q) by (apply Fk; lia).
  (* where an ancestor of g can be *)
  assert (Ag : forall a, anc a g -> a = q \/ a = p \/ anc a p).
  { intros a Ha. destruct (anc_inv _ _ Ha) as [_ [Ea|Ha']]; rewrite <- Hqe in *; [auto|].
    destruct (anc_inv _ _ Ha') as [_ [Ea|Ha'']]; rewrite Hqp in *; auto. }
  assert (Aq : forall a, anc a q -> a = p \/ anc a p).
  { intros a Ha. destruct (anc_inv _ _ Ha) as [_ [Ea|Ha']]; rewrite Hqp in *; auto. }
  split; [auto|]. intros a b Hab Hb Hag.
  pose proof (anc_lt _ _ Hab) as Hltab.
  destruct Hf2 as [[Hord Hf2]|[Hord Hf2]].
  - (* no second swap *)
    unfold pr. rewrite !Hf2. change (pr f1 a b).
    destruct (Nat.eq_dec a p) as [->|Hap].
    + rewrite pr_true, Fp by auto. destruct (Nat.eq_dec b g) as [->|Hbg]; [now rewrite Fg|].
      rewrite Fk by lia. auto.
    + destruct (Nat.eq_dec b p) as [->|Hbp].
      * unfold pr. rewrite Fp, Fk by lia. apply (Hall a g); auto. eapply anc_trans; eauto.
      * destruct (Nat.eq_dec b g) as [->|Hbg].
        -- destruct (Ag _ Hab) as [->|[->|Ha]]; [|lia|].
           ++ rewrite pr_false by auto. auto.
           ++ unfold pr. rewrite Fg, Fk by lia. apply (Hall a p); auto. lia.
        -- unfold pr. rewrite !Fk by lia. apply (Hall a b); auto.
  - (* parent swap *)
    assert (G : forall k, k <> q -> k <> g -> f2 k = f1 k).
    { intros k H3 H4. rewrite Hf2. unfold swap. destruct (Nat.eqb_spec k q); [lia|]. destruct (Nat.eqb_spec k g); [lia|auto]. }
    assert (Gq : f2 q = f p) by (rewrite Hf2; unfold swap; now rewrite Nat.eqb_refl).
    assert (Gg : f2 g = f q).
    { rewrite Hf2; unfold swap. destruct (Nat.eqb_spec g q); [lia|]. now rewrite Nat.eqb_refl. }
    assert (Gp : f2 p = f g) by (rewrite G by lia; auto).
    rewrite Hq, Fg in Hord. (* O (f q) (f p) *)
    assert (Gk : forall k, k <> p -> k <> q -> k <> g -> f2 k = f k) by (intros; rewrite G by lia; apply Fk; lia).
    destruct (Nat.eq_dec a p) as [->|Hap].
    + rewrite pr_true, Gp by auto. destruct (Nat.eq_dec b g) as [->|Hbg].
      * rewrite Gg. apply Hleast; auto. lia.
      * destruct (Nat.eq_dec b q) as [->|Hbq]; [now rewrite Gq|]. rewrite Gk by lia. auto.
    + destruct (Nat.eq_dec a q) as [->|Haq].
      * rewrite pr_false, Gq by auto. destruct (Nat.eq_dec b g) as [->|Hbg]; [now rewrite Gg|].
        rewrite Gk by lia. pose proof (Hall q b Hab Hb ltac:(lia)) as H. rewrite pr_false in H by auto. eauto.
      * destruct (Nat.eq_dec b p) as [->|Hbp].
        -- unfold pr. rewrite Gp, Gk by lia. apply (Hall a g); auto. eapply anc_trans; eauto.
        -- destruct (Nat.eq_dec b g) as [->|Hbg].
           ++ destruct (Ag _ Hab) as [->|[->|Ha]]; try lia.
              pose proof (anc_lt _ _ Ha). unfold pr. rewrite Gg, Gk by lia. apply (Hall a q); auto; [|lia].
              eapply anc_trans; eauto.
           ++ destruct (Nat.eq_dec b q) as [->|Hbq].
              ** destruct (Aq _ Hab) as [->|Ha]; [lia|].
                 unfold pr. rewrite Gq, Gk by lia. apply (Hall a p); auto. lia.
              ** unfold pr. rewrite !Gk by lia. apply (Hall a b); auto.
Qed.

Lemma down_child f f1 n p c : Down f n p -> 0 < c -> hparent c = p -> c < n ->
  (forall b, anc p b -> b < n -> O (f c) (f b)) -> O (f c) (f p) ->
  (forall k, f1 k = swap f p c k) -> MM f1 n.
Proof.
  intros (Hp & Hall) Hc0 Hcp Hn Hleast HO Hf1 a b Hab Hb.
  assert (Hapc : anc p c) by (rewrite <- Hcp; now apply anc1).
  assert (Hlt := anc_lt _ _ Hapc). pose proof (anc_lt _ _ Hab) as Hltab.
  assert (Fp : f1 p = f c) by (rewrite Hf1; unfold swap; now rewrite Nat.eqb_refl).
  assert (Fc : f1 c = f p).
  { rewrite Hf1; unfold swap. destruct (Nat.eqb_spec c p); [lia|]. now rewrite Nat.eqb_refl. }
  assert (Fk : forall k, k <> p -> k <> c -> f1 k = f k).
  { intros k H3 H4. rewrite Hf1. unfold swap. destruct (Nat.eqb_spec k p); [lia|]. destruct (Nat.eqb_spec k c); [lia|auto]. }
  assert (HPc : P c = false) by (rewrite PS, Hcp, Hp by auto; auto).
  destruct (Nat.eq_dec a p) as [->|Hap].
  - rewrite pr_true, Fp by auto. destruct (Nat.eq_dec b c) as [->|Hbc]; [now rewrite Fc|]. rewrite Fk by lia. auto.
  - destruct (Nat.eq_dec a c) as [->|Hac].
    + rewrite pr_false, Fc, Fk by (auto; lia).
      pose proof (Hall c b Hab Hb ltac:(lia)) as H. rewrite pr_false in H by auto. eauto.
    + destruct (Nat.eq_dec b p) as [->|Hbp].
      * unfold pr. rewrite Fp, Fk by lia. apply (Hall a c); auto. eapply anc_trans; eauto.
      * destruct (Nat.eq_dec b c) as [->|Hbc].
        -- destruct (anc_inv _ _ Hab) as [_ [->|Ha]]; rewrite Hcp in *; [lia|].
           unfold pr. rewrite Fc, Fk by lia. apply (Hall a p); auto. lia.
        -- unfold pr. rewrite !Fk by lia. apply (Hall a b); auto.
Qed.
End Generic.

(** Flipping the order and the parity gives the same heap condition. *)
Lemma MM_flip {A} (O : A -> A -> Prop) (P : nat -> bool) f n :
  MM O P f n <-> MM (fun a b => O b a) (fun i => negb (P i)) f n.
Proof.
  unfold MM, pr. split; intros H a b Hab Hb; specialize (H a b Hab Hb); destruct (P a); simpl in *; auto.
Qed.
