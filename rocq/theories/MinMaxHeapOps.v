(** The public operations of the heap: totality, multiset, order. *)
From Coq Require Import List ZArith Arith Bool Lia ZifyBool ZifyNat Permutation.
From Verif Require Import Base BaseLemmas MinMaxHeapModel MinMaxHeapSpec MinMaxHeapTree MinMaxHeapProofs.
Import ListNotations.
Open Scope outcome_scope.
Ltac Zify.zify_post_hook ::= Z.div_mod_to_equations.

Section Ops.
Context {A : Type}.
Variable dflt : A.
Notation F d := (fun k => nth k d dflt).

Lemma removelast_spec (d : list A) m : length d = S m ->
  length (removelast d) = m /\ Permutation d (nth m d dflt :: removelast d) /\
  forall k, k < m -> nth k (removelast d) dflt = nth k d dflt.
Proof.
  intros H. assert (Hne : d <> []) by (destruct d; [discriminate|congruence]).
  pose proof (app_removelast_last dflt Hne) as E.
  set (r := removelast d) in *. set (l := last d dflt) in *.
  assert (Hr : length r = m) by (apply (f_equal (@length A)) in E; rewrite app_length in E; simpl in E; lia).
  split; [auto|]. split.
  - rewrite E at 2. rewrite app_nth2, Hr, Nat.sub_diag by lia. simpl. rewrite E at 1.
    symmetry. apply Permutation_cons_append.
  - intros k Hk. rewrite E at 1. rewrite app_nth1 by lia. reflexivity.
Qed.

Lemma gup_stop test fuel (d : list A) i j : i < length d ->
  (length d <= j \/ j < length d /\ test (nth i d dflt) (nth j d dflt) = false) -> gup test (S fuel) d i j = Ret (d, i).
Proof.
  intros Hi H. cbn [gup]. destruct (Nat.ltb_spec j (length d)) as [Hj|Hj]; [|auto].
  destruct H as [H|[_ H]]; [lia|]. rewrite (cmp_at_ok dflt) by auto. cbn [obind]. now rewrite H.
Qed.

(** ** Totality and multiset, any comparator *)
Section Any.
Variable cmp : A -> A -> bool.

Lemma heapUp_total (d : list A) i : i < length d ->
  exists d', heapUp cmp d i = Ret d' /\ Permutation d d'.
Proof.
  intros Hi. unfold heapUp.
  set (imin := if level i mod 2 =? 0 then _ else _).
  set (imax := if level i mod 2 =? 0 then (if hasParent i then hparent i else length d) else _).
  assert (Hmin : length d <= imin \/ imin < length d) by lia.
  assert (Hmax : length d <= imax \/ imax < length d) by lia.
  rewrite up_min_g.
  destruct (gup_total dflt cmp (S (length d)) d i imin Hi) as (d1 & i1 & -> & HP & Hi1); [lia|].
  cbn [obind]. rewrite up_max_g. pose proof (Permutation_length HP) as Hl.
  destruct (gup_total dflt (fun x y => negb (cmp x y)) (S (length d)) d1 i1 imax Hi1) as (d2 & i2 & -> & HP2 & Hi2); [lia|].
  cbn [obind]. exists d2. split; [auto|]. eapply Permutation_trans; eauto.
Qed.

Lemma push_total (d : list A) t : exists d', push cmp d t = Ret d' /\ Permutation (t :: d) d'.
Proof.
  unfold push. destruct (heapUp_total (d ++ [t]) (length d)) as (d' & -> & HP).
  - rewrite app_length. simpl. lia.
  - exists d'. split; [auto|]. eapply Permutation_trans; [apply Permutation_cons_append|exact HP].
Qed.

Lemma heapDownMin_total (d : list A) i : exists d', heapDownMin cmp d i = Ret d' /\ Permutation d d'.
Proof. unfold heapDownMin. rewrite down_min_g. apply (gdown_total dflt); lia. Qed.

Lemma heapDownMax_total (d : list A) i : exists d', heapDownMax cmp d i = Ret d' /\ Permutation d d'.
Proof. unfold heapDownMax. rewrite down_max_g. apply (gdown_total dflt); lia. Qed.

(** What popTop hands to heapDownMin. *)
Lemma popTop_unfold (d : list A) m : length d = S m -> exists r,
  popTop cmp d = heapDownMin cmp r 0 /\ length r = m /\ Permutation d (nth 0 d dflt :: r) /\
  (0 < m -> nth 0 r dflt = nth m d dflt) /\ forall k, 0 < k < m -> nth k r dflt = nth k d dflt.
Proof.
  intros H. unfold popTop. destruct d as [|x t] eqn:Ed; [discriminate|]. rewrite <- Ed in *.
  replace (length d - 1) with m by lia.
  destruct (vswap_ok dflt d 0 m) as (d1 & -> & Hl & HP & Hn); [lia|lia|]. cbn [obind].
  destruct (removelast_spec d1 m) as (Hr & HPr & Hrn); [lia|].
  exists (removelast d1). split; [auto|]. split; [auto|]. split.
  - eapply Permutation_trans; [exact HP|]. rewrite Hn in HPr. unfold swap in HPr.
    destruct (Nat.eqb_spec m 0) as [->|]; [|rewrite Nat.eqb_refl in HPr]; exact HPr.
  - split.
    + intros Hm. rewrite Hrn, Hn by lia. reflexivity.
    + intros k Hk. rewrite Hrn, Hn by lia. unfold swap.
      destruct (Nat.eqb_spec k 0); [lia|]. destruct (Nat.eqb_spec k m); [lia|auto].
Qed.

Lemma top_total (d : list A) : d <> [] -> top d = Ret (nth 0 d dflt).
Proof. destruct d; [congruence|]. intros _. reflexivity. Qed.

Lemma popTop_total (d : list A) : d <> [] -> exists d', popTop cmp d = Ret d' /\ Permutation d (nth 0 d dflt :: d').
Proof.
  intros H. destruct (popTop_unfold d (length d - 1)) as (r & -> & _ & HP & _); [destruct d; simpl; [congruence|lia]|].
  destruct (heapDownMin_total r 0) as (d' & -> & HP'). exists d'. split; [auto|].
  eapply Permutation_trans; [exact HP|]. now apply perm_skip.
Qed.

Lemma popBottom_unfold (d : list A) m : length d = S (S m) -> exists c r,
  bottom cmp d = Ret (nth c d dflt) /\
  popBottom cmp d = heapDownMax cmp r c /\ length r = S m /\ Permutation d (nth c d dflt :: r) /\
  0 < c /\ hparent c = 0 /\ c < length d /\
  (StrictWeak cmp -> forall c', 0 < c' -> hparent c' = 0 -> c' < length d -> leo (flipc cmp) (nth c d dflt) (nth c' d dflt)) /\
  (c < S m -> nth c r dflt = nth (S m) d dflt) /\ forall k, k <> c -> k < S m -> nth k r dflt = nth k d dflt.
Proof.
  intros H. unfold popBottom, bottom. destruct d as [|x [|y t]] eqn:Ed; [discriminate|discriminate|]. rewrite <- Ed in *.
  rewrite childMax_flip. destruct (childMin_spec dflt (flipc cmp) d 0) as (c & -> & Hc0 & Hcp & Hcl & Hco). cbn [obind].
  specialize (Hcl ltac:(lia)). rewrite (vread_ok dflt) by auto.
  replace (length d - 1) with (S m) by lia.
  destruct (vswap_ok dflt d c (S m)) as (d1 & -> & Hl & HP & Hn); [lia|lia|]. cbn [obind].
  destruct (removelast_spec d1 (S m)) as (Hr & HPr & Hrn); [lia|].
  exists c, (removelast d1). split; [auto|]. split; [auto|]. split; [auto|]. split.
  - eapply Permutation_trans; [exact HP|]. rewrite Hn in HPr. unfold swap in HPr.
    destruct (Nat.eqb_spec (S m) c) as [<-|]; [|rewrite Nat.eqb_refl in HPr]; exact HPr.
  - split; [auto|]. split; [auto|]. split; [auto|]. split.
    { intros SW c' H1 H2 H3. apply Hco; auto. now apply sw_flip. }
    split.
    + intros Hm. rewrite Hrn, Hn by lia. unfold swap. now rewrite Nat.eqb_refl.
    + intros k Hk Hkm. rewrite Hrn, Hn by lia. unfold swap.
      destruct (Nat.eqb_spec k c); [lia|]. destruct (Nat.eqb_spec k (S m)); [lia|auto].
Qed.

Lemma popBottom_total (d : list A) : d <> [] -> exists x d', bottom cmp d = Ret x /\ popBottom cmp d = Ret d' /\ Permutation d (x :: d').
Proof.
  intros H. destruct d as [|x [|y t]] eqn:E; [congruence| |].
  - exists x, []. auto.
  - destruct (popBottom_unfold d (length t)) as (c & r & Hb & Hp & _ & HP & _); [now subst|].
    rewrite E in Hb, Hp, HP. rewrite Hb, Hp. destruct (heapDownMax_total r c) as (d' & -> & HP').
    exists (nth c (x :: y :: t) dflt), d'. split; [auto|]. split; [auto|].
    eapply Permutation_trans; [exact HP|]. now apply perm_skip.
Qed.
End Any.

(** ** Order *)
Section Start.
Variable cmp : A -> A -> bool.
Hypothesis SW : StrictWeak cmp.
Variable P : nat -> bool.
Hypothesis PS : forall b, 0 < b -> P b = negb (P (hparent b)).
Notation O := (leo cmp).

Lemma up_same (f : nat -> A) i : P i = true -> 0 < i -> (forall a b, anc a b -> b < i -> pr O P f a b) ->
  O (f i) (f (hparent i)) -> Up O P f (S i) i.
Proof.
  intros HP H0 Hall HO. split; [auto|]. split.
  - intros a b Hab Hb Hne. apply Hall; auto. lia.
  - intros a Ha HPa. destruct (anc_inv _ _ Ha) as [_ [->|Ha']]; [auto|].
    pose proof (hparent_lt i H0). pose proof (Hall _ _ Ha' ltac:(lia)) as H1. rewrite pr_false in H1 by auto.
    eapply (leo_trans cmp SW); eauto.
Qed.

Lemma up_cross (f f' : nat -> A) i : P i = false -> 0 < i -> (forall a b, anc a b -> b < i -> pr O P f a b) ->
  O (f i) (f (hparent i)) -> (forall k, f' k = swap f i (hparent i) k) -> Up O P f' (S i) (hparent i).
Proof.
  intros HP H0 Hall HO Hf. set (q := hparent i) in *.
  assert (Hq : q < i) by (unfold q; now apply hparent_lt).
  assert (HPq : P q = true) by (rewrite PS in HP by auto; fold q in HP; destruct (P q); auto; discriminate).
  assert (Fi : f' i = f q) by (rewrite Hf; unfold swap; now rewrite Nat.eqb_refl).
  assert (Fq : f' q = f i).
  { rewrite Hf; unfold swap. destruct (Nat.eqb_spec q i); [lia|]. now rewrite Nat.eqb_refl. }
  assert (Fk : forall k, k <> i -> k <> q -> f' k = f k).
  { intros k H1 H2. rewrite Hf. unfold swap. destruct (Nat.eqb_spec k i); [lia|]. destruct (Nat.eqb_spec k q); [lia|auto]. }
  split; [auto|]. split.
  - intros a b Hab Hb Hbq. pose proof (anc_lt _ _ Hab) as Hlt.
    destruct (Nat.eq_dec b i) as [->|Hbi].
    + destruct (anc_inv _ _ Hab) as [_ [Ha|Ha]]; fold q in Ha.
      * subst a. rewrite pr_true by auto. now rewrite Fi, Fq.
      * pose proof (anc_lt _ _ Ha). unfold pr. rewrite Fi, Fk by lia. apply (Hall a q); auto.
    + destruct (Nat.eq_dec a q) as [->|Haq].
      * rewrite pr_true, Fq, Fk by (auto; lia). pose proof (Hall q b Hab ltac:(lia)) as H1.
        rewrite pr_true in H1 by auto. eapply (leo_trans cmp SW); eauto.
      * unfold pr. rewrite !Fk by lia. apply (Hall a b); auto. lia.
  - intros a Ha HPa. pose proof (anc_lt _ _ Ha). rewrite Fq, Fk by lia.
    pose proof (Hall a q Ha Hq) as H1. rewrite pr_false in H1 by auto. eapply (leo_trans cmp SW); eauto.
Qed.
End Start.

Section Sw.
Variable cmp : A -> A -> bool.
Hypothesis SW : StrictWeak cmp.
Notation O := (leo cmp).
Notation O' := (leo (flipc cmp)).
Definition ev' i := negb (ev i).

Lemma ev'_S b : 0 < b -> ev' b = negb (ev' (hparent b)).
Proof. intros H. unfold ev'. now rewrite ev_S. Qed.

Definition hmm (d : list A) : Prop := MM O ev (F d) (length d).

Lemma hmm_flip (d : list A) : hmm d <-> MM O' ev' (F d) (length d).
Proof. unfold hmm. rewrite MM_flip. reflexivity. Qed.

Let SW' : StrictWeak (flipc cmp) := sw_flip _ SW.

Lemma push_hmm (d : list A) t : hmm d -> exists d', push cmp d t = Ret d' /\ hmm d'.
Proof.
  intros HM. unfold push. set (e := d ++ [t]). set (i := length d).
  assert (Hle : length e = S i) by (unfold e; rewrite app_length; simpl; lia).
  assert (Hall : forall a b, anc a b -> b < i -> pr O ev (F e) a b).
  { intros a b Hab Hb. pose proof (anc_lt _ _ Hab). unfold pr, e. rewrite !app_nth1 by (fold i; lia). apply HM; auto. }
  assert (Hall' : forall a b, anc a b -> b < i -> pr O' ev' (F e) a b).
  { intros a b Hab Hb. specialize (Hall a b Hab Hb). unfold pr, ev' in *. destruct (ev a); exact Hall. }
  clearbody e i. clear HM d. unfold heapUp. rewrite up_min_g. fold (ev i).
  destruct (Nat.eq_dec i 0) as [->|Hi0].
  { (* first element *)
    change (ev 0) with true. cbn [hasGrandparent hasParent Nat.ltb Nat.leb].
    rewrite gup_stop by lia. cbn [obind]. rewrite up_max_g, gup_stop by lia. cbn [obind].
    exists e. split; [auto|]. intros a b Hab Hb. pose proof (anc_lt _ _ Hab). lia. }
  assert (H0 : 0 < i) by lia. assert (Hpl := hparent_lt i H0).
  assert (HhP : hasParent i = true) by (unfold hasParent; apply Nat.ltb_lt; lia). rewrite HhP.
  assert (Hgl : hasGrandparent i = true -> 2 < i /\ grandparent i < i).
  { intros H. apply Nat.ltb_lt in H. unfold grandparent. lia. }
  destruct (ev i) eqn:Hev.
  - (* min level *)
    destruct (hasGrandparent i && cmp (nth i e dflt) (nth (grandparent i) e dflt)) eqn:Hc.
    + (* climbs on min levels *)
      apply andb_true_iff in Hc as [HG Hc]. destruct (Hgl HG) as [H2 Hg].
      assert (Hgp : O (nth (grandparent i) e dflt) (nth (hparent i) e dflt)).
      { destruct (gp_parent i H2) as [Egp H1]. assert (Ha : anc (grandparent i) (hparent i)) by (rewrite Egp; now apply anc1).
        pose proof (Hall _ _ Ha Hpl) as H3. rewrite pr_true in H3; auto. rewrite ev_gp; auto. }
      assert (HU : Up O ev (F e) (length e) i).
      { rewrite Hle. apply (up_same cmp SW ev ev_S (F e)); auto. eapply (leo_trans cmp SW); [|exact Hgp]. now apply (lt_leo cmp SW). }
      destruct (gup_climb dflt O ev cmp (leo_refl cmp SW) (leo_trans cmp SW) ev_S (lt_leo cmp SW) (fun x y H => H)
                 (S (length e)) e i) as (d1 & i1 & Hr & HP & HM & Hi1 & Hv & Hk); auto; try lia.
      rewrite HG in *. rewrite Hr. cbn [obind]. rewrite up_max_g.
      pose proof (Permutation_length HP) as Hl.
      assert (Hpar : ev (hparent i) = false) by (rewrite ev_S in Hev by auto; destruct (ev (hparent i)); auto).
      rewrite gup_stop.
      * cbn [obind]. exists d1. split; auto.
      * auto.
      * right. split; [lia|]. rewrite Hv, Hk by auto. apply negb_false_iff. eapply (lt_leo_trans cmp SW); eauto.
    + (* first loop idle *)
      assert (Hstop : gup cmp (S (length e)) e i (if hasGrandparent i then grandparent i else length e) = Ret (e, i)).
      { apply gup_stop; [lia|]. destruct (hasGrandparent i) eqn:HG; [right|left; lia].
        destruct (Hgl eq_refl). split; [lia|]. exact Hc. }
      rewrite Hstop. cbn [obind]. rewrite up_max_g.
      destruct (cmp (nth i e dflt) (nth (hparent i) e dflt)) eqn:Hcp.
      * rewrite gup_stop; [|lia|right; split; [lia|now rewrite Hcp]].
        cbn [obind]. exists e. split; [auto|].
        apply (up_stop O (leo_trans cmp SW) ev ev_S _ _ i); [|lia|].
        -- rewrite Hle. apply (up_same cmp SW ev ev_S (F e)); auto. now apply (lt_leo cmp SW).
        -- intros H2. assert (HG : hasGrandparent i = true) by (apply Nat.ltb_lt; lia). rewrite HG in Hc. exact Hc.
      * cbn [gup]. destruct (Nat.ltb_spec (hparent i) (length e)) as [_|]; [|lia].
        rewrite (cmp_at_ok dflt) by lia. cbn [obind]. rewrite Hcp. cbn [negb].
        destruct (vswap_ok dflt e i (hparent i)) as (d1 & -> & Hl & HP & Hn); [lia|lia|]. cbn [obind].
        assert (HU : Up O' ev' (F d1) (length d1) (hparent i)).
        { rewrite Hl, Hle. apply (up_cross (flipc cmp) SW' ev' ev'_S (F e)); auto. unfold ev'. now rewrite Hev. }
        destruct (gup_climb dflt O' ev' (fun x y => negb (cmp x y)) (leo_refl _ SW') (leo_trans _ SW') ev'_S)
          with (fuel := length e) (d := d1) (p := hparent i) as (d2 & i2 & Hr & HP2 & HM & _); auto; try lia.
        { intros x y H. apply negb_true_iff in H. exact H. }
        { intros x y H. apply negb_false_iff in H. apply (lt_leo _ SW'). exact H. }
        rewrite Hl in Hr. rewrite Hr. cbn [obind]. exists d2. split; [auto|]. now apply hmm_flip.
  - (* max level *)
    assert (Hpar : ev (hparent i) = true) by (rewrite ev_S in Hev by auto; destruct (ev (hparent i)); auto; discriminate).
    destruct (cmp (nth i e dflt) (nth (hparent i) e dflt)) eqn:Hcp.
    + cbn [gup]. destruct (Nat.ltb_spec (hparent i) (length e)) as [_|]; [|lia].
      rewrite (cmp_at_ok dflt) by lia. cbn [obind]. rewrite Hcp.
      destruct (vswap_ok dflt e i (hparent i)) as (d1 & -> & Hl & HP & Hn); [lia|lia|]. cbn [obind].
      assert (HU : Up O ev (F d1) (length d1) (hparent i)).
      { rewrite Hl, Hle. apply (up_cross cmp SW ev ev_S (F e)); auto. now apply (lt_leo cmp SW). }
      destruct (gup_climb dflt O ev cmp (leo_refl _ SW) (leo_trans _ SW) ev_S (lt_leo cmp SW) (fun x y H => H))
          with (fuel := length e) (d := d1) (p := hparent i) as (d2 & i2 & Hr & HP2 & HM & Hi2 & Hv & Hk); auto; try lia.
      rewrite Hl in Hr. rewrite Hr. cbn [obind]. rewrite up_max_g. pose proof (Permutation_length HP2) as Hl2.
      rewrite gup_stop; [cbn [obind]; exists d2; split; [auto|exact HM]|auto|].
      destruct (hasGrandparent i) eqn:HG; [right|left; lia]. destruct (Hgl eq_refl) as [H2 Hg]. split; [lia|].
      apply negb_false_iff. rewrite Hv, Hk by (rewrite ev_gp; auto). rewrite !Hn. unfold swap.
      destruct (gp_parent i H2) as [Egp H1].
      assert (Hgpl : grandparent i < hparent i) by (unfold grandparent, hparent; lia).
      destruct (Nat.eqb_spec (hparent i) i); [lia|]. rewrite Nat.eqb_refl.
      destruct (Nat.eqb_spec (grandparent i) i); [lia|]. destruct (Nat.eqb_spec (grandparent i) (hparent i)); [lia|].
      eapply (lt_leo_trans cmp SW); [exact Hcp|].
      assert (Ha : anc (grandparent i) (hparent i)) by (rewrite Egp; now apply anc1).
      pose proof (Hall _ _ Ha Hpl) as H3. rewrite pr_false in H3; auto. rewrite ev_gp; auto.
    + rewrite gup_stop; [|lia|right; split; [lia|auto]]. cbn [obind]. rewrite up_max_g.
      assert (HU : Up O' ev' (F e) (length e) i).
      { rewrite Hle. apply (up_same (flipc cmp) SW' ev' ev'_S (F e)); auto. unfold ev'. now rewrite Hev. }
      destruct (gup_climb dflt O' ev' (fun x y => negb (cmp x y)) (leo_refl _ SW') (leo_trans _ SW') ev'_S)
          with (fuel := S (length e)) (d := e) (p := i) as (d2 & i2 & Hr & HP2 & HM & _); auto; try lia.
      { intros x y H. apply negb_true_iff in H. exact H. }
      { intros x y H. apply negb_false_iff in H. apply (lt_leo _ SW'). exact H. }
      rewrite Hr. cbn [obind]. exists d2. split; [auto|]. now apply hmm_flip.
Qed.

Lemma popBottom_hmm (d : list A) : hmm d -> d <> [] -> exists d', popBottom cmp d = Ret d' /\ hmm d'.
Proof.
  intros HM Hne. destruct (length d) as [|[|m]] eqn:El; [destruct d; [congruence|discriminate]| |].
  { destruct d as [|x [|]]; [congruence| |discriminate]. exists []. split; [auto|]. intros a b _ Hb. simpl in Hb. lia. }
  destruct (popBottom_unfold cmp d m El) as (c & r & _ & -> & Hr & _ & Hc0 & Hcp & Hcl & _ & Hrc & Hrk).
  unfold heapDownMax. rewrite down_max_g.
  assert (Hac : anc 0 c) by (rewrite <- Hcp; now apply anc1).
  destruct (le_lt_dec (S m) c) as [Hc|Hc].
  - (* the bottom was the last slot *)
    rewrite gdown_out by lia. exists r. split; [auto|]. intros a b Hab Hb.
    pose proof (anc_lt _ _ Hab). unfold pr. rewrite !Hrk by lia. apply HM; auto. lia.
  - destruct (gdown_false_ok dflt (flipc cmp) SW' ev' ev'_S (S (length r)) r c) as (d' & -> & _ & HM'); try lia.
    + split; [unfold ev'; rewrite ev_S, Hcp by auto; reflexivity|].
      intros a b Hab Hb Hne'. pose proof (anc_lt _ _ Hab) as Hlt. rewrite Hr in Hb.
      apply hmm_flip in HM.
      destruct (Nat.eq_dec b c) as [->|Hbc].
      * assert (a = 0).
        { destruct (anc_inv _ _ Hab) as [_ [->|Ha]]; [auto|]. rewrite Hcp in Ha. pose proof (anc_lt _ _ Ha). lia. }
        subst a. unfold pr. rewrite Hrc, Hrk by lia.
        assert (H0m : anc 0 (S m)).
        { assert (forall k, 0 < k -> anc 0 k) as Hall.
          { intros k. induction k as [k IH] using lt_wf_ind. intros Hk.
            destruct (Nat.eq_dec (hparent k) 0) as [E|E]; [rewrite <- E; now apply anc1|].
            apply ancS; [auto|]. apply IH; [now apply hparent_lt|lia]. }
          apply Hall. lia. }
        apply (HM 0 (S m)); auto. lia.
      * unfold pr. rewrite !Hrk by lia. apply (HM a b); auto. lia.
    + exists d'. split; [auto|]. now apply hmm_flip.
Qed.

Lemma popTop_hmm (d : list A) : hmm d -> d <> [] -> tame cmp d ->
  exists d', popTop cmp d = Ret d' /\ hmm d'.
Proof.
  intros HM Hne Hfew. destruct (length d) as [|m] eqn:El; [destruct d; [congruence|discriminate]|].
  destruct (popTop_unfold cmp d m El) as (r & -> & Hr & HP & Hr0 & Hrk).
  unfold heapDownMin. rewrite down_min_g.
  destruct (gdown_true_ok dflt cmp SW ev ev_S (S (length r)) r 0) as (d' & -> & _ & HM'); try lia.
  - split; [reflexivity|]. intros a b Hab Hb Hne'. pose proof (anc_lt _ _ Hab) as Hlt. rewrite Hr in Hb.
    unfold pr. rewrite !Hrk by lia. apply (HM a b); auto. lia.
  - intros v. destruct (Hfew v) as [Hv|Hv]; [left|right].
    + rewrite (copies_perm _ _ _ v HP) in Hv. unfold copies in *. simpl in Hv.
      destruct (negb _ && negb _) in Hv; simpl in Hv; lia.
    + intros x Hx. apply Hv. apply (Permutation_in _ (Permutation_sym HP)). now right.
  - unfold J. rewrite Hr. intros HPq Hanc. pose proof (anc_lt _ _ Hanc) as Hq.
    assert (Hm : 0 < m) by (unfold hparent in Hq; lia). assert (Hqm := hparent_lt m Hm).
    rewrite Hr0, Hrk by lia.
    pose proof (HM (hparent m) m (anc1 m Hm) ltac:(lia)) as H. rewrite pr_false in H by auto. exact H.
  - exists d'. auto.
Qed.

Lemma anc_0 k : 0 < k -> anc 0 k.
Proof.
  induction k as [k IH] using lt_wf_ind. intros Hk.
  destruct (Nat.eq_dec (hparent k) 0) as [E|E]; [rewrite <- E; now apply anc1|].
  apply ancS; [auto|]. apply IH; [now apply hparent_lt|lia].
Qed.

Lemma hmm_root (d : list A) : hmm d -> forall k, k < length d -> leo cmp (nth 0 d dflt) (nth k d dflt).
Proof.
  intros HM k Hk. destruct k as [|k]; [apply (leo_refl cmp SW)|].
  apply (HM 0 (S k)); auto. apply anc_0. lia.
Qed.

Lemma top_min (d : list A) : hmm d -> d <> [] -> exists x, top d = Ret x /\ is_min cmp d x.
Proof.
  intros HM Hne. exists (nth 0 d dflt). split; [now apply top_total|].
  assert (0 < length d) by (destruct d; simpl; [congruence|lia]).
  split; [now apply nth_In|]. intros w Hw. destruct (In_nth _ _ dflt Hw) as (k & Hk & <-).
  now apply hmm_root.
Qed.

Lemma bottom_max (d : list A) : hmm d -> d <> [] -> exists x, bottom cmp d = Ret x /\ is_max cmp d x.
Proof.
  intros HM Hne. destruct (length d) as [|[|m]] eqn:El; [destruct d; [congruence|discriminate]| |].
  { destruct d as [|x [|]]; [congruence| |discriminate]. exists x. split; [auto|]. split; [now left|].
    intros w [<-|[]]. apply (sw_irrefl _ SW). }
  destruct (popBottom_unfold cmp d m El) as (c & r & -> & _ & _ & _ & Hc0 & Hcp & Hcl & Hco & _).
  specialize (Hco SW). exists (nth c d dflt). split; [auto|]. split; [now apply nth_In|].
  intros w Hw. destruct (In_nth _ _ dflt Hw) as (k & Hk & <-).
  destruct k as [|k].
  - change (leo cmp (nth 0 d dflt) (nth c d dflt)). now apply hmm_root.
  - destruct (anc_down 0 (S k) (anc_0 (S k) (Nat.lt_0_succ k))) as (c' & H1 & H2 & H3).
    assert (Hc' : c' < length d) by (destruct H3 as [->|H3]; [auto|pose proof (anc_lt _ _ H3); lia]).
    specialize (Hco c' H1 H2 Hc'). destruct H3 as [->|H3]; [exact Hco|].
    pose proof (HM c' (S k) H3 Hk) as H4. rewrite pr_false in H4 by (rewrite ev_S, H2; auto).
    unfold leo, flipc in *. eapply sw_le_trans; eauto.
Qed.
End Sw.
End Ops.
