(** Histories of heap operations. *)
From Coq Require Import List ZArith Arith Bool Lia ZifyBool ZifyNat Permutation.
From Verif Require Import Base BaseLemmas MinMaxHeapModel MinMaxHeapSpec MinMaxHeapTree MinMaxHeapProofs MinMaxHeapOps.
Import ListNotations.
Open Scope outcome_scope.
Ltac Zify.zify_post_hook ::= Z.div_mod_to_equations.

Section Run.
Context {A : Type}.
Variable cmp : A -> A -> bool.

Lemma hstep_push d x : exists d', hstep cmp d (HPush x) = Ret (d', EvPush x) /\ push cmp d x = Ret d' /\ Permutation (x :: d) d'.
Proof.
  destruct (push_total x cmp d x) as (d' & E & HP). exists d'. cbn [hstep]. rewrite E. auto.
Qed.

Lemma hstep_popTop d : d <> [] -> exists x d', hstep cmp d HPopTop = Ret (d', EvPopTop x) /\
  top d = Ret x /\ popTop cmp d = Ret d' /\ Permutation d (x :: d').
Proof.
  intros H. assert (Hx : exists a : A, True) by (destruct d as [|a t]; [congruence|now exists a]). destruct Hx as [dflt _].
  destruct (popTop_total dflt cmp d H) as (d' & E & HP). exists (nth 0 d dflt), d'. cbn [hstep].
  rewrite (top_total dflt d H), E. auto.
Qed.

Lemma hstep_popBottom d : d <> [] -> exists x d', hstep cmp d HPopBottom = Ret (d', EvPopBottom x) /\
  bottom cmp d = Ret x /\ popBottom cmp d = Ret d' /\ Permutation d (x :: d').
Proof.
  intros H. assert (Hx : exists a : A, True) by (destruct d as [|a t]; [congruence|now exists a]). destruct Hx as [dflt _].
  destruct (popBottom_total dflt cmp d H) as (x & d' & E1 & E & HP). exists x, d'. cbn [hstep].
  rewrite E1, E. auto.
Qed.

Lemma hrun_multiset h : forall d d' es, hrun cmp d h = Ret (d', es) ->
  Permutation (pushed es ++ d) (popped es ++ d') /\ Forall2 ev_of h es.
Proof.
  induction h as [|o h IH]; intros d d' es H; cbn [hrun] in H.
  - injection H as <- <-. simpl. auto.
  - destruct o as [x| |].
    + destruct (hstep_push d x) as (d1 & E & _ & HP). rewrite E in H. cbn [obind] in H.
      destruct (hrun cmp d1 h) as [[d2 es2]| | |] eqn:Er; try discriminate. cbn [obind] in H. injection H as <- <-.
      destruct (IH _ _ _ Er) as [IH1 IH2]. split; [|constructor; simpl; auto]. simpl.
      eapply Permutation_trans; [|exact IH1]. eapply Permutation_trans; [apply Permutation_middle|].
      now apply Permutation_app_head.
    + destruct d as [|a t] eqn:Ed; [discriminate|]. rewrite <- Ed in *.
      destruct (hstep_popTop d) as (x & d1 & E & _ & _ & HP); [subst; congruence|]. rewrite E in H. cbn [obind] in H.
      destruct (hrun cmp d1 h) as [[d2 es2]| | |] eqn:Er; try discriminate. cbn [obind] in H. injection H as <- <-.
      destruct (IH _ _ _ Er) as [IH1 IH2]. split; [|constructor; simpl; auto]. simpl.
      eapply Permutation_trans; [apply Permutation_app_head; exact HP|].
      eapply Permutation_trans; [symmetry; apply Permutation_middle|]. now apply perm_skip.
    + destruct d as [|a t] eqn:Ed; [discriminate|]. rewrite <- Ed in *.
      destruct (hstep_popBottom d) as (x & d1 & E & _ & _ & HP); [subst; congruence|]. rewrite E in H. cbn [obind] in H.
      destruct (hrun cmp d1 h) as [[d2 es2]| | |] eqn:Er; try discriminate. cbn [obind] in H. injection H as <- <-.
      destruct (IH _ _ _ Er) as [IH1 IH2]. split; [|constructor; simpl; auto]. simpl.
      eapply Permutation_trans; [apply Permutation_app_head; exact HP|].
      eapply Permutation_trans; [symmetry; apply Permutation_middle|]. now apply perm_skip.
Qed.

Lemma multiset_lemma : 
  (forall h d es, hrun cmp [] h = Ret (d, es) -> Permutation (pushed es) (popped es ++ d) /\ Forall2 ev_of h es) /\
  (forall d x d', push cmp d x = Ret d' -> Permutation (x :: d) d') /\
  (forall d d', popTop cmp d = Ret d' -> exists x, top d = Ret x /\ Permutation d (x :: d')) /\
  (forall d d', popBottom cmp d = Ret d' -> exists x, bottom cmp d = Ret x /\ Permutation d (x :: d')).
Proof.
  split; [|split; [|split]].
  - intros h d es H. destruct (hrun_multiset _ _ _ _ H) as [H1 H2]. rewrite app_nil_r in H1. auto.
  - intros d x d' H. destruct (push_total x cmp d x) as (e & E & HP). congruence.
  - intros d d' H. destruct d as [|a t] eqn:Ed; [discriminate|]. rewrite <- Ed in *.
    destruct (hstep_popTop d) as (x & d1 & _ & E1 & E2 & HP); [subst; congruence|].
    exists x. split; [auto|]. congruence.
  - intros d d' H. destruct d as [|a t] eqn:Ed; [discriminate|]. rewrite <- Ed in *.
    destruct (hstep_popBottom d) as (x & d1 & _ & E1 & E2 & HP); [subst; congruence|].
    exists x. split; [auto|]. congruence.
Qed.

Lemma pops_ok_run h : forall d, (pops_ok (length d) h = true -> exists r, hrun cmp d h = Ret r) /\
                                (pops_ok (length d) h = false -> hrun cmp d h = Exit).
Proof.
  induction h as [|o h IH]; intros d.
  - split; [intros _; cbn [hrun]; eauto|discriminate].
  - destruct o as [x| |].
    + cbn [pops_ok hrun]. destruct (hstep_push d x) as (d1 & -> & _ & HP). cbn [obind].
      apply Permutation_length in HP. simpl in HP. rewrite HP.
      destruct (IH d1) as [H1 H2]. split; intros H.
      * destruct (H1 H) as [[d2 es] ->]. cbn [obind]. eauto.
      * now rewrite (H2 H).
    + destruct d as [|a t]; [split; [discriminate|reflexivity]|].
      destruct (hstep_popTop (a :: t)) as (x & d1 & E & _ & _ & HP); [congruence|].
      cbn [pops_ok hrun length]. rewrite E. cbn [obind].
      apply Permutation_length in HP. simpl in HP. injection HP as HP. rewrite HP.
      destruct (IH d1) as [H1 H2]. split; intros H.
      * destruct (H1 H) as [[d2 es] ->]. cbn [obind]. eauto.
      * now rewrite (H2 H).
    + destruct d as [|a t]; [split; [discriminate|reflexivity]|].
      destruct (hstep_popBottom (a :: t)) as (x & d1 & E & _ & _ & HP); [congruence|].
      cbn [pops_ok hrun length]. rewrite E. cbn [obind].
      apply Permutation_length in HP. simpl in HP. injection HP as HP. rewrite HP.
      destruct (IH d1) as [H1 H2]. split; intros H.
      * destruct (H1 H) as [[d2 es] ->]. cbn [obind]. eauto.
      * now rewrite (H2 H).
Qed.

Lemma next_total (d : list A) : d <> [] -> exists x y, nextTop cmp d = Ret x /\ nextBottom cmp d = Ret y /\ In x d /\ In y d.
Proof.
  intros H. assert (Hx : exists a : A, True) by (destruct d as [|a t]; [congruence|now exists a]). destruct Hx as [dflt _].
  unfold nextTop, nextBottom. destruct d as [|a [|b t]] eqn:Ed; [congruence| |].
  - exists a, a. simpl. auto.
  - rewrite <- Ed in *. assert (Hl : 2 <= length d) by (subst; simpl; lia).
    destruct (childMin_spec dflt cmp d 0) as (c & -> & _ & _ & Hc & _). specialize (Hc ltac:(lia)).
    destruct (grandchildMin_spec dflt cmp d 0) as (g & -> & _ & _ & Hg & _). cbn [obind].
    rewrite (vread_ok dflt d c) by auto. rewrite (vread_ok dflt d 0) by lia.
    destruct (Nat.ltb_spec (length d) 4) as [H4|H4].
    + exists (nth c d dflt), (if length d <? 3 then nth 0 d dflt else nth c d dflt). split; [auto|].
      split; [destruct (length d <? 3); auto|]. split; [apply nth_In; auto|].
      destruct (length d <? 3); apply nth_In; lia.
    + rewrite (vread_ok dflt d g) by lia. destruct (Nat.ltb_spec (length d) 3); [lia|].
      exists (nth g d dflt), (nth c d dflt). split; [auto|]. split; [auto|]. split; apply nth_In; lia.
Qed.

Lemma memory_lemma : 
  (forall h, (pops_ok 0 h = true -> exists r, hrun cmp [] h = Ret r) /\ (pops_ok 0 h = false -> hrun cmp [] h = Exit)) /\
  (forall d x, exists d', push cmp d x = Ret d') /\
  (forall d, d <> [] -> exists d1 d2 t b nt nb, popTop cmp d = Ret d1 /\ popBottom cmp d = Ret d2 /\
     top d = Ret t /\ bottom cmp d = Ret b /\ nextTop cmp d = Ret nt /\ nextBottom cmp d = Ret nb /\
     In t d /\ In b d /\ In nt d /\ In nb d) /\
  popTop cmp [] = Exit /\ popBottom cmp [] = Exit /\ @top A [] = Exit /\ bottom cmp [] = Exit /\
  nextTop cmp [] = Exit /\ nextBottom cmp [] = Exit.
Proof.
  split; [intros h; apply (pops_ok_run h [])|]. split.
  - intros d x. destruct (push_total x cmp d x) as (e & E & HP). eauto.
  - split; [|repeat split].
    intros d H. destruct (hstep_popTop d H) as (x & d1 & _ & E1 & E2 & HP1).
    destruct (hstep_popBottom d H) as (y & d2 & _ & E3 & E4 & HP2).
    destruct (next_total d H) as (nt & nb & E5 & E6 & I1 & I2).
    exists d1, d2, x, y, nt, nb. repeat (split; [assumption|]).
    split; [|split; [|auto]].
    + eapply Permutation_in; [symmetry; exact HP1|now left].
    + eapply Permutation_in; [symmetry; exact HP2|now left].
Qed.

Hypothesis SW : StrictWeak cmp.

Definition hok (d : list A) : Prop := forall dflt, hmm dflt cmp d.

Lemma hok_nil : hok [].
Proof. intros dflt a b _ Hb. simpl in Hb. lia. Qed.

Lemma few_copies_mono k k' h : k <= k' -> forall d, few_copies cmp k d h -> few_copies cmp k' d h.
Proof.
  intros Hk. induction h as [|o h IH]; intros d H; cbn [few_copies] in *; auto.
  destruct H as [H1 H2]. split.
  - destruct o; auto. intros v. specialize (H1 v). lia.
  - destruct (hstep cmp d o) as [[d' e]| | |]; auto.
Qed.

Lemma no_popTop_few k h : forall d, no_popTop h = true -> few_copies cmp k d h.
Proof.
  induction h as [|o h IH]; intros d H; cbn [few_copies]; auto.
  destruct o; try discriminate; (split; [exact I|]); destruct (hstep cmp d _) as [[d' e]| | |]; auto.
Qed.

Lemma few_tame h : forall d, few_copies cmp 2 d h -> tame_pops cmp d h.
Proof.
  induction h as [|o h IH]; intros d H; cbn [few_copies tame_pops] in *; auto.
  destruct H as [H1 H2]. split.
  - destruct o; auto.
  - destruct (hstep cmp d o) as [[d' e]| | |]; auto.
Qed.

Lemma hrun_hok_tame h : forall d d' es, hok d -> tame_pops cmp d h -> hrun cmp d h = Ret (d', es) -> hok d'.
Proof.
  induction h as [|o h IH]; intros d d' es HM Hf H; cbn [hrun] in H.
  - injection H as <- <-. auto.
  - cbn [tame_pops] in Hf. destruct Hf as [Hf1 Hf2].
    destruct (hstep cmp d o) as [[d1 e]| | |] eqn:E; try discriminate. cbn [obind] in H.
    destruct (hrun cmp d1 h) as [[d2 es2]| | |] eqn:Er; try discriminate. cbn [obind] in H. injection H as <- <-.
    apply (IH d1 d2 es2); auto. clear IH Er Hf2. intros dflt. destruct o as [x| |].
    + destruct (hstep_push d x) as (d1' & E' & Ep & _). assert (d1' = d1) by congruence. subst.
      destruct (push_hmm dflt cmp SW d x (HM dflt)) as (d'' & E'' & HM'). replace d1 with d'' by congruence. exact HM'.
    + destruct d as [|a t] eqn:Ed; [discriminate|]. rewrite <- Ed in *. assert (d <> []) by (subst; congruence).
      destruct (hstep_popTop d) as (x & d1' & E' & _ & Ep & _); auto. assert (d1' = d1) by congruence. subst d1'.
      destruct (popTop_hmm dflt cmp SW d (HM dflt)) as (d'' & E'' & HM'); auto. replace d1 with d'' by congruence. exact HM'.
    + destruct d as [|a t] eqn:Ed; [discriminate|]. rewrite <- Ed in *. assert (d <> []) by (subst; congruence).
      destruct (hstep_popBottom d) as (x & d1' & E' & _ & Ep & _); auto. assert (d1' = d1) by congruence. subst d1'.
      destruct (popBottom_hmm dflt cmp SW d (HM dflt)) as (d'' & E'' & HM'); auto. replace d1 with d'' by congruence. exact HM'.
Qed.

Lemma hrun_hok h d d' es : hok d -> few_copies cmp 2 d h -> hrun cmp d h = Ret (d', es) -> hok d'.
Proof. intros H Hf. apply hrun_hok_tame; auto using few_tame. Qed.

Lemma hok_extremes d : hok d -> d <> [] ->
  (exists x, top d = Ret x /\ is_min cmp d x) /\ (exists y, bottom cmp d = Ret y /\ is_max cmp d y).
Proof.
  intros HM H. assert (Hx : exists a : A, True) by (destruct d as [|a t]; [congruence|now exists a]). destruct Hx as [dflt _].
  split; [apply (top_min dflt cmp SW d (HM dflt) H)|apply (bottom_max dflt cmp SW d (HM dflt) H)].
Qed.

Lemma extremes2_lemma h d es : few_copies cmp 2 [] h -> hrun cmp [] h = Ret (d, es) -> d <> [] ->
  (exists x, top d = Ret x /\ is_min cmp d x) /\ (exists y, bottom cmp d = Ret y /\ is_max cmp d y).
Proof. intros Hf H Hne. apply hok_extremes; auto. apply (hrun_hok h [] d es); auto using hok_nil. Qed.

Lemma extremes_tame_lemma h d es : tame_pops cmp [] h -> hrun cmp [] h = Ret (d, es) -> d <> [] ->
  (exists x, top d = Ret x /\ is_min cmp d x) /\ (exists y, bottom cmp d = Ret y /\ is_max cmp d y).
Proof. intros Hf H Hne. apply hok_extremes; auto. apply (hrun_hok_tame h [] d es); auto using hok_nil. Qed.

Lemma extremes1_lemma h d es : few_copies cmp 1 [] h -> hrun cmp [] h = Ret (d, es) -> d <> [] ->
  (exists x, top d = Ret x /\ is_min cmp d x) /\ (exists y, bottom cmp d = Ret y /\ is_max cmp d y).
Proof. intros Hf. apply extremes2_lemma. apply (few_copies_mono 1 2); auto. Qed.

Lemma extremes_push_lemma h d es : no_popTop h = true -> hrun cmp [] h = Ret (d, es) -> d <> [] ->
  (exists x, top d = Ret x /\ is_min cmp d x) /\ (exists y, bottom cmp d = Ret y /\ is_max cmp d y).
Proof. intros Hf. apply extremes2_lemma. now apply no_popTop_few. Qed.

(** ** nextTop / nextBottom *)
Lemma list_tl (d : list A) : d <> [] -> forall dflt, d = nth 0 d dflt :: tl d.
Proof. destruct d; [congruence|reflexivity]. Qed.

Lemma nth_tl (d : list A) dflt k : nth k (tl d) dflt = nth (S k) d dflt.
Proof. destruct d; simpl; auto. destruct k; auto. Qed.

Lemma second_min_intro d dflt k : hmm dflt cmp d -> 0 < k < length d ->
  (forall j, 0 < j < length d -> leo cmp (nth k d dflt) (nth j d dflt)) -> is_second_min cmp d (nth k d dflt).
Proof.
  intros HM Hk Hle. exists (nth 0 d dflt), (tl d).
  assert (Hne : d <> []) by (destruct d; simpl in *; [lia|congruence]).
  assert (Hlt : length (tl d) = length d - 1) by (destruct d; simpl; lia).
  split; [|split].
  - rewrite <- list_tl; auto.
  - split; [apply nth_In; lia|]. intros w Hw. destruct (In_nth _ _ dflt Hw) as (j & Hj & <-).
    apply (hmm_root dflt cmp SW d HM j Hj).
  - split.
    + replace k with (S (k - 1)) by lia. rewrite <- nth_tl. apply nth_In. lia.
    + intros w Hw. destruct (In_nth _ _ dflt Hw) as (j & Hj & <-). rewrite nth_tl. apply Hle. lia.
Qed.

Lemma nextTop_hok d : hok d -> (2 <= length d <= 3 \/ 6 <= length d) ->
  exists v, nextTop cmp d = Ret v /\ is_second_min cmp d v.
Proof.
  intros HM Hl. assert (Hx : exists a : A, True) by (destruct d as [|a t]; [simpl in Hl; lia|now exists a]). destruct Hx as [dflt _].
  specialize (HM dflt). unfold nextTop. destruct d as [|a [|b t]] eqn:Ed; [simpl in Hl; lia|simpl in Hl; lia|].
  rewrite <- Ed in *.
  destruct (childMin_spec dflt cmp d 0) as (c & -> & Hc0 & Hcp & Hcl & Hco). specialize (Hcl ltac:(lia)). specialize (Hco SW).
  destruct (grandchildMin_spec dflt cmp d 0) as (g & -> & Hg2 & Hgp & Hgl & Hgo). specialize (Hgo SW). cbn [obind].
  destruct (Nat.ltb_spec (length d) 4) as [H4|H4].
  - rewrite (vread_ok dflt) by auto. eexists. split; [reflexivity|]. apply second_min_intro; auto.
    intros j Hj. apply Hco; try lia. unfold hparent. lia.
  - assert (H6 : 6 <= length d) by lia. rewrite (vread_ok dflt) by lia. eexists. split; [reflexivity|].
    apply second_min_intro; auto; [lia|]. intros j Hj.
    (* every child of the root has a grandchild below it *)
    assert (Hch : forall c', 0 < c' -> hparent c' = 0 -> c' < length d -> leo cmp (nth g d dflt) (nth c' d dflt)).
    { intros c' H1 H2 H3. assert (Ha : anc c' (2 * c' + 1)).
      { replace c' with (hparent (2 * c' + 1)) at 1 by (unfold hparent; lia). apply anc1. lia. }
      assert (Hlt : 2 * c' + 1 < length d) by (unfold hparent in H2; lia).
      pose proof (HM _ _ Ha Hlt) as H5. rewrite pr_false in H5 by (rewrite ev_S, H2; auto).
      eapply (leo_trans cmp SW); [|exact H5]. apply Hgo; auto; [lia|]. unfold grandparent, hparent in *. lia. }
    apply (least_desc (leo cmp) (leo_refl cmp SW) (leo_trans cmp SW) ev ev_S (fun k => nth k d dflt) (length d) 0); auto; try lia.
    + split; [reflexivity|]. intros a0 b0 H7 H8 _. now apply HM.
    + apply anc_0. lia.
Qed.

Lemma nextBottom_hok d : hok d -> 2 <= length d <= 3 ->
  exists v, nextBottom cmp d = Ret v /\ is_second_max cmp d v.
Proof.
  intros HM Hl. destruct d as [|a [|b [|c [|]]]]; simpl in Hl; try lia.
  - specialize (HM a). exists a. split; [reflexivity|].
    assert (Hab : cmp b a = false) by (apply (hmm_root a cmp SW [a; b] HM 1); simpl; lia).
    exists b, [a]. split; [apply perm_swap|]. split.
    + split; [simpl; auto|]. intros w [<-|[<-|[]]]; auto. apply (sw_irrefl _ SW).
    + split; [simpl; auto|]. intros w [<-|[]]. apply (sw_irrefl _ SW).
  - specialize (HM a).
    assert (Hab : cmp b a = false) by (apply (hmm_root a cmp SW [a; b; c] HM 1); simpl; lia).
    assert (Hac : cmp c a = false) by (apply (hmm_root a cmp SW [a; b; c] HM 2); simpl; lia).
    assert (Hirr := sw_irrefl _ SW).
    unfold nextBottom, childMin. cbn. destruct (cmp c b) eqn:E.
    + exists c. split; [reflexivity|]. exists b, [a; c]. split; [apply perm_swap|]. split.
      * split; [simpl; auto|]. intros w [<-|[<-|[<-|[]]]]; auto. apply (sw_asym _ SW); auto.
      * split; [simpl; auto|]. intros w [<-|[<-|[]]]; auto.
    + exists b. split; [reflexivity|]. exists c, [a; b]. split.
      { change [a; b; c] with ([a; b] ++ [c]). symmetry. apply (Permutation_cons_append [a; b] c). }
      split.
      * split; [simpl; auto|]. intros w [<-|[<-|[<-|[]]]]; auto.
      * split; [simpl; auto|]. intros w [<-|[<-|[]]]; auto.
Qed.

Lemma next_lemma h d es : few_copies cmp 2 [] h -> hrun cmp [] h = Ret (d, es) ->
  ((2 <= length d <= 3 \/ 6 <= length d) -> exists v, nextTop cmp d = Ret v /\ is_second_min cmp d v) /\
  (2 <= length d <= 3 -> exists v, nextBottom cmp d = Ret v /\ is_second_max cmp d v).
Proof.
  intros Hf H. assert (HM : hok d) by (apply (hrun_hok h [] d es); auto using hok_nil).
  split; [now apply nextTop_hok|now apply nextBottom_hok].
Qed.
End Run.
