From Coq Require Import List ZArith Bool Lia Sorted.
From Verif Require Import Base LabelSetModel LabelSetSpec.
Import ListNotations.
Open Scope Z_scope.

Notation SSorted := (StronglySorted Z.lt).

Lemma inside_In s x : inside s x = true <-> In x s.
Proof.
  unfold inside. rewrite existsb_exists. split.
  - intros (y & H & E). apply Z.eqb_eq in E. now subst.
  - intros H. exists x. split; auto. apply Z.eqb_refl.
Qed.

Lemma set_insert_In s x y : In y (set_insert x s) <-> In y s \/ y = x.
Proof.
  induction s as [|z s IH]; simpl; [intuition|].
  destruct (Z.ltb_spec x z); simpl; [intuition|].
  destruct (Z.eqb_spec x z); simpl; [subst; intuition|]. rewrite IH. intuition.
Qed.

Lemma set_insert_sorted s x : SSorted s -> SSorted (set_insert x s).
Proof.
  induction 1 as [|z s Hs IH Hf]; simpl; [repeat constructor|].
  destruct (Z.ltb_spec x z).
  - constructor; [constructor; auto|]. constructor; auto.
    eapply Forall_impl; [|exact Hf]. simpl; intros; lia.
  - destruct (Z.eqb_spec x z); [constructor; auto|]. constructor; auto.
    apply Forall_forall. intros y Hy. apply set_insert_In in Hy as [Hy| ->]; [|lia].
    rewrite Forall_forall in Hf. auto.
Qed.

Lemma insert_all_In l : forall s y, In y (fold_left (fun s x => set_insert x s) l s) <-> In y s \/ In y l.
Proof.
  induction l as [|x l IH]; intros s y; simpl; [tauto|]. rewrite IH, set_insert_In. intuition.
Qed.

Lemma insert_all_sorted l : forall s, SSorted s -> SSorted (fold_left (fun s x => set_insert x s) l s).
Proof. induction l as [|x l IH]; intros s H; simpl; auto. apply IH. now apply set_insert_sorted. Qed.

Lemma erase_In s x y : SSorted s -> (In y (set_erase x s) <-> In y s /\ y <> x).
Proof.
  induction 1 as [|z s Hs IH Hf]; simpl; [tauto|]. rewrite Forall_forall in Hf.
  destruct (Z.eqb_spec x z).
  - subst. split; [intros H; split; [auto|]; apply Hf in H; lia|]. intros [[E|E] N]; [congruence|auto].
  - simpl. rewrite IH. split; [|tauto]. intros [E|E]; [subst; auto|tauto].
Qed.

Lemma erase_incl s x y : In y (set_erase x s) -> In y s.
Proof. induction s as [|z s IH]; simpl; auto. destruct (x =? z); simpl; intuition. Qed.

Lemma erase_sorted s x : SSorted s -> SSorted (set_erase x s).
Proof.
  induction 1 as [|z s Hs IH Hf]; simpl; [constructor|]. destruct (x =? z); auto.
  constructor; auto. rewrite Forall_forall in *. intros y Hy. apply erase_incl in Hy. auto.
Qed.

Lemma union_In l1 : forall l2 x, In x (std_set_union l1 l2) <-> In x l1 \/ In x l2.
Proof.
  induction l1 as [|a t1 IH1]; intros l2 x.
  - destruct l2; simpl; tauto.
  - induction l2 as [|b t2 IH2]; [simpl; tauto|].
    cbn [std_set_union]. destruct (Z.ltb_spec b a).
    + cbn [In]. change ((fix aux (l2 : lset) : lset := match l2 with | [] => a :: t1 | b :: t2 => if b <? a then b :: aux t2 else if a <? b then a :: std_set_union t1 l2 else a :: std_set_union t1 t2 end) t2) with (std_set_union (a :: t1) t2).
      rewrite IH2. cbn [In]. tauto.
    + destruct (Z.ltb_spec a b); cbn [In]; rewrite IH1; cbn [In]; [tauto|].
      assert (a = b) by lia. subst. tauto.
Qed.

Lemma inter_In l1 : forall l2 x, SSorted l1 -> SSorted l2 ->
  (In x (std_set_intersection l1 l2) <-> In x l1 /\ In x l2).
Proof.
  induction l1 as [|a t1 IH1]; intros l2 x H1 H2.
  - destruct l2; simpl; tauto.
  - inversion H1 as [|? ? Hs1 Hf1]; subst. rewrite Forall_forall in Hf1.
    induction l2 as [|b t2 IH2]; [simpl; tauto|].
    inversion H2 as [|? ? Hs2 Hf2]; subst. rewrite Forall_forall in Hf2.
    cbn [std_set_intersection]. destruct (Z.ltb_spec a b).
    + rewrite IH1 by auto. cbn [In]. split; [tauto|]. intros [[->|Hx] [->|Hx']]; auto; try lia.
      apply Hf2 in Hx'. lia.
    + destruct (Z.ltb_spec b a).
      * specialize (IH2 Hs2). cbn [std_set_intersection] in IH2. rewrite IH2. cbn [In].
        split; [tauto|]. intros [[->|Hx] [->|Hx']]; auto; try lia. apply Hf1 in Hx. lia.
      * assert (a = b) by lia. subst. cbn [In]. rewrite IH1 by auto.
        split; [tauto|]. intros [[->|Hx] [Hx''|Hx']]; auto.
Qed.

Lemma diff_In l1 : forall l2 x, SSorted l1 -> SSorted l2 ->
  (In x (std_set_difference l1 l2) <-> In x l1 /\ ~ In x l2).
Proof.
  induction l1 as [|a t1 IH1]; intros l2 x H1 H2.
  - destruct l2; simpl; tauto.
  - inversion H1 as [|? ? Hs1 Hf1]; subst. rewrite Forall_forall in Hf1.
    induction l2 as [|b t2 IH2]; [simpl; tauto|].
    inversion H2 as [|? ? Hs2 Hf2]; subst. rewrite Forall_forall in Hf2.
    cbn [std_set_difference]. destruct (Z.ltb_spec a b).
    + cbn [In]. rewrite IH1 by auto. cbn [In]. split; [|tauto].
      intros [->|Hx]; [|tauto]. split; [auto|]. intros [->|Hx']; [lia|]. apply Hf2 in Hx'. lia.
    + destruct (Z.ltb_spec b a).
      * specialize (IH2 Hs2). cbn [std_set_difference] in IH2. rewrite IH2. cbn [In]. split; [|tauto].
        intros [Hx Hn]. split; [auto|]. intros [->|Hx']; [|auto].
        destruct Hx as [->|Hx]; [lia|]. apply Hf1 in Hx. lia.
      * assert (a = b) by lia. subst. rewrite IH1 by auto. cbn [In]. split.
        -- intros [Hx Hn]. split; [auto|]. intros [->|Hx']; [|auto]. apply Hf1 in Hx. lia.
        -- intros [[->|Hx] Hn]; [tauto|]. tauto.
Qed.

Lemma eval_spec e : SSorted (eval e) /\ forall x, In x (eval e) <-> denote e x.
Proof.
  induction e as [|l|e [IHs IH] y|e [IHs IH] y|e [IHs IH] y|a [IHs IH] b [IHs' IH']|a [IHs IH] b [IHs' IH']|e [IHs IH] y|a [IHs IH] b [IHs' IH']];
    simpl.
  - split; [constructor|]. simpl. tauto.
  - unfold ls_range. split; [apply insert_all_sorted; constructor|].
    intros x. rewrite insert_all_In. simpl. tauto.
  - destruct (inside (eval e) y) eqn:E; simpl.
    + split; auto. intros x. rewrite IH. apply inside_In, IH in E. split; [auto|]. intros [H| ->]; auto.
    + split; [now apply set_insert_sorted|]. intros x. rewrite set_insert_In, IH. tauto.
  - split; [now apply erase_sorted|]. intros x. unfold ls_remove. rewrite erase_In, IH by auto. tauto.
  - unfold unionLabel, ls_insert. simpl. destruct (inside (eval e) y) eqn:E; simpl.
    + split; auto. intros x. rewrite IH. apply inside_In, IH in E. split; [auto|]. intros [H| ->]; auto.
    + split; [now apply set_insert_sorted|]. intros x. rewrite set_insert_In, IH. tauto.
  - unfold unionSet. split; [now apply insert_all_sorted|]. intros x. rewrite insert_all_In, union_In, IH, IH'. tauto.
  - unfold intersectionSet, ls_range. split; [apply insert_all_sorted; constructor|].
    intros x. rewrite insert_all_In, inter_In, IH, IH' by auto. simpl. tauto.
  - split; [now apply erase_sorted|]. intros x. unfold differenceLabel. rewrite erase_In, IH by auto. tauto.
  - unfold differenceSet, ls_range. split; [apply insert_all_sorted; constructor|].
    intros x. rewrite insert_all_In, diff_In, IH, IH' by auto. simpl. tauto.
Qed.

Lemma sorted_NoDup s : SSorted s -> NoDup s.
Proof.
  induction 1 as [|z s Hs IH Hf]; constructor; auto. intros H. rewrite Forall_forall in Hf. apply Hf in H. lia.
Qed.

Lemma sorted_ext s t : SSorted s -> SSorted t -> (forall x, In x s <-> In x t) -> s = t.
Proof.
  intros Hs. revert t. induction Hs as [|a s Hs IH Hf]; intros t Ht H.
  - destruct t as [|b t]; auto. exfalso. apply (H b). now left.
  - destruct Ht as [|b t Ht Hg].
    + exfalso. apply (H a). now left.
    + rewrite Forall_forall in *.
      assert (a = b).
      { destruct (proj1 (H a) (or_introl eq_refl)) as [E|Ha]; [congruence|].
        destruct (proj2 (H b) (or_introl eq_refl)) as [E|Hb]; [congruence|].
        apply Hg in Ha. apply Hf in Hb. lia. }
      subst b. f_equal. apply IH; auto. intros x. split; intros Hx.
      * destruct (proj1 (H x) (or_intror Hx)) as [E|]; auto. subst. apply Hf in Hx. lia.
      * destruct (proj2 (H x) (or_intror Hx)) as [E|]; auto. subst. apply Hg in Hx. lia.
Qed.

Lemma set_algebra_lemma e : StronglySorted Z.lt (eval e) /\
  (forall x, In x (eval e) <-> denote e x) /\
  (forall x, inside (eval e) x = true <-> denote e x) /\
  (forall x, snd (ls_insert (eval e) x) = true <-> denote e x) /\
  (ls_is_empty (eval e) = true <-> forall x, ~ denote e x) /\
  (exists l, NoDup l /\ (forall x, In x l <-> denote e x) /\ ls_size (eval e) = length l).
Proof.
  destruct (eval_spec e) as [Hs HI]. split; auto. split; auto. split; [|split; [|split]].
  - intros x. rewrite inside_In. apply HI.
  - intros x. simpl. rewrite inside_In. apply HI.
  - destruct (eval e) as [|a l] eqn:E; simpl.
    + split; [|auto]. intros _ x Hx. apply HI in Hx. exact Hx.
    + split; [discriminate|]. intros H. exfalso. apply (H a). apply HI. now left.
  - exists (eval e). split; [now apply sorted_NoDup|]. auto.
Qed.

(** Equality operator: exact behaviour. *)
Lemma std_equal_true l1 : forall l2, std_equal l1 l2 = Ret true <-> exists t, l2 = l1 ++ t.
Proof.
  induction l1 as [|a t1 IH]; intros l2; simpl.
  - split; eauto.
  - destruct l2 as [|b t2].
    + split; [discriminate|]. intros [t H]. discriminate.
    + destruct (Z.eqb_spec a b).
      * subst. rewrite IH. split; intros [t H]; exists t; [now rewrite H|]. inversion H; auto.
      * split; [discriminate|]. intros [t H]. inversion H; congruence.
Qed.

Lemma std_equal_UB l1 : forall l2, std_equal l1 l2 = UB <-> exists a t, l1 = l2 ++ a :: t.
Proof.
  induction l1 as [|a t1 IH]; intros l2; simpl.
  - split; [discriminate|]. intros (a & t & H). destruct l2; discriminate.
  - destruct l2 as [|b t2].
    + split; [intros _; exists a, t1; reflexivity|reflexivity].
    + destruct (Z.eqb_spec a b).
      * subst. rewrite IH. split; intros (c & t & H); exists c, t; [now rewrite H|]. inversion H; auto.
      * split; [discriminate|]. intros (c & t & H). inversion H; congruence.
Qed.

Lemma std_equal_len l1 : forall l2, (length l1 <= length l2)%nat -> exists b, std_equal l1 l2 = Ret b.
Proof.
  induction l1 as [|a t1 IH]; intros [|b t2] H; simpl in *; eauto; [lia|].
  destruct (a =? b); eauto. apply IH. lia.
Qed.

Lemma ls_eq_same_size_lemma e1 e2 : ls_size (eval e1) = ls_size (eval e2) ->
  exists b, ls_eq (eval e1) (eval e2) = Ret b /\ ls_neq (eval e1) (eval e2) = Ret (negb b) /\
    (b = true <-> forall x, denote e1 x <-> denote e2 x).
Proof.
  intros Hl. destruct (eval_spec e1) as [Hs1 H1], (eval_spec e2) as [Hs2 H2].
  unfold ls_size in Hl. destruct (std_equal_len (eval e1) (eval e2)) as [b Hb]; [lia|].
  exists b. unfold ls_eq, ls_neq. rewrite Hb. split; [reflexivity|]. split; [reflexivity|]. split.
  - intros ->. apply std_equal_true in Hb as [t Ht]. assert (t = []).
    { rewrite Ht, app_length in Hl. destruct t; auto. simpl in Hl. lia. }
    subst t. rewrite app_nil_r in Ht. intros x. rewrite <- H1, <- H2, Ht. tauto.
  - intros H. assert (E : eval e1 = eval e2).
    { apply sorted_ext; auto. intros x. rewrite H1, H2. apply H. }
    rewrite E in Hb. destruct b; auto. 
    assert (std_equal (eval e2) (eval e2) = Ret true) by (apply std_equal_true; exists []; now rewrite app_nil_r).
    congruence.
Qed.

(** What == really decides. *)
Lemma ls_eq_exact_lemma e1 e2 :
  (ls_eq (eval e1) (eval e2) = Ret true <-> exists t, eval e2 = eval e1 ++ t) /\
  (ls_eq (eval e1) (eval e2) = UB <-> exists a t, eval e1 = eval e2 ++ a :: t).
Proof. split; [apply std_equal_true|apply std_equal_UB]. Qed.

Lemma ls_eq_refuted_lemma : exists e1 e2 x,
  ls_eq (eval e1) (eval e2) = Ret true /\ denote e2 x /\ ~ denote e1 x /\
  ls_eq (eval e2) (eval e1) = UB.
Proof.
  exists (ERange [3]), (ERange [3; 8]), 8. repeat split; simpl; auto; try lia.
Qed.
