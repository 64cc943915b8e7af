(** Concrete histories used as witnesses and examples. *)
From Coq Require Import List ZArith Arith Lia Bool Permutation.
From Verif Require Import Base MinMaxHeapModel MinMaxHeapSpec.
Import ListNotations.

Lemma Zltb_StrictWeak : StrictWeak Z.ltb.
Proof. constructor; intros; rewrite ?Z.ltb_lt, ?Z.ltb_ge in *; lia. Qed.

(** Deciding [few_copies] on integers. *)
Definition few_copiesb_at (k : nat) (d : list Z) : bool := forallb (fun v => copies Z.ltb v d <=? k) d.

Lemma copies_Z v d : copies Z.ltb v d = count_occ Z.eq_dec d v.
Proof.
  unfold copies. induction d as [|x d IH]; simpl; auto.
  destruct (Z.eq_dec x v) as [->|H].
  - rewrite Z.ltb_irrefl. simpl. auto.
  - destruct (Z.ltb_spec v x), (Z.ltb_spec x v); simpl; auto; lia.
Qed.

Lemma few_copiesb_ok k d : few_copiesb_at k d = true -> forall v, copies Z.ltb v d <= k.
Proof.
  unfold few_copiesb_at. rewrite forallb_forall. intros H v. destruct (in_dec Z.eq_dec v d) as [Hi|Hn].
  - apply Nat.leb_le. auto.
  - rewrite copies_Z. apply (count_occ_not_In Z.eq_dec) in Hn. lia.
Qed.

Fixpoint few_copiesb (k : nat) (d : list Z) (h : list (hop Z)) : bool :=
  match h with
  | [] => true
  | o :: t =>
    (match o with HPopTop => few_copiesb_at k d | _ => true end) &&
    match hstep Z.ltb d o with
    | Ret (d', _) => few_copiesb k d' t
    | _ => true
    end
  end.

Lemma few_copiesb_spec k h : forall d, few_copiesb k d h = true -> few_copies Z.ltb k d h.
Proof.
  induction h as [|o h IH]; intros d H; cbn [few_copiesb few_copies] in *; auto.
  apply andb_true_iff in H as [H1 H2]. split.
  - destruct o; auto. now apply few_copiesb_ok.
  - destruct (hstep Z.ltb d o) as [[d' e]| | |]; auto.
Qed.

Lemma C12_case_lemma : let h := ([HPush 9; HPush 3; HPush 7; HPush 1; HPush 8; HPush 2; HPopTop; HPush 5; HPopBottom; HPopTop])%Z in
  few_copies Z.ltb 1 [] h /\ exists es, hrun Z.ltb [] h = Ret ([3; 8; 7; 5], es)%Z.
Proof. cbv zeta. split; [apply few_copiesb_spec; vm_compute; reflexivity|eexists; vm_compute; reflexivity]. Qed.

Lemma C13_case_lemma : let h := ([HPush 3; HPush 3; HPush 1; HPush 1; HPush 8; HPush 8; HPopTop; HPush 1; HPopBottom; HPopTop])%Z in
  few_copies Z.ltb 2 [] h /\ exists es, hrun Z.ltb [] h = Ret ([1; 3; 8; 3], es)%Z.
Proof. cbv zeta. split; [apply few_copiesb_spec; vm_compute; reflexivity|eexists; vm_compute; reflexivity]. Qed.

Lemma duplicates_refuted_lemma : StrictWeak Z.ltb /\
  (exists h d es y, few_copies Z.ltb 3 [] h /\ hrun Z.ltb [] h = Ret (d, es) /\
     bottom Z.ltb d = Ret y /\ exists w, In w d /\ (y < w)%Z) /\
  (exists h d es x, few_copies Z.ltb 3 [] h /\ hrun Z.ltb [] h = Ret (d, es) /\
     top d = Ret x /\ exists w, In w d /\ (w < x)%Z).
Proof.
  split; [exact Zltb_StrictWeak|]. split.
  - exists (map HPush [1; 3; 6; 3; 3; 5] ++ [HPopTop; HPopBottom])%Z.
    eexists. eexists. eexists. split; [apply few_copiesb_spec; vm_compute; reflexivity|].
    split; [vm_compute; reflexivity|]. split; [vm_compute; reflexivity|]. exists 5%Z. split; [simpl; tauto|lia].
  - exists [HPush 3; HPush 1; HPush 5; HPush 7; HPush 3; HPopBottom; HPush 5; HPush 1; HPush 3; HPopTop; HPopBottom;
            HPush 5; HPopTop; HPush 4; HPush 6; HPush 6; HPush 4; HPush 6; HPush 4; HPopBottom; HPopTop; HPopTop]%Z.
    eexists. eexists. eexists. split; [apply few_copiesb_spec; vm_compute; reflexivity|].
    split; [vm_compute; reflexivity|]. split; [vm_compute; reflexivity|]. exists 3%Z. split; [simpl; tauto|lia].
Qed.

(** Deciding [tame_pops] on integers. *)
Definition tameb_at (d : list Z) : bool := forallb (fun v => (copies Z.ltb v d <=? 2) || forallb (fun x => negb (v <? x)%Z) d) d.

Lemma tameb_ok d : tameb_at d = true -> forall v, copies Z.ltb v d <= 2 \/ (forall x, In x d -> (v <? x)%Z = false).
Proof.
  unfold tameb_at. rewrite forallb_forall. intros H v. destruct (in_dec Z.eq_dec v d) as [Hi|Hn].
  - specialize (H v Hi). apply orb_true_iff in H as [H|H]; [left; now apply Nat.leb_le|right].
    intros x Hx. rewrite forallb_forall in H. now apply negb_true_iff, H.
  - left. rewrite copies_Z. apply (count_occ_not_In Z.eq_dec) in Hn. lia.
Qed.

Fixpoint tameb (d : list Z) (h : list (hop Z)) : bool :=
  match h with
  | [] => true
  | o :: t =>
    (match o with HPopTop => tameb_at d | _ => true end) &&
    match hstep Z.ltb d o with
    | Ret (d', _) => tameb d' t
    | _ => true
    end
  end.

Lemma tameb_spec h : forall d, tameb d h = true -> tame_pops Z.ltb d h.
Proof.
  induction h as [|o h IH]; intros d H; cbn [tameb tame_pops] in *; auto.
  apply andb_true_iff in H as [H1 H2]. split.
  - destruct o; auto. now apply tameb_ok.
  - destruct (hstep Z.ltb d o) as [[d' e]| | |]; auto.
Qed.

Lemma tame_case_lemma : let h := (map HPush [9; 9; 9; 1; 9; 9; 1; 9] ++ [HPopTop; HPush 0; HPopTop; HPopBottom])%Z in
  tame_pops Z.ltb [] h /\ copies Z.ltb 9%Z [1; 9; 9; 9; 9; 9]%Z = 5 /\ exists es, hrun Z.ltb [] h = Ret ([1; 9; 9; 9; 9; 9], es)%Z.
Proof. cbv zeta. split; [apply tameb_spec; vm_compute; reflexivity|]. split; [reflexivity|]. eexists. vm_compute. reflexivity. Qed.

Lemma queue_refuted_lemma : exists h d es x w, no_popBottom h = true /\ hrun Z.ltb [] h = Ret (d, es) /\ top d = Ret x /\ In w d /\ (w < x)%Z.
Proof.
  exists (map HPush [0; 0; 1; 0; 0; 1] ++ [HPopTop; HPush 1; HPush 1; HPopTop; HPush 1; HPush 1; HPush 1; HPopTop])%Z.
  eexists. eexists. eexists. exists 0%Z. split; [reflexivity|]. split; [vm_compute; reflexivity|]. split; [vm_compute; reflexivity|]. split; [simpl; tauto|lia].
Qed.

(** On integers, a second minimum / maximum is unique. *)
Lemma second_min_Z d v m rest : Permutation d (m :: rest) -> is_second_min Z.ltb d v ->
  (forall x, In x rest -> m < x)%Z -> is_min Z.ltb rest v.
Proof.
  intros HP (m' & r' & HP' & [Hm1 Hm2] & Hmin) Hlt.
  assert (m' = m).
  { assert (Hin : In m' (m :: rest)) by (eapply Permutation_in; [exact HP|exact Hm1]).
    destruct Hin as [->|Hin]; auto. specialize (Hlt _ Hin).
    assert (In m d) by (eapply Permutation_in; [symmetry; exact HP|now left]).
    specialize (Hm2 m H). apply Z.ltb_ge in Hm2. lia. }
  subst m'. assert (HPr : Permutation r' rest).
  { apply (Permutation_cons_inv (a := m)). etransitivity; [symmetry; exact HP'|exact HP]. }
  destruct Hmin as [Hi Hl]. split; [eapply Permutation_in; eauto|].
  intros w Hw. apply Hl. eapply Permutation_in; [symmetry; exact HPr|auto].
Qed.

Lemma second_max_Z d v m rest : Permutation d (m :: rest) -> is_second_max Z.ltb d v ->
  (forall x, In x rest -> x < m)%Z -> is_max Z.ltb rest v.
Proof.
  intros HP (m' & r' & HP' & [Hm1 Hm2] & Hmin) Hlt.
  assert (m' = m).
  { assert (Hin : In m' (m :: rest)) by (eapply Permutation_in; [exact HP|exact Hm1]).
    destruct Hin as [->|Hin]; auto. specialize (Hlt _ Hin).
    assert (In m d) by (eapply Permutation_in; [symmetry; exact HP|now left]).
    specialize (Hm2 m H). apply Z.ltb_ge in Hm2. lia. }
  subst m'. assert (HPr : Permutation r' rest).
  { apply (Permutation_cons_inv (a := m)). etransitivity; [symmetry; exact HP'|exact HP]. }
  destruct Hmin as [Hi Hl]. split; [eapply Permutation_in; eauto|].
  intros w Hw. apply Hl. eapply Permutation_in; [symmetry; exact HPr|auto].
Qed.

Lemma next_refuted_lemma :
  (exists h d es v, no_popTop h = true /\ hrun Z.ltb [] h = Ret (d, es) /\ 2 <= length d /\
     nextTop Z.ltb d = Ret v /\ ~ is_second_min Z.ltb d v) /\
  (exists h d es v, no_popTop h = true /\ hrun Z.ltb [] h = Ret (d, es) /\ 2 <= length d /\
     nextBottom Z.ltb d = Ret v /\ ~ is_second_max Z.ltb d v).
Proof.
  split.
  - exists (map HPush [1; 5; 2; 3])%Z, [1; 5; 2; 3]%Z. eexists. exists 3%Z.
    split; [reflexivity|]. split; [vm_compute; reflexivity|]. split; [simpl; lia|]. split; [reflexivity|].
    intros H. apply (second_min_Z _ _ 1 [5; 2; 3]%Z) in H; auto.
    + destruct H as [_ H]. specialize (H 2%Z). simpl in H. assert (true = false) by (apply H; tauto). discriminate.
    + simpl. lia.
  - exists (map HPush [1; 10; 5; 9])%Z, [1; 10; 5; 9]%Z. eexists. exists 5%Z.
    split; [reflexivity|]. split; [vm_compute; reflexivity|]. split; [simpl; lia|]. split; [reflexivity|].
    intros H. apply (second_max_Z _ _ 10 [1; 5; 9]%Z) in H.
    + destruct H as [_ H]. specialize (H 9%Z). simpl in H. assert (true = false) by (apply H; tauto). discriminate.
    + apply perm_swap.
    + simpl. lia.
Qed.

Lemma C14_case_lemma : exists d es, few_copies Z.ltb 2 [] (map HPush [3; 9; 1; 8; 2; 8; 4; 3])%Z /\
  hrun Z.ltb [] (map HPush [3; 9; 1; 8; 2; 8; 4; 3])%Z = Ret (d, es) /\ 6 <= length d /\ nextTop Z.ltb d = Ret 2%Z.
Proof.
  eexists. eexists. split; [apply few_copiesb_spec; vm_compute; reflexivity|].
  split; [vm_compute; reflexivity|]. split; [simpl; lia|]. vm_compute. reflexivity.
Qed.
