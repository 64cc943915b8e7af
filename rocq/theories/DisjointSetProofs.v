From Coq Require Import List ZArith Arith Lia Relations Bool Sorted FinFun.
From Verif Require Import Base BaseLemmas DisjointSetModel DisjointSetSpec.
Import ListNotations.
Open Scope nat_scope.

Definition count (n : nat) (P : nat -> bool) : nat := length (filter P (seq 0 n)).

Lemma count_ext n P Q : (forall i, i < n -> P i = Q i) -> count n P = count n Q.
Proof.
  intros H. unfold count. f_equal.
  apply filter_ext_in. intros a Ha. apply in_seq in Ha. apply H. lia.
Qed.

Lemma count_S n P : count (S n) P = count n P + (if P n then 1 else 0).
Proof.
  unfold count. rewrite seq_S, filter_app, app_length. simpl.
  destruct (P n); simpl; lia.
Qed.

Lemma count_le n P : count n P <= n.
Proof. induction n; [reflexivity|]. rewrite count_S. destruct (P n); lia. Qed.

Lemma count_or n P Q : (forall i, i < n -> P i = true -> Q i = true -> False) ->
  count n (fun i => P i || Q i) = count n P + count n Q.
Proof.
  induction n; intros H; [reflexivity|]. rewrite !count_S, IHn by (intros; eapply H; eauto).
  specialize (H n ltac:(lia)). destruct (P n), (Q n); simpl; try lia.
Qed.

Lemma count_split n P Q :
  count n P = count n (fun i => P i && Q i) + count n (fun i => P i && negb (Q i)).
Proof.
  induction n; [reflexivity|]. rewrite !count_S, IHn. destruct (P n), (Q n); simpl; lia.
Qed.

Lemma count_one n k : k < n -> count n (fun i => Nat.eqb i k) = 1.
Proof.
  induction n; intros H; [lia|]. rewrite count_S.
  destruct (Nat.eqb_spec n k) as [->|Hne].
  - rewrite (count_ext k _ (fun _ => false)).
    + assert (count k (fun _ => false) = 0) as ->; [|reflexivity].
      clear. induction k; [reflexivity|]. rewrite count_S, IHk. reflexivity.
    + intros i Hi. apply Nat.eqb_neq. lia.
  - rewrite IHn by lia. reflexivity.
Qed.

(** Representation invariant with ghost root function. *)
Record Inv (ns : list node) (rf : nat -> nat) : Prop := {
  inv_par : forall i nd, nth_error ns i = Some nd -> parent nd < length ns;
  inv_root : forall i nd, nth_error ns i = Some nd -> parent nd = i -> rf i = i;
  inv_up : forall i nd nd', nth_error ns i = Some nd -> parent nd <> i ->
             nth_error ns (parent nd) = Some nd' -> rank nd < rank nd' /\ rf (parent nd) = rf i;
  inv_size : forall i nd, nth_error ns i = Some nd -> parent nd = i ->
             nsize nd = count (length ns) (fun j => Nat.eqb (rf j) i);
  inv_rank : forall i nd, nth_error ns i = Some nd -> parent nd = i -> 2 ^ rank nd <= nsize nd
}.

(** Steps from [i] to root [r]. *)
Inductive steps (ns : list node) : nat -> nat -> nat -> Prop :=
| st0 i nd : nth_error ns i = Some nd -> parent nd = i -> steps ns i 0 i
| stS i nd k r : nth_error ns i = Some nd -> parent nd <> i -> steps ns (parent nd) k r -> steps ns i (S k) r.

Lemma steps_walk ns i k r fuel : steps ns i k r -> k < fuel -> walk fuel ns i = Ret r.
Proof.
  intros H. revert fuel. induction H as [i nd Hn Hp|i nd k r Hn Hp Hs IH]; intros [|f] Hf; try lia; simpl.
  - unfold vread. rewrite Hn. simpl. rewrite Hp, Nat.eqb_refl. reflexivity.
  - unfold vread. rewrite Hn. simpl. destruct (Nat.eqb_spec i (parent nd)) as [He|He]; [congruence|].
    apply IH. lia.
Qed.

Section WithInv.
Variables (ns : list node) (rf : nat -> nat).
Hypothesis HI : Inv ns rf.

Definition maxrank : nat := fold_right max 0 (map rank ns).

Lemma rank_le_max i nd : nth_error ns i = Some nd -> rank nd <= maxrank.
Proof.
  unfold maxrank. intros H. apply nth_error_In in H. revert H. clear HI.
  induction ns as [|x t IH]; simpl; [tauto|]. intros [H|H]; [subst; lia|]. specialize (IH H). lia.
Qed.

Lemma steps_exist i nd : nth_error ns i = Some nd ->
  exists k r nr, steps ns i k r /\ nth_error ns r = Some nr /\ parent nr = r /\ rf i = r /\
                 k + rank nd <= rank nr.
Proof.
  remember (maxrank - rank nd) as m eqn:Hm.
  revert i nd Hm. induction m as [m IH] using lt_wf_ind. intros i nd Hm Hn.
  destruct (Nat.eq_dec (parent nd) i) as [He|He].
  - exists 0, i, nd. repeat split; auto.
    + econstructor; eauto.
    + eapply inv_root; eauto.
  - destruct (nth_error_ex ns (parent nd)) as [nd' Hn']. { eapply inv_par; eauto. }
    destruct (inv_up _ _ HI i nd nd' Hn He Hn') as [Hr Hf].
    pose proof (rank_le_max _ _ Hn') as Hmx.
    destruct (IH (maxrank - rank nd')) with (i := parent nd) (nd := nd') as (k & r & nr & Hs & Hnr & Hpr & Hrf & Hk); auto; [lia|].
    exists (S k), r, nr. repeat split; auto; try congruence; try lia.
    econstructor; eauto.
Qed.

Lemma rf_lt i : i < length ns -> rf i < length ns.
Proof.
  intros H. destruct (nth_error_ex ns i H) as [nd Hn].
  destruct (steps_exist i nd Hn) as (k & r & nr & _ & Hr & _ & Hf & _).
  rewrite Hf. eapply nth_error_lt; eauto.
Qed.

Lemma rf_root i : i < length ns -> exists nr, nth_error ns (rf i) = Some nr /\ parent nr = rf i.
Proof.
  intros H. destruct (nth_error_ex ns i H) as [nd Hn].
  destruct (steps_exist i nd Hn) as (k & r & nr & _ & Hr & Hp & Hf & _).
  exists nr. rewrite Hf. auto.
Qed.

Lemma rf_idem i : i < length ns -> rf (rf i) = rf i.
Proof.
  intros H. destruct (rf_root i H) as (nr & Hn & Hp). eapply inv_root; eauto.
Qed.

Lemma rf_fix_parent i nd : nth_error ns i = Some nd -> rf i = i -> parent nd = i.
Proof.
  intros Hn Hf. destruct (rf_root i) as (nr & Hn' & Hp); [eapply nth_error_lt; eauto|].
  rewrite Hf in *. congruence.
Qed.

Lemma pow2_gt r : r < 2 ^ r.
Proof. apply Nat.pow_gt_lin_r. lia. Qed.

Lemma rootrank_lt r nr : nth_error ns r = Some nr -> parent nr = r -> rank nr < length ns.
Proof.
  intros Hn Hp. pose proof (inv_rank _ _ HI _ _ Hn Hp) as H1.
  pose proof (inv_size _ _ HI _ _ Hn Hp) as H2.
  pose proof (count_le (length ns) (fun j => Nat.eqb (rf j) r)).
  pose proof (pow2_gt (rank nr)). lia.
Qed.

Lemma walk_rf i : i < length ns -> walk (S (length ns)) ns i = Ret (rf i).
Proof.
  intros H. destruct (nth_error_ex ns i H) as [nd Hn].
  destruct (steps_exist i nd Hn) as (k & r & nr & Hs & Hr & Hp & Hf & Hk).
  rewrite Hf. eapply steps_walk; eauto. pose proof (rootrank_lt _ _ Hr Hp). lia.
Qed.

Lemma walk_shallow i : i < length ns ->
  exists k, walk (S k) ns i = Ret (rf i) /\ 2 ^ k <= count (length ns) (fun j => Nat.eqb (rf j) (rf i)).
Proof.
  intros H. destruct (nth_error_ex ns i H) as [nd Hn].
  destruct (steps_exist i nd Hn) as (k & r & nr & Hs & Hr & Hp & Hf & Hk).
  exists k. split; [rewrite Hf; eapply steps_walk; eauto|].
  pose proof (inv_rank _ _ HI _ _ Hr Hp) as H1.
  pose proof (inv_size _ _ HI _ _ Hr Hp) as H2. rewrite Hf, <- H2.
  etransitivity; [|exact H1]. apply Nat.pow_le_mono_r; lia.
Qed.

(** Compressing the path of [i]. *)
Definition compress i : list node :=
  match nth_error ns i with
  | Some nd => lset ns i (mkNode (rf i) (rank nd) (nsize nd))
  | None => ns
  end.

Lemma set_parent_compress i : i < length ns -> set_parent ns i (rf i) = Ret (compress i).
Proof.
  intros H. destruct (nth_error_ex ns i H) as [nd Hn].
  unfold set_parent, compress, vread, vwrite. rewrite Hn. simpl. rewrite ?Hn. reflexivity.
Qed.

Lemma length_compress i : length (compress i) = length ns.
Proof. unfold compress. destruct (nth_error ns i); auto. apply length_lset. Qed.

Lemma compress_nth i j nd : nth_error ns j = Some nd ->
  nth_error (compress i) j = Some (mkNode (if Nat.eqb i j then rf i else parent nd) (rank nd) (nsize nd)).
Proof.
  intros Hn. unfold compress. destruct (nth_error ns i) as [ni|] eqn:Hi.
  - rewrite nth_error_lset. destruct (Nat.eqb_spec i j) as [->|Hne].
    + rewrite (proj2 (Nat.ltb_lt _ _)) by (eapply nth_error_lt; eauto).
      assert (ni = nd) by congruence. subst. reflexivity.
    + rewrite Hn. destruct nd; reflexivity.
  - destruct (Nat.eqb_spec i j) as [->|Hne]; [congruence|]. rewrite Hn. destruct nd; reflexivity.
Qed.

Lemma compress_nth_inv i j nd' : nth_error (compress i) j = Some nd' ->
  exists nd, nth_error ns j = Some nd /\
    nd' = mkNode (if Nat.eqb i j then rf i else parent nd) (rank nd) (nsize nd).
Proof.
  intros H. destruct (nth_error_ex ns j) as [nd Hn].
  { rewrite <- (length_compress i). eapply nth_error_lt; eauto. }
  exists nd. split; auto. pose proof (compress_nth i j nd Hn). congruence.
Qed.

Lemma compress_Inv i : i < length ns -> Inv (compress i) rf.
Proof.
  intros Hi. constructor.
  - intros j nd' H. apply compress_nth_inv in H as (nd & Hn & ->). rewrite length_compress. simpl.
    destruct (Nat.eqb_spec i j); [apply rf_lt; auto|]. eapply inv_par; eauto.
  - intros j nd' H Hp. apply compress_nth_inv in H as (nd & Hn & ->). simpl in Hp.
    destruct (Nat.eqb_spec i j); [subst; auto|]. eapply inv_root; eauto.
  - intros j nd' nd2' H Hp H2.
    apply compress_nth_inv in H as (nd & Hn & ->). simpl in *.
    apply compress_nth_inv in H2 as (nd2 & Hn2 & ->). simpl in *.
    destruct (Nat.eqb_spec i j) as [->|Hne].
    + split; [|apply rf_idem; auto].
      destruct (steps_exist j nd Hn) as (k & r & nr & Hs & Hr & Hpr & Hf & Hk).
      rewrite Hf in *. assert (nr = nd2) by congruence. subst nr.
      destruct k; [inversion Hs; subst; congruence|]. lia.
    + eapply inv_up; eauto.
  - intros j nd' H Hp. apply compress_nth_inv in H as (nd & Hn & ->). simpl in *.
    rewrite length_compress. destruct (Nat.eqb_spec i j) as [->|Hne].
    + eapply inv_size; eauto. apply rf_fix_parent; auto.
    + eapply inv_size; eauto.
  - intros j nd' H Hp. apply compress_nth_inv in H as (nd & Hn & ->). simpl in *.
    destruct (Nat.eqb_spec i j) as [->|Hne].
    + eapply inv_rank; eauto. apply rf_fix_parent; auto.
    + eapply inv_rank; eauto.
Qed.

(** Hanging root [b] below root [a]. *)
Definition hang (a b : nat) (bump : bool) : list node :=
  match nth_error ns a, nth_error ns b with
  | Some na, Some nb =>
    lset (lset ns b (mkNode a (rank nb) (nsize nb))) a
         (mkNode (parent na) (if bump then S (rank na) else rank na) (nsize na + nsize nb))
  | _, _ => ns
  end.

Definition rf_hang (a b : nat) : nat -> nat := fun i => if Nat.eqb (rf i) b then a else rf i.

Lemma hang_nth a b bump na nb j nd : a <> b ->
  nth_error ns a = Some na -> nth_error ns b = Some nb -> nth_error ns j = Some nd ->
  nth_error (hang a b bump) j = Some
    (if Nat.eqb j a then mkNode (parent na) (if bump then S (rank na) else rank na) (nsize na + nsize nb)
     else if Nat.eqb j b then mkNode a (rank nb) (nsize nb) else nd).
Proof.
  intros Hab Ha Hb Hj. unfold hang. rewrite Ha, Hb. rewrite nth_error_lset, length_lset.
  destruct (Nat.eqb_spec a j) as [->|Hne].
  - rewrite Nat.eqb_refl. rewrite (proj2 (Nat.ltb_lt _ _)); [reflexivity|]. eapply nth_error_lt; eauto.
  - destruct (Nat.eqb_spec j a); [congruence|]. rewrite nth_error_lset.
    destruct (Nat.eqb_spec b j) as [->|Hne2].
    + rewrite Nat.eqb_refl. rewrite (proj2 (Nat.ltb_lt _ _)); [reflexivity|]. eapply nth_error_lt; eauto.
    + destruct (Nat.eqb_spec j b); [congruence|]. auto.
Qed.

Lemma length_hang a b bump : length (hang a b bump) = length ns.
Proof.
  unfold hang. destruct (nth_error ns a), (nth_error ns b); rewrite ?length_lset; auto.
Qed.

Lemma hang_Inv a b (bump : bool) na nb : a <> b ->
  nth_error ns a = Some na -> nth_error ns b = Some nb -> parent na = a -> parent nb = b ->
  (if bump then rank na = rank nb else rank nb < rank na) ->
  Inv (hang a b bump) (rf_hang a b).
Proof.
  intros Hab Ha Hb Hpa Hpb Hrk.
  assert (Hra : rf a = a) by (eapply inv_root; eauto).
  assert (Hrb : rf b = b) by (eapply inv_root; eauto).
  assert (Hla : a < length ns) by (eapply nth_error_lt; eauto).
  assert (inv : forall j nd', nth_error (hang a b bump) j = Some nd' -> exists nd, nth_error ns j = Some nd /\
    nd' = (if Nat.eqb j a then mkNode a (if bump then S (rank na) else rank na) (nsize na + nsize nb)
     else if Nat.eqb j b then mkNode a (rank nb) (nsize nb) else nd)).
  { intros j nd' H. destruct (nth_error_ex ns j) as [nd Hn].
    { rewrite <- (length_hang a b bump). eapply nth_error_lt; eauto. }
    exists nd. split; auto. pose proof (hang_nth a b bump na nb j nd Hab Ha Hb Hn) as H'.
    rewrite Hpa in H'. congruence. }
  unfold rf_hang. constructor.
  - intros j nd' H. apply inv in H as (nd & Hn & ->). rewrite length_hang.
    destruct (Nat.eqb_spec j a); [exact Hla|]. destruct (Nat.eqb_spec j b); [exact Hla|].
    eapply inv_par; eauto.
  - intros j nd' H Hp. apply inv in H as (nd & Hn & ->).
    destruct (Nat.eqb_spec j a) as [->|Hja].
    { rewrite Hra. destruct (Nat.eqb_spec a b); congruence. }
    destruct (Nat.eqb_spec j b) as [->|Hjb]; [simpl in Hp; congruence|].
    assert (Hf : rf j = j) by (eapply inv_root; eauto).
    rewrite Hf. destruct (Nat.eqb_spec j b); congruence.
  - intros j nd' nd2' H Hp H2. apply inv in H as (nd & Hn & ->). apply inv in H2 as (nd2 & Hn2 & ->).
    revert Hp Hn2. destruct (Nat.eqb_spec j a) as [->|Hja]; [simpl; congruence|].
    destruct (Nat.eqb_spec j b) as [->|Hjb]; simpl.
    + intros _ Hn2. rewrite Nat.eqb_refl. simpl. split; [destruct bump; lia|].
      rewrite Hra, Hrb, Nat.eqb_refl. destruct (Nat.eqb_spec a b); congruence.
    + intros Hp Hn2. destruct (inv_up _ _ HI _ _ _ Hn Hp Hn2) as [Hr Hf]. rewrite Hf. split; auto.
      destruct (Nat.eqb_spec (parent nd) a) as [He|He].
      * rewrite He in Hn2. assert (nd2 = na) by congruence. subst. simpl. destruct bump; lia.
      * destruct (Nat.eqb_spec (parent nd) b) as [He2|He2]; simpl; auto.
        rewrite He2 in Hn2. assert (nd2 = nb) by congruence. subst. auto.
  - intros j nd' H Hp. apply inv in H as (nd & Hn & ->). rewrite length_hang.
    destruct (Nat.eqb_spec j a) as [->|Hja].
    + simpl. rewrite (inv_size _ _ HI _ _ Ha Hpa), (inv_size _ _ HI _ _ Hb Hpb).
      rewrite <- count_or.
      * apply count_ext. intros i Hi.
        destruct (Nat.eqb_spec (rf i) b), (Nat.eqb_spec (rf i) a); simpl; try congruence;
          rewrite ?Nat.eqb_refl; auto; symmetry; apply Nat.eqb_neq; auto.
      * intros i Hi H1 H2. apply Nat.eqb_eq in H1, H2. congruence.
    + destruct (Nat.eqb_spec j b) as [->|Hjb]; [simpl in Hp; congruence|].
      rewrite (inv_size _ _ HI _ _ Hn Hp). apply count_ext. intros i Hi.
      destruct (Nat.eqb_spec (rf i) b) as [He|He]; [|reflexivity].
      rewrite He. destruct (Nat.eqb_spec b j), (Nat.eqb_spec a j); congruence.
  - intros j nd' H Hp. apply inv in H as (nd & Hn & ->).
    destruct (Nat.eqb_spec j a) as [->|Hja]; simpl.
    + pose proof (inv_rank _ _ HI _ _ Ha Hpa). pose proof (inv_rank _ _ HI _ _ Hb Hpb).
      destruct bump; [|lia]. rewrite <- Hrk in *. simpl. lia.
    + destruct (Nat.eqb_spec j b) as [->|Hjb]; [simpl in Hp; congruence|].
      eapply inv_rank; eauto.
Qed.

End WithInv.

(** Fresh nodes. *)
Lemma fresh_nth n i nd : nth_error (fresh_nodes n) i = Some nd -> nd = mkNode i 0 1 /\ i < Z.to_nat n.
Proof.
  unfold fresh_nodes. intros H.
  assert (i < Z.to_nat n) as Hi.
  { apply nth_error_lt in H. now rewrite map_length, seq_length in H. }
  rewrite nth_error_map in H.
  rewrite (nth_error_nth' _ 0) in H by (rewrite seq_length; lia).
  rewrite seq_nth in H by lia. simpl in H. split; congruence.
Qed.

Lemma length_fresh n : length (fresh_nodes n) = Z.to_nat n.
Proof. unfold fresh_nodes. now rewrite map_length, seq_length. Qed.

Lemma fresh_Inv n : Inv (fresh_nodes n) (fun i => i).
Proof.
  constructor.
  - intros i nd H. apply fresh_nth in H as [-> Hi]. rewrite length_fresh. auto.
  - auto.
  - intros i nd nd' H Hp. apply fresh_nth in H as [-> Hi]. simpl in Hp. congruence.
  - intros i nd H Hp. apply fresh_nth in H as [-> Hi]. rewrite length_fresh. simpl.
    rewrite count_one; auto.
  - intros i nd H Hp. apply fresh_nth in H as [-> Hi]. simpl. lia.
Qed.

Definition rf_make (n : nat) (rf : nat -> nat) : nat -> nat := fun i => if Nat.ltb i n then rf i else i.

Lemma make_Inv ns rf : Inv ns rf ->
  Inv (ns ++ [mkNode (length ns) 0 1]) (rf_make (length ns) rf).
Proof.
  intros HI.
  assert (inv : forall i nd, nth_error (ns ++ [mkNode (length ns) 0 1]) i = Some nd ->
    (i < length ns /\ nth_error ns i = Some nd) \/ (i = length ns /\ nd = mkNode (length ns) 0 1)).
  { intros i nd H. destruct (lt_dec i (length ns)).
    - rewrite nth_error_app1 in H by lia. auto.
    - rewrite nth_error_app2 in H by lia. destruct (i - length ns) as [|k] eqn:E.
      + simpl in H. right. split; [lia|congruence].
      + simpl in H. destruct k; discriminate. }
  unfold rf_make. constructor.
  - intros i nd H. rewrite app_length; simpl. apply inv in H as [[Hi H]|[-> ->]]; simpl; [|lia].
    pose proof (inv_par _ _ HI _ _ H). lia.
  - intros i nd H Hp. destruct (Nat.ltb_spec i (length ns)); auto.
    apply inv in H as [[Hi H]|[-> ->]]; [|lia]. eapply inv_root; eauto.
  - intros i nd nd' H Hp H'. apply inv in H as [[Hi H]|[-> ->]]; [|simpl in Hp; congruence].
    pose proof (inv_par _ _ HI _ _ H).
    apply inv in H' as [[Hi' H']|[He ->]]; [|lia].
    destruct (Nat.ltb_spec i (length ns)); [|lia]. destruct (Nat.ltb_spec (parent nd) (length ns)); [|lia].
    eapply inv_up; eauto.
  - intros i nd H Hp. rewrite app_length. simpl. rewrite Nat.add_1_r, count_S.
    assert (Hc : count (length ns) (fun j => Nat.eqb (if Nat.ltb j (length ns) then rf j else j) i)
      = count (length ns) (fun j => Nat.eqb (rf j) i)).
    { apply count_ext. intros j Hj. destruct (Nat.ltb_spec j (length ns)); [reflexivity|lia]. }
    rewrite Hc, Nat.ltb_irrefl.
    apply inv in H as [[Hi H]|[-> ->]].
    + rewrite (inv_size _ _ HI _ _ H Hp). destruct (Nat.eqb_spec (length ns) i); lia.
    + rewrite Nat.eqb_refl. simpl.
      rewrite (count_ext _ _ (fun _ => false)).
      * clear. induction (length ns); [reflexivity|]. rewrite count_S. lia.
      * intros j Hj. apply Nat.eqb_neq. pose proof (rf_lt _ _ HI _ Hj). lia.
  - intros i nd H Hp. apply inv in H as [[Hi H]|[-> ->]]; [eapply inv_rank; eauto|simpl; lia].
Qed.

(** Behaviour of the operations under the invariant. *)
Lemma valid_id_true ns a : valid_id ns a = true -> (0 <= a)%Z /\ Z.to_nat a < length ns.
Proof. unfold valid_id. rewrite andb_true_iff, Z.leb_le, Z.ltb_lt. lia. Qed.

Lemma valid_id_lt ns i : i < length ns -> valid_id ns (Z.of_nat i) = true.
Proof. unfold valid_id. rewrite andb_true_iff, Z.leb_le, Z.ltb_lt. lia. Qed.

Lemma find_valid s rf a : Inv (nodes s) rf -> valid_id (nodes s) a = true ->
  find s a = Ret (mkDset (compress (nodes s) rf (Z.to_nat a)) (set_num s), rf (Z.to_nat a)).
Proof.
  intros HI Hv. unfold find. rewrite Hv. apply valid_id_true in Hv as [_ Hv].
  rewrite (walk_rf _ _ HI) by auto. simpl. rewrite set_parent_compress by auto. reflexivity.
Qed.

Lemma find_invalid s a : valid_id (nodes s) a = false -> find s a = Ret (s, length (nodes s)).
Proof. intros H. unfold find. now rewrite H. Qed.

Lemma valid_compress ns rf i a : valid_id (compress ns rf i) a = valid_id ns a.
Proof. unfold valid_id. now rewrite length_compress. Qed.

Lemma hang_eval ns a b na nb : a <> b -> nth_error ns a = Some na -> nth_error ns b = Some nb ->
  obind (set_parent ns b a) (fun ns1 => add_size ns1 a (nsize nb)) = Ret (hang ns a b false).
Proof.
  intros Hab Ha Hb. unfold set_parent, add_size, vread, vwrite, hang. rewrite Hb. simpl. rewrite ?Hb. simpl.
  rewrite !nth_error_lset_neq, Ha by auto. simpl. reflexivity.
Qed.

Lemma hang_eval_bump ns a b na nb : a <> b -> nth_error ns a = Some na -> nth_error ns b = Some nb ->
  incr_rank (hang ns a b false) a = Ret (hang ns a b true).
Proof.
  intros Hab Ha Hb. unfold incr_rank, vread, vwrite.
  assert (Hl : a < length (lset ns b (mkNode a (rank nb) (nsize nb)))).
  { rewrite length_lset. eapply nth_error_lt; eauto. }
  unfold hang. rewrite Ha, Hb. rewrite nth_error_lset_eq by auto. simpl.
  rewrite ?nth_error_lset_eq by auto. f_equal.
  generalize (lset ns b (mkNode a (rank nb) (nsize nb))). intros l.
  clear. revert a. induction l as [|x l IH]; intros [|a]; simpl; auto. f_equal. apply IH.
Qed.

(** The winner of a join of two roots and whether its rank grows. *)
Definition winner (ns : list node) (r1 r2 : nat) : nat * nat * bool :=
  match nth_error ns r1, nth_error ns r2 with
  | Some n1, Some n2 =>
    if Nat.ltb (rank n1) (rank n2) then (r2, r1, false)
    else if Nat.ltb (rank n2) (rank n1) then (r1, r2, false)
    else (r1, r2, true)
  | _, _ => (r1, r2, false)
  end.

Lemma winner_cases ns r1 r2 w l bump : winner ns r1 r2 = (w, l, bump) ->
  (w = r1 /\ l = r2) \/ (w = r2 /\ l = r1).
Proof.
  unfold winner. destruct (nth_error ns r1), (nth_error ns r2); try (intros E; inversion E; auto; fail).
  destruct (Nat.ltb _ _); [intros E; inversion E; auto|].
  destruct (Nat.ltb _ _); intros E; inversion E; auto.
Qed.

Definition join_nodes ns rf (a b : nat) : list node :=
  compress (compress ns rf a) rf b.

Lemma join_nodes_Inv ns rf a b : Inv ns rf -> a < length ns -> b < length ns -> Inv (join_nodes ns rf a b) rf.
Proof.
  intros HI Ha Hb. unfold join_nodes. apply compress_Inv.
  - apply compress_Inv; auto.
  - now rewrite length_compress.
Qed.

Lemma length_join_nodes ns rf a b : length (join_nodes ns rf a b) = length ns.
Proof. unfold join_nodes. now rewrite !length_compress. Qed.

Lemma join_valid s rf a b : Inv (nodes s) rf ->
  valid_id (nodes s) a = true -> valid_id (nodes s) b = true ->
  let ns2 := join_nodes (nodes s) rf (Z.to_nat a) (Z.to_nat b) in
  let r1 := rf (Z.to_nat a) in let r2 := rf (Z.to_nat b) in
  join s a b =
    if Nat.eqb r1 r2 then Ret (mkDset ns2 (set_num s), length (nodes s))
    else let '(w, l, bump) := winner ns2 r1 r2 in
         Ret (mkDset (hang ns2 w l bump) (set_num s - 1), w).
Proof.
  intros HI Ha Hb ns2 r1 r2. unfold join. rewrite (find_valid _ _ _ HI Ha).
  cbv beta iota delta [obind].
  pose proof (valid_id_true _ _ Ha) as [_ Hla]. pose proof (valid_id_true _ _ Hb) as [_ Hlb].
  pose proof (compress_Inv _ _ HI _ Hla) as HI1.
  rewrite (find_valid _ rf b) by (simpl; rewrite ?valid_compress; auto).
  simpl. fold ns2. fold r1. fold r2. fold (join_nodes (nodes s) rf (Z.to_nat a) (Z.to_nat b)). fold ns2.
  destruct (Nat.eqb_spec r1 r2) as [He|He].
  { unfold ns2. rewrite length_join_nodes. reflexivity. }
  assert (HI2 : Inv ns2 rf) by (apply join_nodes_Inv; auto).
  assert (Hl1 : Z.to_nat a < length ns2) by (unfold ns2; rewrite length_join_nodes; auto).
  assert (Hl2 : Z.to_nat b < length ns2) by (unfold ns2; rewrite length_join_nodes; auto).
  destruct (rf_root _ _ HI2 _ Hl1) as (n1 & Hn1 & Hp1).
  destruct (rf_root _ _ HI2 _ Hl2) as (n2 & Hn2 & Hp2).
  fold r1 in Hn1. fold r2 in Hn2.
  unfold winner. rewrite Hn1, Hn2. unfold vread at 1 2. rewrite Hn1, Hn2. cbn [obind].
  destruct (Nat.ltb (rank n1) (rank n2)).
  - pose proof (hang_eval ns2 r2 r1 n2 n1 ltac:(auto) Hn2 Hn1) as Hh.
    destruct (set_parent ns2 r1 r2); try discriminate. cbn [obind] in *. rewrite Hh. reflexivity.
  - pose proof (hang_eval ns2 r1 r2 n1 n2 ltac:(auto) Hn1 Hn2) as Hh.
    destruct (Nat.ltb (rank n2) (rank n1));
    destruct (set_parent ns2 r2 r1); try discriminate; cbn [obind] in *; rewrite Hh; cbn [obind]; auto.
    rewrite (hang_eval_bump ns2 r1 r2 n1 n2) by auto. reflexivity.
Qed.

Definition rf_join (ns : list node) (rf : nat -> nat) (a b : nat) : nat -> nat :=
  if Nat.eqb (rf a) (rf b) then rf
  else let '(w, l, _) := winner ns (rf a) (rf b) in rf_hang rf w l.

Lemma join_step s rf a b : Inv (nodes s) rf ->
  valid_id (nodes s) a = true -> valid_id (nodes s) b = true ->
  exists s' v, join s a b = Ret (s', v) /\
    Inv (nodes s') (rf_join (join_nodes (nodes s) rf (Z.to_nat a) (Z.to_nat b)) rf (Z.to_nat a) (Z.to_nat b)) /\
    length (nodes s') = length (nodes s).
Proof.
  intros HI Ha Hb. rewrite (join_valid _ _ _ _ HI Ha Hb). cbv zeta.
  pose proof (valid_id_true _ _ Ha) as [_ Hla]. pose proof (valid_id_true _ _ Hb) as [_ Hlb].
  set (ns2 := join_nodes _ _ _ _). unfold rf_join.
  assert (HI2 : Inv ns2 rf) by (apply join_nodes_Inv; auto).
  assert (Hlen : length ns2 = length (nodes s)) by apply length_join_nodes.
  destruct (Nat.eqb_spec (rf (Z.to_nat a)) (rf (Z.to_nat b))) as [He|He].
  { do 2 eexists. split; [reflexivity|]. simpl. auto. }
  destruct (rf_root _ _ HI2 (Z.to_nat a) ltac:(lia)) as (n1 & Hn1 & Hp1).
  destruct (rf_root _ _ HI2 (Z.to_nat b) ltac:(lia)) as (n2 & Hn2 & Hp2).
  unfold winner. rewrite Hn1, Hn2.
  destruct (Nat.ltb_spec (rank n1) (rank n2)); [|destruct (Nat.ltb_spec (rank n2) (rank n1))];
    (do 2 eexists; split; [reflexivity|]; simpl; rewrite length_hang; split; [|auto]);
    eapply hang_Inv; eauto; simpl; lia.
Qed.

Lemma rf_join_spec ns rf a b x y : 
  (rf_join ns rf a b x = rf_join ns rf a b y <->
    (rf x = rf y \/ (rf x = rf a /\ rf y = rf b) \/ (rf x = rf b /\ rf y = rf a))).
Proof.
  unfold rf_join. destruct (Nat.eqb_spec (rf a) (rf b)) as [He|He].
  - split; [auto|]. intros [H|[[H1 H2]|[H1 H2]]]; congruence.
  - assert (Hgen : forall w l, (w = rf a /\ l = rf b) \/ (w = rf b /\ l = rf a) ->
      (rf_hang rf w l x = rf_hang rf w l y <->
       (rf x = rf y \/ (rf x = rf a /\ rf y = rf b) \/ (rf x = rf b /\ rf y = rf a)))).
    { intros w l Hwl. unfold rf_hang.
      destruct (Nat.eqb_spec (rf x) l), (Nat.eqb_spec (rf y) l); intuition congruence. }
    unfold winner. destruct (nth_error ns (rf a)) as [n1|], (nth_error ns (rf b)) as [n2|]; try (apply Hgen; auto).
    destruct (Nat.ltb (rank n1) (rank n2)); [apply Hgen; auto|].
    destruct (Nat.ltb (rank n2) (rank n1)); apply Hgen; auto.
Qed.

(** Closure of one more pair. *)
Section Clos.
Variable A : Type.
Notation E L := (clos_refl_sym_trans A (fun a b => In (a, b) L)).

Lemma E_mono (L L' : list (A * A)) x y : (forall p, In p L -> In p L') -> E L x y -> E L' x y.
Proof.
  intros H. induction 1.
  - apply rst_step. auto.
  - apply rst_refl.
  - apply rst_sym; auto.
  - eapply rst_trans; eauto.
Qed.

Lemma E_cons (L : list (A * A)) a b x y :
  E ((a, b) :: L) x y <-> (E L x y \/ (E L x a /\ E L y b) \/ (E L x b /\ E L y a)).
Proof.
  split.
  - induction 1 as [x y H|x|x y H IH|x y z H1 IH1 H2 IH2].
    + destruct H as [H|H].
      * inversion H; subst. right; left. split; apply rst_refl.
      * left. now apply rst_step.
    + left. apply rst_refl.
    + destruct IH as [IH|[[IH1 IH2]|[IH1 IH2]]]; [left; now apply rst_sym|auto|auto].
    + assert (S : forall u v, E L u v -> E L v u) by (intros; now apply rst_sym).
      assert (T : forall u v w, E L u v -> E L v w -> E L u w) by (intros; eapply rst_trans; eauto).
      destruct IH1 as [I1|[[I1 I2]|[I1 I2]]], IH2 as [J1|[[J1 J2]|[J1 J2]]]; eauto 6.
  - assert (M : forall u v, E L u v -> E ((a, b) :: L) u v) by (intros; eapply E_mono; [|eauto]; simpl; auto).
    assert (Hab : E ((a, b) :: L) a b) by (apply rst_step; simpl; auto).
    intros [H|[[H1 H2]|[H1 H2]]]; auto.
    + eapply rst_trans; [eapply M; eauto|]. eapply rst_trans; [exact Hab|]. apply rst_sym. auto.
    + eapply rst_trans; [eapply M; eauto|]. eapply rst_trans; [apply rst_sym; exact Hab|]. apply rst_sym. auto.
Qed.

Lemma E_perm (L L' : list (A * A)) x y : (forall p, In p L <-> In p L') -> E L x y <-> E L' x y.
Proof. intros H. split; apply E_mono; intros p; apply H. Qed.
End Clos.

(** Links of a history extended at the end. *)
Lemma links_app n h1 h2 : links n (h1 ++ h2) = links n h1 ++ links (elements n h1) h2.
Proof.
  revert n. induction h1 as [|o h1 IH]; intros n; simpl; auto.
  destruct o; simpl; auto. destruct (in_range n n1 && in_range n n2); simpl; auto. now rewrite IH.
Qed.

Lemma elements_app n h1 h2 : elements n (h1 ++ h2) = elements (elements n h1) h2.
Proof. revert n. induction h1 as [|o h1 IH]; intros n; simpl; auto. destruct o; simpl; auto. Qed.

Lemma legal_app n h1 h2 : legal n (h1 ++ h2) = legal n h1 && legal (elements n h1) h2.
Proof.
  revert n. induction h1 as [|o h1 IH]; intros n; simpl; auto.
  destruct o; simpl; auto; rewrite IH; now rewrite andb_assoc.
Qed.

Lemma elements_ge n h : (n <= elements n h)%Z.
Proof. revert n; induction h as [|o h IH]; intros n; simpl; [lia|]. destruct o; auto. specialize (IH (n+1)%Z). lia. Qed.

Lemma links_range n h p : (0 <= n)%Z -> In p (links n h) ->
  (0 <= fst p < elements n h)%Z /\ (0 <= snd p < elements n h)%Z.
Proof.
  revert n. induction h as [|o h IH]; intros n Hn; simpl; [tauto|].
  destruct o; try (apply IH; lia).
  - destruct (in_range n n1 && in_range n n2) eqn:E; [|apply IH; lia].
    intros [<-|H]; [|apply IH; auto]. simpl. unfold in_range in E.
    rewrite !andb_true_iff, !Z.leb_le, !Z.ltb_lt in E. pose proof (elements_ge n h). lia.
Qed.

(** Simulation between a state and the history that produced it.
    [L]: effective links so far; [m]: number of makeSet calls. *)
Record Good (s : dset) (rf : nat -> nat) (L : list (Z * Z)) (m : Z) : Prop := {
  g_inv : Inv (nodes s) rf;
  g_links : forall i j, i < length (nodes s) -> j < length (nodes s) ->
     (rf i = rf j <-> clos_refl_sym_trans Z (fun a b => In (a, b) L) (Z.of_nat i) (Z.of_nat j));
  g_num : set_num s = (Z.of_nat (count (length (nodes s)) (fun i => Nat.eqb (rf i) i)) - m)%Z;
  g_range : forall p, In p L -> (0 <= fst p < Z.of_nat (length (nodes s)))%Z /\ (0 <= snd p < Z.of_nat (length (nodes s)))%Z
}.

Fixpoint makes (h : list op) : Z :=
  match h with
  | [] => 0
  | OMake :: t => 1 + makes t
  | _ :: t => makes t
  end.

Lemma no_make_makes h : no_make h = true -> makes h = 0%Z.
Proof. induction h as [|o h IH]; simpl; auto. destruct o; auto. discriminate. Qed.

Lemma init_Good n : (0 <= n)%Z -> Good (initSets n) (fun i => i) [] 0.
Proof.
  intros Hn. constructor.
  - apply fresh_Inv.
  - intros i j Hi Hj. split; [intros ->; apply rst_refl|].
    intros H. apply Nat2Z.inj. induction H; simpl in *; congruence || tauto.
  - simpl. rewrite length_fresh.
    rewrite (count_ext _ _ (fun _ => true)) by (intros; apply Nat.eqb_refl).
    assert (count (Z.to_nat n) (fun _ => true) = Z.to_nat n) as ->; [|lia].
    clear. induction (Z.to_nat n); [reflexivity|]. rewrite count_S. lia.
  - simpl. tauto.
Qed.

Lemma in_range_valid ns a : in_range (Z.of_nat (length ns)) a = valid_id ns a.
Proof. reflexivity. Qed.

Lemma count_hang n rf w l : w < n -> l < n -> w <> l -> rf w = w -> rf l = l ->
  (forall i, i < n -> rf i < n) ->
  count n (fun i => Nat.eqb (rf_hang rf w l i) i) + 1 = count n (fun i => Nat.eqb (rf i) i).
Proof.
  intros Hw Hl Hwl Hrw Hrl Hlt.
  rewrite <- (count_one n l Hl). rewrite <- count_or.
  - apply count_ext. intros i Hi. unfold rf_hang.
    destruct (Nat.eqb_spec (rf i) l) as [He|He].
    + rewrite He. destruct (Nat.eqb_spec w i) as [->|]; [congruence|]. simpl.
      destruct (Nat.eqb_spec i l), (Nat.eqb_spec l i); congruence.
    + destruct (Nat.eqb_spec i l) as [->|]; [congruence|]. now rewrite orb_false_r.
  - intros i Hi H1 H2. apply Nat.eqb_eq in H1, H2. subst i. unfold rf_hang in H1.
    rewrite Hrl, Nat.eqb_refl in H1. congruence.
Qed.

Lemma step_Good s rf L m o :
  Good s rf L m -> legal (Z.of_nat (length (nodes s))) [o] = true ->
  exists s' v rf', step s o = Ret (s', v) /\
    Good s' rf' (links (Z.of_nat (length (nodes s))) [o] ++ L) (m + makes [o]) /\
    Z.of_nat (length (nodes s')) = elements (Z.of_nat (length (nodes s))) [o].
Proof.
  intros [HI HL HN HR] Hleg. destruct o as [n|n1 n2| |n| | |]; simpl in *; rewrite ?Z.add_0_r.
  - destruct (valid_id (nodes s) n) eqn:Hv.
    + rewrite (find_valid _ _ _ HI Hv). apply valid_id_true in Hv as [_ Hv].
      simpl. do 2 eexists. exists rf. split; [reflexivity|]. simpl. rewrite length_compress.
      split; [|reflexivity]. constructor; simpl; rewrite ?length_compress; auto.
      now apply compress_Inv.
    + rewrite (find_invalid _ _ Hv). simpl. do 2 eexists. exists rf. split; [reflexivity|]. split; [|reflexivity].
      constructor; auto.
  - rewrite !in_range_valid in *. rewrite andb_true_r in Hleg. apply eqb_prop in Hleg.
    destruct (valid_id (nodes s) n1) eqn:Hv1; rewrite <- Hleg; simpl.
    + symmetry in Hleg.
      pose proof (valid_id_true _ _ Hv1) as [Hz1 Hl1]. pose proof (valid_id_true _ _ Hleg) as [Hz2 Hl2].
      destruct (join_step _ _ _ _ HI Hv1 Hleg) as (s' & v & Hj & HI' & Hlen).
      rewrite Hj. simpl. do 2 eexists. eexists. split; [reflexivity|]. rewrite Hlen. split; [|reflexivity].
      constructor.
      * exact HI'.
      * intros i j Hi Hj'. rewrite Hlen in *. rewrite rf_join_spec.
        rewrite E_cons. rewrite !HL by auto. rewrite !Z2Nat.id by auto.
        assert (S : forall u v, clos_refl_sym_trans Z (fun a b => In (a, b) L) u v -> clos_refl_sym_trans Z (fun a b => In (a, b) L) v u) by (intros; now apply rst_sym).
        tauto.
      * rewrite Hlen. pose proof (join_valid _ _ _ _ HI Hv1 Hleg) as Hjv. cbv zeta in Hjv. rewrite Hj in Hjv.
        unfold rf_join. destruct (Nat.eqb_spec (rf (Z.to_nat n1)) (rf (Z.to_nat n2))) as [He|He].
        { inversion Hjv; subst s'; simpl. auto. }
        destruct (winner _ _ _) as [[w l] bump] eqn:Ew. inversion Hjv; subst s' v; simpl.
        assert (Hwl : (w = rf (Z.to_nat n1) /\ l = rf (Z.to_nat n2)) \/ (w = rf (Z.to_nat n2) /\ l = rf (Z.to_nat n1))).
        { eapply winner_cases; eauto. }
        pose proof (rf_lt _ _ HI _ Hl1). pose proof (rf_lt _ _ HI _ Hl2).
        pose proof (rf_idem _ _ HI _ Hl1). pose proof (rf_idem _ _ HI _ Hl2).
        pose proof (count_hang (length (nodes s)) rf w l) as Hc.
        assert (count (length (nodes s)) (fun i => rf_hang rf w l i =? i) + 1 = count (length (nodes s)) (fun i => rf i =? i)).
        { apply Hc; try (destruct Hwl as [[-> ->]|[-> ->]]; auto; fail). intros i Hi. now apply (rf_lt _ _ HI). }
        lia.
      * rewrite Hlen. intros p [<-|Hp]; [simpl; lia|auto].
    + symmetry in Hleg. unfold join. rewrite (find_invalid _ _ Hv1). simpl. rewrite (find_invalid _ _ Hleg). simpl.
      rewrite Nat.eqb_refl. simpl. do 2 eexists. exists rf. split; [reflexivity|]. split; [|reflexivity].
      constructor; auto.
  - do 2 eexists. exists (rf_make (length (nodes s)) rf). split; [reflexivity|]. simpl.
    rewrite app_length. simpl. split; [|lia].
    constructor; simpl; rewrite ?app_length; simpl.
    + now apply make_Inv.
    + intros i j Hi Hj. unfold rf_make.
      assert (Hout : forall u v, clos_refl_sym_trans Z (fun a b => In (a, b) L) u v ->
        u = v \/ ((u < Z.of_nat (length (nodes s)))%Z /\ (v < Z.of_nat (length (nodes s)))%Z)).
      { intros u v. induction 1 as [u v Huv|u|u v Huv IH|u v w H1 IH1 H2 IH2]; auto.
        - apply HR in Huv. simpl in Huv. lia.
        - lia.
        - lia. }
      destruct (Nat.ltb_spec i (length (nodes s))) as [Hi'|Hi'], (Nat.ltb_spec j (length (nodes s))) as [Hj'|Hj'].
      * now apply HL.
      * pose proof (rf_lt _ _ HI _ Hi'). split; [lia|]. intros H'. apply Hout in H'. lia.
      * pose proof (rf_lt _ _ HI _ Hj'). split; [lia|]. intros H'. apply Hout in H'. lia.
      * assert (i = j) by lia. subst. split; [intros; apply rst_refl|auto].
    + rewrite Nat.add_1_r, count_S. unfold rf_make at 2. rewrite Nat.ltb_irrefl, Nat.eqb_refl.
      rewrite (count_ext _ _ (fun i => rf i =? i)); [lia|].
      intros i Hi. unfold rf_make. destruct (Nat.ltb_spec i (length (nodes s))); [reflexivity|lia].
    + intros p Hp. apply HR in Hp. lia.
  - rewrite andb_true_r, in_range_valid in Hleg. unfold set_size. rewrite (find_valid _ _ _ HI Hleg).
    simpl. apply valid_id_true in Hleg as [_ Hv].
    pose proof (compress_Inv _ _ HI _ Hv) as HI'.
    destruct (nth_error_ex (compress (nodes s) rf (Z.to_nat n)) (rf (Z.to_nat n))) as [nd Hnd].
    { rewrite length_compress. now apply (rf_lt _ _ HI). }
    unfold vread. rewrite Hnd. simpl. do 2 eexists. exists rf. split; [reflexivity|]. simpl. rewrite length_compress.
    split; [|reflexivity]. constructor; simpl; rewrite ?length_compress; auto.
  - do 2 eexists. exists rf. split; [reflexivity|]. split; [constructor; auto|reflexivity].
  - do 2 eexists. exists rf. split; [reflexivity|]. split; [constructor; auto|reflexivity].
  - do 2 eexists. exists rf. split; [reflexivity|]. split; [constructor; auto|reflexivity].
Qed.

Lemma Good_perm s rf L L' m : Good s rf L m -> (forall p, In p L <-> In p L') -> Good s rf L' m.
Proof.
  intros [HI HL HN HR] H. constructor; auto.
  - intros i j Hi Hj. rewrite HL by auto. now apply E_perm.
  - intros p Hp. apply HR. now apply H.
Qed.

Lemma makes_cons o h : makes (o :: h) = (makes [o] + makes h)%Z.
Proof. destruct o; simpl; lia. Qed.

Lemma run_Good_gen h : forall s rf L m, Good s rf L m -> legal (Z.of_nat (length (nodes s))) h = true ->
  exists s' vs rf', run s h = Ret (s', vs) /\
    Good s' rf' (links (Z.of_nat (length (nodes s))) h ++ L) (makes h + m) /\
    Z.of_nat (length (nodes s')) = elements (Z.of_nat (length (nodes s))) h.
Proof.
  induction h as [|o h IH]; intros s rf L m HG Hleg.
  - simpl. do 3 eexists. split; [reflexivity|]. split; [exact HG|reflexivity].
  - change (o :: h) with ([o] ++ h) in *. rewrite legal_app in Hleg. apply andb_true_iff in Hleg as [Hl1 Hl2].
    destruct (step_Good s rf L m o HG Hl1) as (s1 & v & rf1 & Hs & HG1 & Hlen1).
    rewrite <- Hlen1 in Hl2.
    destruct (IH s1 rf1 _ _ HG1 Hl2) as (s2 & vs & rf2 & Hr & HG2 & Hlen2).
    rewrite links_app, elements_app. rewrite <- Hlen1.
    exists s2, (v :: vs), rf2. split.
    + cbn [app run]. rewrite Hs. cbn [obind]. rewrite Hr. reflexivity.
    + split; [|exact Hlen2]. change (makes ([o] ++ h)) with (makes (o :: h)). rewrite makes_cons.
      replace (makes [o] + makes h + m)%Z with (makes h + (m + makes [o]))%Z by lia.
      eapply Good_perm; [exact HG2|]. intros p. rewrite !in_app_iff. tauto.
Qed.

Lemma run_Good n h : (0 <= n)%Z -> legal n h = true ->
  exists s vs rf, run (initSets n) h = Ret (s, vs) /\ Good s rf (links n h) (makes h) /\
    Z.of_nat (length (nodes s)) = elements n h.
Proof.
  intros Hn Hl.
  assert (Hlen : Z.of_nat (length (nodes (initSets n))) = n).
  { simpl. rewrite length_fresh. lia. }
  destruct (run_Good_gen h (initSets n) _ _ _ (init_Good n Hn)) as (s & vs & rf & Hr & HG & He).
  { now rewrite Hlen. }
  rewrite Hlen in *. exists s, vs, rf. rewrite app_nil_r, Z.add_0_r in HG. auto.
Qed.

(** ** Property lemmas *)
Lemma rf_of_Z (s : dset) (rf : nat -> nat) L m a b : Good s rf L m ->
  (0 <= a < Z.of_nat (length (nodes s)))%Z -> (0 <= b < Z.of_nat (length (nodes s)))%Z ->
  (rf (Z.to_nat a) = rf (Z.to_nat b) <-> clos_refl_sym_trans Z (fun a b => In (a, b) L) a b).
Proof.
  intros HG Ha Hb. rewrite (g_links _ _ _ _ HG) by lia. rewrite !Z2Nat.id by lia. tauto.
Qed.

Lemma valid_of_range ns a : (0 <= a < Z.of_nat (length ns))%Z -> valid_id ns a = true.
Proof. intros H. unfold valid_id. rewrite andb_true_iff, Z.leb_le, Z.ltb_lt. lia. Qed.

Lemma find_connected_lemma n h : (0 <= n)%Z -> legal n h = true ->
  exists s vs, run (initSets n) h = Ret (s, vs) /\
  forall a b, (0 <= a < elements n h)%Z -> (0 <= b < elements n h)%Z ->
  exists s1 s2 s3 ra rb,
    find s a = Ret (s1, ra) /\ find s1 b = Ret (s2, rb) /\
    (ra = rb <-> connected n h a b) /\
    (Z.of_nat ra < elements n h)%Z /\ connected n h a (Z.of_nat ra) /\
    find s2 (Z.of_nat ra) = Ret (s3, ra).
Proof.
  intros Hn Hl. destruct (run_Good n h Hn Hl) as (s & vs & rf & Hr & HG & He).
  exists s, vs. split; auto. intros a b Ha Hb. rewrite <- He in *.
  pose proof (g_inv _ _ _ _ HG) as HI.
  assert (Hva := valid_of_range (nodes s) a Ha). assert (Hvb := valid_of_range (nodes s) b Hb).
  set (ns1 := compress (nodes s) rf (Z.to_nat a)).
  assert (HI1 : Inv ns1 rf) by (apply compress_Inv; auto; lia).
  assert (HI2 : Inv (compress ns1 rf (Z.to_nat b)) rf).
  { apply compress_Inv; auto. unfold ns1. rewrite length_compress. lia. }
  pose proof (rf_lt _ _ HI (Z.to_nat a) ltac:(lia)) as Hra.
  do 5 eexists. split; [apply find_valid; eauto|]. split; [|split; [|split; [|split]]].
  - apply find_valid; simpl; eauto. now rewrite valid_compress.
  - now apply (rf_of_Z s rf _ _ a b HG).
  - lia.
  - apply (rf_of_Z s rf _ _ a _ HG); [lia|lia|]. rewrite Nat2Z.id. symmetry. apply (rf_idem _ _ HI). lia.
  - rewrite (find_valid _ rf) by (simpl; auto; rewrite ?valid_compress; apply valid_id_lt; rewrite ?length_compress; lia).
    rewrite Nat2Z.id. f_equal. f_equal. apply (rf_idem _ _ HI). lia.
Qed.

(** The class of [a] as a list. *)
Lemma class_list s rf L m a : Good s rf L m -> (0 <= a < Z.of_nat (length (nodes s)))%Z ->
  class_of (Z.of_nat (length (nodes s))) (clos_refl_sym_trans Z (fun a b => In (a, b) L)) a
    (map Z.of_nat (filter (fun j => rf j =? rf (Z.to_nat a)) (seq 0 (length (nodes s))))).
Proof.
  intros HG Ha. split.
  - apply Injective_map_NoDup; [intros x y; apply Nat2Z.inj|]. apply NoDup_filter, seq_NoDup.
  - intros b. rewrite in_map_iff. split.
    + intros (j & <- & Hj). apply filter_In in Hj as [Hj1 Hj2]. apply in_seq in Hj1. apply Nat.eqb_eq in Hj2.
      split; [lia|]. apply (rf_of_Z s rf L m); auto; [lia|]. now rewrite Nat2Z.id.
    + intros [Hb HR]. exists (Z.to_nat b). split; [lia|]. apply filter_In. split; [apply in_seq; lia|].
      apply Nat.eqb_eq. symmetry. now apply (rf_of_Z s rf L m).
Qed.

Lemma size_lemma n h : (0 <= n)%Z -> legal n h = true ->
  exists s vs, run (initSets n) h = Ret (s, vs) /\
  forall a, (0 <= a < elements n h)%Z ->
  exists s' k l, set_size s a = Ret (s', k) /\ class_of (elements n h) (connected n h) a l /\ k = length l.
Proof.
  intros Hn Hl. destruct (run_Good n h Hn Hl) as (s & vs & rf & Hr & HG & He).
  exists s, vs. split; auto. intros a Ha. rewrite <- He in *.
  pose proof (g_inv _ _ _ _ HG) as HI.
  assert (Hva := valid_of_range (nodes s) a Ha).
  unfold set_size. rewrite (find_valid _ _ _ HI Hva). simpl.
  assert (HI1 : Inv (compress (nodes s) rf (Z.to_nat a)) rf) by (apply compress_Inv; auto; lia).
  destruct (rf_root _ _ HI1 (Z.to_nat a)) as (nd & Hnd & Hp); [rewrite length_compress; lia|].
  unfold vread. rewrite Hnd. simpl. do 3 eexists. split; [reflexivity|]. split.
  - apply (class_list s rf _ _ a HG Ha).
  - rewrite map_length. rewrite (inv_size _ _ HI1 _ _ Hnd Hp), length_compress. reflexivity.
Qed.

Lemma transversal_list s rf L m : Good s rf L m ->
  transversal (Z.of_nat (length (nodes s))) (clos_refl_sym_trans Z (fun a b => In (a, b) L))
    (map Z.of_nat (filter (fun i => rf i =? i) (seq 0 (length (nodes s))))).
Proof.
  intros HG. pose proof (g_inv _ _ _ _ HG) as HI. split; [|split; [|split]].
  - apply Injective_map_NoDup; [intros x y; apply Nat2Z.inj|]. apply NoDup_filter, seq_NoDup.
  - intros r Hr. apply in_map_iff in Hr as (j & <- & Hj). apply filter_In in Hj as [Hj _]. apply in_seq in Hj. lia.
  - intros a Ha. exists (Z.of_nat (rf (Z.to_nat a))).
    pose proof (rf_lt _ _ HI (Z.to_nat a) ltac:(lia)).
    pose proof (rf_idem _ _ HI (Z.to_nat a) ltac:(lia)) as Hid. split.
    + apply in_map. apply filter_In. split; [apply in_seq; lia|]. now apply Nat.eqb_eq.
    + apply (rf_of_Z s rf L m); auto; [lia|]. now rewrite Nat2Z.id.
  - intros r r' Hr Hr' HR.
    apply in_map_iff in Hr as (j & <- & Hj). apply filter_In in Hj as [Hj Hj2]. apply in_seq in Hj. apply Nat.eqb_eq in Hj2.
    apply in_map_iff in Hr' as (j' & <- & Hj'). apply filter_In in Hj' as [Hj' Hj2']. apply in_seq in Hj'. apply Nat.eqb_eq in Hj2'.
    apply (g_links _ _ _ _ HG) in HR; [|lia|lia]. congruence.
Qed.

Lemma setNum_gen_lemma n h : (0 <= n)%Z -> legal n h = true ->
  exists s vs l, run (initSets n) h = Ret (s, vs) /\
  transversal (elements n h) (connected n h) l /\ setNum s = (Z.of_nat (length l) - makes h)%Z.
Proof.
  intros Hn Hl. destruct (run_Good n h Hn Hl) as (s & vs & rf & Hr & HG & He).
  rewrite <- He. exists s, vs. eexists. split; auto. split; [apply (transversal_list _ _ _ _ HG)|].
  unfold setNum. rewrite (g_num _ _ _ _ HG), map_length. reflexivity.
Qed.

Lemma setNum_lemma n h : (0 <= n)%Z -> legal n h = true -> no_make h = true ->
  exists s vs l, run (initSets n) h = Ret (s, vs) /\
  transversal (elements n h) (connected n h) l /\ setNum s = Z.of_nat (length l).
Proof.
  intros Hn Hl Hm. destruct (setNum_gen_lemma n h Hn Hl) as (s & vs & l & Hr & Ht & Hs).
  exists s, vs, l. rewrite (no_make_makes _ Hm) in Hs. rewrite Z.sub_0_r in Hs. auto.
Qed.

(** parents *)
Lemma parents_from_spec ns : forall k, parents_from ns k =
  filter (fun i => match nth_error ns (i - k) with Some nd => parent nd =? i | None => false end) (seq k (length ns)).
Proof.
  induction ns as [|nd t IH]; intros k; [reflexivity|]. cbn [parents_from length seq filter].
  rewrite Nat.sub_diag. cbn [nth_error]. rewrite IH.
  assert (H : filter (fun i => match nth_error (nd :: t) (i - k) with Some nd => parent nd =? i | None => false end) (seq (S k) (length t))
    = filter (fun i => match nth_error t (i - S k) with Some nd => parent nd =? i | None => false end) (seq (S k) (length t))).
  { apply filter_ext_in. intros i Hi. apply in_seq in Hi. replace (i - k) with (S (i - S k)) by lia. reflexivity. }
  rewrite H. reflexivity.
Qed.

Lemma parents_rf s rf : Inv (nodes s) rf ->
  parents s = filter (fun i => rf i =? i) (seq 0 (length (nodes s))).
Proof.
  intros HI. unfold parents. rewrite parents_from_spec. apply filter_ext_in. intros i Hi. apply in_seq in Hi.
  rewrite Nat.sub_0_r. destruct (nth_error_ex (nodes s) i ltac:(lia)) as [nd Hn]. rewrite Hn.
  destruct (Nat.eqb_spec (rf i) i) as [He|He].
  - apply Nat.eqb_eq. eapply rf_fix_parent; eauto.
  - apply Nat.eqb_neq. intros Hp. apply He. eapply inv_root; eauto.
Qed.

Lemma seq_sorted k n : StronglySorted lt (seq k n).
Proof.
  revert k; induction n as [|n IH]; intros k; simpl; constructor; auto.
  apply Forall_forall. intros x Hx. apply in_seq in Hx. lia.
Qed.

Lemma filter_sorted {A} (R : A -> A -> Prop) f l : StronglySorted R l -> StronglySorted R (filter f l).
Proof.
  induction 1 as [|x l Hs IH Hf]; simpl; [constructor|]. destruct (f x); auto. constructor; auto.
  apply Forall_forall. intros y Hy. apply filter_In in Hy. rewrite Forall_forall in Hf. now apply Hf.
Qed.

Lemma parents_lemma n h : (0 <= n)%Z -> legal n h = true ->
  exists s vs, run (initSets n) h = Ret (s, vs) /\
  StronglySorted lt (parents s) /\
  transversal (elements n h) (connected n h) (map Z.of_nat (parents s)) /\
  (forall r, In r (parents s) <-> exists a s', (0 <= a < elements n h)%Z /\ find s a = Ret (s', r)).
Proof.
  intros Hn Hl. destruct (run_Good n h Hn Hl) as (s & vs & rf & Hr & HG & He).
  pose proof (g_inv _ _ _ _ HG) as HI.
  exists s, vs. split; auto. rewrite (parents_rf s rf HI). split; [|split].
  - apply filter_sorted, seq_sorted.
  - rewrite <- He. apply (transversal_list _ _ _ _ HG).
  - intros r. rewrite filter_In, in_seq, Nat.eqb_eq. split.
    + intros [H1 H2]. exists (Z.of_nat r). eexists. split; [lia|].
      rewrite (find_valid s rf); auto; [|apply valid_id_lt; lia]. rewrite Nat2Z.id, H2. reflexivity.
    + intros (a & s' & Ha & Hf). rewrite <- He in Ha. rewrite (find_valid s rf) in Hf; auto using valid_of_range.
      inversion Hf; subst. pose proof (rf_lt _ _ HI (Z.to_nat a) ltac:(lia)). split; [lia|]. apply (rf_idem _ _ HI). lia.
Qed.

Lemma shallow_lemma n h : (0 <= n)%Z -> legal n h = true ->
  exists s vs, run (initSets n) h = Ret (s, vs) /\
  forall a, (0 <= a < elements n h)%Z ->
  exists k r l, walk (S k) (nodes s) (Z.to_nat a) = Ret r /\
    class_of (elements n h) (connected n h) a l /\ (2 ^ k <= length l)%nat.
Proof.
  intros Hn Hl. destruct (run_Good n h Hn Hl) as (s & vs & rf & Hr & HG & He).
  exists s, vs. split; auto. intros a Ha. rewrite <- He in *.
  pose proof (g_inv _ _ _ _ HG) as HI.
  destruct (walk_shallow _ _ HI (Z.to_nat a) ltac:(lia)) as (k & Hk & Hp).
  exists k. do 2 eexists. split; [exact Hk|]. split; [apply (class_list s rf _ _ a HG Ha)|].
  rewrite map_length. exact Hp.
Qed.

(** Invalid ids *)
Lemma find_out_of_range s a : in_range (Z.of_nat (nodeNum s)) a = false -> find s a = Ret (s, nodeNum s).
Proof. apply find_invalid. Qed.

Lemma same_set_join_lemma n h a b : (0 <= n)%Z -> legal n h = true ->
  (0 <= a < elements n h)%Z -> (0 <= b < elements n h)%Z -> connected n h a b ->
  exists s vs s', run (initSets n) h = Ret (s, vs) /\ join s a b = Ret (s', nodeNum s) /\
    setNum s' = setNum s /\ parents s' = parents s /\
    (forall x y, connected n (h ++ [OJoin a b]) x y <-> connected n h x y).
Proof.
  intros Hn Hl Ha Hb HC. destruct (run_Good n h Hn Hl) as (s & vs & rf & Hr & HG & He).
  pose proof (g_inv _ _ _ _ HG) as HI. rewrite <- He in *.
  assert (Hva := valid_of_range (nodes s) a Ha). assert (Hvb := valid_of_range (nodes s) b Hb).
  exists s, vs. eexists. split; auto. split; [|split; [|split]].
  - rewrite (join_valid s rf a b HI Hva Hvb). cbv zeta.
    rewrite (proj2 (Nat.eqb_eq _ _)); [reflexivity|]. now apply (rf_of_Z s rf _ _ a b HG).
  - reflexivity.
  - assert (HI2 : Inv (join_nodes (nodes s) rf (Z.to_nat a) (Z.to_nat b)) rf) by (apply join_nodes_Inv; auto; lia).
    rewrite (parents_rf _ rf) by (simpl; auto). simpl. rewrite length_join_nodes. now rewrite (parents_rf s rf).
  - intros x y. unfold connected. rewrite links_app. simpl. rewrite <- He.
    assert (in_range (Z.of_nat (length (nodes s))) a && in_range (Z.of_nat (length (nodes s))) b = true) as ->.
    { rewrite !in_range_valid, Hva, Hvb. reflexivity. }
    rewrite (E_perm _ _ ((a, b) :: links n h)).
    + rewrite E_cons. split; [|auto].
      unfold connected in HC.
      assert (S : forall u v, clos_refl_sym_trans Z (fun a b => In (a, b) (links n h)) u v -> clos_refl_sym_trans Z (fun a b => In (a, b) (links n h)) v u) by (intros; now apply rst_sym).
      assert (T : forall u v w, clos_refl_sym_trans Z (fun a b => In (a, b) (links n h)) u v -> clos_refl_sym_trans Z (fun a b => In (a, b) (links n h)) v w -> clos_refl_sym_trans Z (fun a b => In (a, b) (links n h)) u w) by (intros; eapply rst_trans; eauto).
      intros [H|[[H1 H2]|[H1 H2]]]; eauto.
    + intros p. rewrite in_app_iff. simpl. tauto.
Qed.

Lemma join_one_invalid_lemma n h a b : (0 <= n)%Z -> legal n h = true ->
  in_range (elements n h) a <> in_range (elements n h) b ->
  exists s vs, run (initSets n) h = Ret (s, vs) /\ join s a b = UB.
Proof.
  intros Hn Hl Hne. destruct (run_Good n h Hn Hl) as (s & vs & rf & Hr & HG & He).
  pose proof (g_inv _ _ _ _ HG) as HI. rewrite <- He in *.
  exists s, vs. split; auto. rewrite !in_range_valid in Hne.
  unfold join. destruct (valid_id (nodes s) a) eqn:Ha, (valid_id (nodes s) b) eqn:Hb; try congruence.
  - rewrite (find_valid _ _ _ HI Ha). cbn [obind]. rewrite find_invalid by (simpl; now rewrite valid_compress).
    cbn [obind]. simpl. apply valid_id_true in Ha as [_ Ha]. pose proof (rf_lt _ _ HI _ Ha) as Hlt.
    rewrite length_compress. destruct (Nat.eqb_spec (rf (Z.to_nat a)) (length (nodes s))); [lia|].
    pose proof (compress_Inv _ _ HI _ Ha) as HI1.
    unfold vread. destruct (nth_error_ex (compress (nodes s) rf (Z.to_nat a)) (rf (Z.to_nat a))) as [nd Hnd].
    { rewrite length_compress. auto. }
    rewrite Hnd. simpl. rewrite (proj2 (nth_error_None _ _)); [reflexivity|]. rewrite length_compress. lia.
  - rewrite (find_invalid _ _ Ha). cbn [obind]. rewrite (find_valid _ _ _ HI Hb). cbn [obind]. simpl.
    apply valid_id_true in Hb as [_ Hb]. pose proof (rf_lt _ _ HI _ Hb) as Hlt.
    destruct (Nat.eqb_spec (length (nodes s)) (rf (Z.to_nat b))); [lia|].
    unfold vread. rewrite (proj2 (nth_error_None _ _)); [reflexivity|]. rewrite length_compress. lia.
Qed.

Lemma size_invalid_lemma s a : in_range (Z.of_nat (nodeNum s)) a = false -> set_size s a = UB.
Proof.
  intros H. unfold set_size. rewrite find_out_of_range by auto. simpl. unfold vread, nodeNum.
  rewrite (proj2 (nth_error_None _ _)); [reflexivity|lia].
Qed.

(** ** find is observably pure: bisimulation *)
Record Sim (s t : dset) : Prop := {
  sim_num : set_num s = set_num t;
  sim_rf : exists rf, Inv (nodes s) rf /\ Inv (nodes t) rf;
  sim_len : length (nodes s) = length (nodes t);
  sim_data : forall i nd nd', nth_error (nodes s) i = Some nd -> nth_error (nodes t) i = Some nd' ->
      rank nd = rank nd' /\ nsize nd = nsize nd'
}.

Lemma compress_data ns rf i j nd nd' : nth_error ns j = Some nd -> nth_error (compress ns rf i) j = Some nd' ->
  rank nd' = rank nd /\ nsize nd' = nsize nd.
Proof. intros H1 H2. rewrite (compress_nth ns rf i j nd H1) in H2. inversion H2; subst; auto. Qed.

Lemma Sim_compress s t rf i : Sim s t -> Inv (nodes s) rf -> Inv (nodes t) rf -> i < length (nodes s) ->
  Sim (mkDset (compress (nodes s) rf i) (set_num s)) (mkDset (compress (nodes t) rf i) (set_num t)).
Proof.
  intros [H1 H2 H3 H4] Hs Ht Hi. constructor; simpl; auto.
  - exists rf. split; apply compress_Inv; auto. lia.
  - now rewrite !length_compress.
  - intros j nd nd' Hn Hn'.
    apply compress_nth_inv in Hn as (md & Hmd & ->). apply compress_nth_inv in Hn' as (md' & Hmd' & ->).
    simpl. eauto.
Qed.

Lemma Sim_find s a : (exists rf, Inv (nodes s) rf) -> exists s' r, find s a = Ret (s', r) /\ Sim s s'.
Proof.
  intros [rf HI]. destruct (valid_id (nodes s) a) eqn:Hv.
  - rewrite (find_valid _ _ _ HI Hv). do 2 eexists. split; [reflexivity|].
    apply valid_id_true in Hv as [_ Hv]. constructor; simpl; auto.
    + exists rf. split; auto. now apply compress_Inv.
    + now rewrite length_compress.
    + intros i nd nd' H1 H2. destruct (compress_data _ _ _ _ _ _ H1 H2). auto.
  - rewrite (find_invalid _ _ Hv). do 2 eexists. split; [reflexivity|]. constructor; eauto.
    intros i nd nd' H1 H2. assert (nd = nd') by congruence. subst; auto.
Qed.

Lemma sim_valid s t a : Sim s t -> valid_id (nodes s) a = valid_id (nodes t) a.
Proof. intros H. unfold valid_id. now rewrite (sim_len _ _ H). Qed.

Lemma sim_find s t a : Sim s t ->
  exists s' t' r, find s a = Ret (s', r) /\ find t a = Ret (t', r) /\ Sim s' t'.
Proof.
  intros H. destruct (sim_rf _ _ H) as (rf & Hs & Ht).
  destruct (valid_id (nodes s) a) eqn:Hv.
  - rewrite (find_valid _ _ _ Hs Hv). rewrite (sim_valid _ _ _ H) in Hv. rewrite (find_valid _ _ _ Ht Hv).
    do 3 eexists. split; [reflexivity|]. split; [reflexivity|]. apply Sim_compress; auto.
    apply valid_id_true in Hv as [_ Hv]. rewrite (sim_len _ _ H). auto.
  - rewrite (find_invalid _ _ Hv). rewrite (sim_valid _ _ _ H) in Hv. rewrite (find_invalid _ _ Hv).
    rewrite (sim_len _ _ H). eauto 8.
Qed.

Lemma Sim_hang ns ms rf a b (bump : bool) na nb num : length ns = length ms ->
  (forall i nd nd', nth_error ns i = Some nd -> nth_error ms i = Some nd' -> rank nd = rank nd' /\ nsize nd = nsize nd') ->
  Inv ns rf -> Inv ms rf -> a <> b ->
  nth_error ns a = Some na -> nth_error ns b = Some nb -> parent na = a -> parent nb = b ->
  (if bump then rank na = rank nb else rank nb < rank na) ->
  Sim (mkDset (hang ns a b bump) num) (mkDset (hang ms a b bump) num).
Proof.
  intros Hlen Hdat Hns Hms Hab Ha Hb Hpa Hpb Hrk.
  destruct (nth_error_ex ms a) as [ma Hma]; [rewrite <- Hlen; eapply nth_error_lt; eauto|].
  destruct (nth_error_ex ms b) as [mb Hmb]; [rewrite <- Hlen; eapply nth_error_lt; eauto|].
  assert (Hra : rf a = a) by (eapply (inv_root _ _ Hns); eauto).
  assert (Hrb : rf b = b) by (eapply (inv_root _ _ Hns); eauto).
  destruct (Hdat _ _ _ Ha Hma) as [Ra Sa]. destruct (Hdat _ _ _ Hb Hmb) as [Rb Sb].
  constructor; simpl; auto.
  - exists (rf_hang rf a b). split; eapply hang_Inv; eauto.
    + eapply (rf_fix_parent ms rf); eauto.
    + eapply (rf_fix_parent ms rf); eauto.
    + destruct bump; lia.
  - now rewrite !length_hang.
  - intros i nd nd' H1 H2.
    destruct (nth_error_ex ns i) as [x Hx]; [rewrite <- (length_hang ns a b bump); eapply nth_error_lt; eauto|].
    destruct (nth_error_ex ms i) as [y Hy]; [rewrite <- (length_hang ms a b bump); eapply nth_error_lt; eauto|].
    rewrite (hang_nth ns a b bump na nb i x) in H1 by auto.
    rewrite (hang_nth ms a b bump ma mb i y) in H2 by auto.
    injection H1 as <-. injection H2 as <-. destruct (Nat.eqb i a); [simpl; split; [destruct bump; lia|lia]|].
    destruct (Nat.eqb i b); [simpl; auto|]. eauto.
Qed.

Lemma sim_join_valid s t a b : Sim s t -> valid_id (nodes s) a = true -> valid_id (nodes s) b = true ->
  exists s' t' r, join s a b = Ret (s', r) /\ join t a b = Ret (t', r) /\ Sim s' t'.
Proof.
  intros H Hva Hvb. destruct (sim_rf _ _ H) as (rf & Hs & Ht).
  rewrite (join_valid _ _ _ _ Hs Hva Hvb). cbv zeta.
  pose proof (valid_id_true _ _ Hva) as [_ Hla]. pose proof (valid_id_true _ _ Hvb) as [_ Hlb].
  rewrite (sim_valid _ _ a H) in Hva. rewrite (sim_valid _ _ b H) in Hvb. rewrite (join_valid _ _ _ _ Ht Hva Hvb). cbv zeta.
  assert (HS2 : Sim (mkDset (join_nodes (nodes s) rf (Z.to_nat a) (Z.to_nat b)) (set_num s))
                    (mkDset (join_nodes (nodes t) rf (Z.to_nat a) (Z.to_nat b)) (set_num t))).
  { unfold join_nodes.
    pose proof (Sim_compress s t rf _ H Hs Ht Hla) as HS1.
    apply (Sim_compress _ _ rf (Z.to_nat b)) in HS1; simpl in *; auto.
    - apply compress_Inv; auto.
    - apply compress_Inv; auto. rewrite <- (sim_len _ _ H); auto.
    - now rewrite length_compress. }
  destruct (Nat.eqb_spec (rf (Z.to_nat a)) (rf (Z.to_nat b))) as [He|He].
  { rewrite (sim_len _ _ H). eauto 8. }
  set (ns := join_nodes (nodes s) _ _ _) in *. set (ms := join_nodes (nodes t) _ _ _) in *.
  assert (HIs : Inv ns rf) by (apply join_nodes_Inv; auto).
  assert (HIt : Inv ms rf) by (apply join_nodes_Inv; auto; rewrite <- (sim_len _ _ H); auto).
  assert (Hlns : length ns = length (nodes s)) by apply length_join_nodes.
  assert (Hlms : length ms = length (nodes s)) by (unfold ms; rewrite length_join_nodes; symmetry; apply (sim_len _ _ H)).
  destruct (rf_root _ _ HIs (Z.to_nat a) ltac:(lia)) as (n1 & Hn1 & Hp1).
  destruct (rf_root _ _ HIs (Z.to_nat b) ltac:(lia)) as (n2 & Hn2 & Hp2).
  destruct (rf_root _ _ HIt (Z.to_nat a) ltac:(lia)) as (m1 & Hm1 & Hq1).
  destruct (rf_root _ _ HIt (Z.to_nat b) ltac:(lia)) as (m2 & Hm2 & Hq2).
  destruct (sim_data _ _ HS2 _ _ _ Hn1 Hm1) as [R1 S1]. destruct (sim_data _ _ HS2 _ _ _ Hn2 Hm2) as [R2 S2].
  unfold winner. rewrite Hn1, Hn2, Hm1, Hm2, <- R1, <- R2, <- (sim_num _ _ H).
  assert (Hlen : length ns = length ms) by lia.
  destruct (Nat.ltb_spec (rank n1) (rank n2)); [|destruct (Nat.ltb_spec (rank n2) (rank n1))];
    (do 3 eexists; split; [reflexivity|]; split; [reflexivity|]);
    eapply Sim_hang; eauto; try (intros; eapply (sim_data _ _ HS2); eauto; fail); simpl; lia.
Qed.

Lemma Sim_make s t : Sim s t -> Sim (fst (makeSet s)) (fst (makeSet t)).
Proof.
  intros H. destruct (sim_rf _ _ H) as (rf & Hs & Ht). constructor; simpl.
  - apply (sim_num _ _ H).
  - exists (rf_make (length (nodes s)) rf). split; [now apply make_Inv|]. rewrite (sim_len _ _ H). now apply make_Inv.
  - rewrite !app_length, (sim_len _ _ H). reflexivity.
  - intros i nd nd' H1 H2. destruct (lt_dec i (length (nodes s))).
    + rewrite nth_error_app1 in H1 by lia. rewrite nth_error_app1 in H2 by (rewrite <- (sim_len _ _ H); lia).
      eapply (sim_data _ _ H); eauto.
    + rewrite nth_error_app2 in H1 by lia. rewrite nth_error_app2 in H2 by (rewrite <- (sim_len _ _ H); lia).
      rewrite <- (sim_len _ _ H) in H2. destruct (i - length (nodes s)) as [|k].
      * simpl in *. inversion H1; inversion H2; subst; auto.
      * simpl in *. destruct k; discriminate.
Qed.

Lemma sim_step s t o : Sim s t -> legal (Z.of_nat (length (nodes s))) [o] = true ->
  exists s' t' v, step s o = Ret (s', v) /\ step t o = Ret (t', v) /\ Sim s' t'.
Proof.
  intros H Hleg. destruct o as [n|n1 n2| |n| | |]; simpl in *.
  - destruct (sim_find s t n H) as (s' & t' & r & H1 & H2 & H3). rewrite H1, H2. simpl. eauto 8.
  - rewrite andb_true_r, !in_range_valid in Hleg. apply eqb_prop in Hleg.
    destruct (valid_id (nodes s) n1) eqn:Hv.
    + destruct (sim_join_valid s t n1 n2 H Hv ltac:(auto)) as (s' & t' & r & H1 & H2 & H3).
      rewrite H1, H2. simpl. eauto 8.
    + unfold join. rewrite !(find_invalid s) by auto. rewrite (sim_valid _ _ _ H) in Hv.
      rewrite (sim_valid _ _ _ H) in Hleg. rewrite (find_invalid t n1) by auto. cbn [obind].
      rewrite (find_invalid s) by (rewrite (sim_valid _ _ _ H); auto). rewrite (find_invalid t n2) by auto. cbn [obind].
      rewrite !Nat.eqb_refl. cbn [obind]. rewrite (sim_len _ _ H). eauto 8.
  - do 3 eexists. split; [reflexivity|]. split; [rewrite (sim_len _ _ H); reflexivity|].
    pose proof (Sim_make s t H) as HM. simpl in HM. rewrite (sim_len _ _ H) in *. exact HM.
  - rewrite andb_true_r, in_range_valid in Hleg. unfold set_size.
    destruct (sim_find s t n H) as (s' & t' & r & H1 & H2 & H3). rewrite H1, H2. cbn [obind].
    assert (Hr : r < length (nodes s')).
    { destruct (sim_rf _ _ H) as (rf & Hs & Ht). rewrite (find_valid _ _ _ Hs Hleg) in H1. inversion H1; subst; simpl.
      rewrite length_compress. apply (rf_lt _ _ Hs). now apply valid_id_true in Hleg. }
    destruct (nth_error_ex _ _ Hr) as [nd Hnd]. rewrite (sim_len _ _ H3) in Hr.
    destruct (nth_error_ex _ _ Hr) as [nd' Hnd']. unfold vread. rewrite Hnd, Hnd'. cbn [obind].
    destruct (sim_data _ _ H3 _ _ _ Hnd Hnd') as [_ Hsz]. rewrite Hsz. eauto 8.
  - unfold setNum. rewrite (sim_num _ _ H). eauto 8.
  - unfold nodeNum. rewrite (sim_len _ _ H). eauto 8.
  - destruct (sim_rf _ _ H) as (rf & Hs & Ht). rewrite (parents_rf _ _ Hs), (parents_rf _ _ Ht), (sim_len _ _ H). eauto 8.
Qed.

Lemma sim_run h : forall s t, Sim s t -> legal (Z.of_nat (length (nodes s))) h = true ->
  exists s' t' vs, run s h = Ret (s', vs) /\ run t h = Ret (t', vs).
Proof.
  induction h as [|o h IH]; intros s t H Hleg; [simpl; eauto|].
  change (o :: h) with ([o] ++ h) in Hleg. rewrite legal_app in Hleg. apply andb_true_iff in Hleg as [H1 H2].
  destruct (sim_step s t o H H1) as (s1 & t1 & v & Hs & Ht & H3).
  assert (Hlen : Z.of_nat (length (nodes s1)) = elements (Z.of_nat (length (nodes s))) [o]).
  { destruct (sim_rf _ _ H) as (rf & HIs & _).
    destruct o as [n|n1 n2| |n| | |]; simpl in Hs.
    - destruct (Sim_find s n (ex_intro _ rf HIs)) as (s' & r & Hf & HS). rewrite Hf in Hs. inversion Hs; subst.
      simpl. rewrite (sim_len _ _ HS). reflexivity.
    - simpl in H1. rewrite andb_true_r, !in_range_valid in H1. apply eqb_prop in H1.
      destruct (valid_id (nodes s) n1) eqn:Hv.
      + destruct (join_step s rf n1 n2 HIs Hv ltac:(auto)) as (s' & v' & Hj & _ & Hl). rewrite Hj in Hs.
        inversion Hs; subst. simpl. lia.
      + unfold join in Hs. rewrite !(find_invalid s) in Hs by auto. cbn [obind] in Hs.
        rewrite !(find_invalid s) in Hs by auto. cbn [obind] in Hs. rewrite Nat.eqb_refl in Hs. inversion Hs; subst. reflexivity.
    - inversion Hs; subst. simpl. rewrite app_length. simpl. lia.
    - unfold set_size in Hs. destruct (Sim_find s n (ex_intro _ rf HIs)) as (s' & r & Hf & HS). rewrite Hf in Hs.
      cbn [obind] in Hs. destruct (vread (nodes s') r); try discriminate. inversion Hs; subst.
      simpl. rewrite (sim_len _ _ HS). reflexivity.
    - inversion Hs; subst; reflexivity.
    - inversion Hs; subst; reflexivity.
    - inversion Hs; subst; reflexivity. }
  rewrite <- Hlen in H2. destruct (IH s1 t1 H3 H2) as (s2 & t2 & vs & Hr1 & Hr2).
  exists s2, t2, (v :: vs). cbn [run]. rewrite Hs, Ht. cbn [obind]. rewrite Hr1, Hr2. auto.
Qed.

Lemma find_pure_lemma n h a h' : (0 <= n)%Z -> legal n (h ++ h') = true ->
  exists s vs s1 r s2 s2' vs', run (initSets n) h = Ret (s, vs) /\ find s a = Ret (s1, r) /\
    run s h' = Ret (s2, vs') /\ run s1 h' = Ret (s2', vs').
Proof.
  intros Hn Hl. rewrite legal_app in Hl. apply andb_true_iff in Hl as [Hl1 Hl2].
  destruct (run_Good n h Hn Hl1) as (s & vs & rf & Hr & HG & He).
  destruct (Sim_find s a (ex_intro _ rf (g_inv _ _ _ _ HG))) as (s1 & r & Hf & HS).
  rewrite <- He in Hl2. destruct (sim_run h' s s1 HS Hl2) as (s2 & s2' & vs' & H1 & H2).
  do 7 eexists. eauto.
Qed.

Lemma setNum_make_refuted_lemma : exists n h s vs l, (0 <= n)%Z /\ legal n h = true /\
  run (initSets n) h = Ret (s, vs) /\ transversal (elements n h) (connected n h) l /\
  setNum s <> Z.of_nat (length l).
Proof.
  destruct (setNum_gen_lemma 2 [OMake] ltac:(lia) eq_refl) as (s & vs & l & H1 & H2 & H3).
  exists 2%Z, [OMake], s, vs, l. split; [lia|]. split; [reflexivity|]. split; [exact H1|]. split; [exact H2|].
  rewrite H3. simpl. lia.
Qed.

Lemma legal_safe_lemma n h : (0 <= n)%Z -> legal n h = true -> exists s vs, run (initSets n) h = Ret (s, vs).
Proof.
  intros H1 H2. destruct (find_connected_lemma n h H1 H2) as (s & vs & H & _). eauto.
Qed.
