(** * Proofs about the correspondence graph. *)
From Coq Require Import List ZArith Bool Reals Lia Lra Permutation Sorted.
From Verif Require Import Base LabelSetModel LabelSetProofs AssocModel AssocSpec.
Import ListNotations.
Open Scope Z_scope.
Open Scope outcome_scope.

Definition adj (l : list node) (k : Z) : list Z :=
  match nth_error l (Z.to_nat k) with Some n => adjacents n | None => [] end.
Definition shape (l : list node) : list (Z * Z) := map (fun n => (isrc n, idst n)) l.
Definition okl (l : list node) : Prop := Forall (fun n => SSorted (adjacents n)) l.

Lemma ins_In s x y : In y (fst (ls_insert s x)) <-> In y s \/ y = x.
Proof.
  unfold ls_insert; cbn [fst]. destruct (inside s x) eqn:E; cbn [negb].
  - apply inside_In in E. split; [auto|]. intros [H | ->]; auto.
  - apply set_insert_In.
Qed.
Lemma ins_sorted s x : SSorted s -> SSorted (fst (ls_insert s x)).
Proof. unfold ls_insert; cbn [fst]. destruct (inside s x); cbn [negb]; auto using set_insert_sorted. Qed.

Lemma lset_nth {A} (l : list A) : forall i k a, nth_error (Base.lset l i a) k = if (Nat.eqb i k && Nat.ltb i (length l))%bool then Some a else nth_error l k.
Proof.
  induction l as [|x l IH]; intros i k a; cbn.
  - destruct i; cbn; rewrite ?andb_false_r; destruct k; auto.
  - destruct i, k; cbn; auto. rewrite IH. reflexivity.
Qed.
Lemma lset_length {A} (l : list A) : forall i a, length (Base.lset l i a) = length l.
Proof. induction l; intros [|i] b; cbn; auto. Qed.

Lemma shape_length l l' : shape l = shape l' -> length l = length l'.
Proof. unfold shape. intros H. apply (f_equal (@length _)) in H. rewrite !map_length in H. exact H. Qed.

Lemma map_lset {A B} (f : A -> B) l : forall i a b, nth_error l i = Some b -> f a = f b -> map f (Base.lset l i a) = map f l.
Proof. induction l as [|x l IH]; intros [|i] a b H E; cbn in *; try discriminate.
  - injection H as ->. rewrite E. reflexivity.
  - rewrite (IH _ _ _ H E). reflexivity.
Qed.
Lemma Forall_lset {A} (P : A -> Prop) l : forall i a, Forall P l -> P a -> Forall P (Base.lset l i a).
Proof. induction l as [|x l IH]; intros [|i] a H Ha; cbn; auto; inversion H; subst; constructor; auto. Qed.

Lemma add_adj_spec l i j : 0 <= i < Z.of_nat (length l) -> okl l ->
  exists l', add_adj l i j = Ret l' /\ shape l' = shape l /\ okl l' /\
    forall k z, 0 <= k -> (In z (adj l' k) <-> In z (adj l k) \/ (k = i /\ z = j)).
Proof.
  intros Hi Hok. unfold add_adj, vread, vwrite.
  destruct (nth_error l (Z.to_nat i)) as [n|] eqn:E.
  2:{ apply nth_error_None in E. lia. }
  cbn [obind]. eexists. split; [reflexivity|]. split; [|split].
  - unfold shape. eapply map_lset; [exact E|reflexivity].
  - unfold okl. apply Forall_lset; [exact Hok|]. cbn [adjacents]. apply ins_sorted.
    unfold okl in Hok. rewrite Forall_forall in Hok. apply Hok. eapply nth_error_In; exact E.
  - intros k z Hk. unfold adj. rewrite lset_nth.
    destruct (Nat.eqb_spec (Z.to_nat i) (Z.to_nat k)) as [Hik|Hik].
    + assert (k = i) by lia. subst k. replace (Nat.ltb (Z.to_nat i) (length l)) with true by (symmetry; apply Nat.ltb_lt; lia).
      cbn [andb adjacents]. rewrite E, ins_In. intuition.
    + cbn [andb]. assert (k <> i) by (intros ->; auto). intuition.
Qed.

Definition effect (l l' : list node) (es : list (Z * Z)) : Prop :=
  shape l' = shape l /\ okl l' /\ forall k z, 0 <= k -> (In z (adj l' k) <-> In z (adj l k) \/ In (k, z) es \/ In (z, k) es).
Definition inr (l : list node) (es : list (Z * Z)) : Prop :=
  forall a b, In (a, b) es -> 0 <= a < Z.of_nat (length l) /\ 0 <= b < Z.of_nat (length l).

Lemma link_spec l i j : okl l -> inr l [(i, j)] -> exists l', link l i j = Ret l' /\ effect l l' [(i, j)].
Proof.
  intros Hok Hr. destruct (Hr i j) as [Hi Hj]; [left; reflexivity|].
  unfold link, below.
  rewrite !(proj2 (Z.leb_le 0 _)), !(proj2 (Z.ltb_lt _ _)) by lia. cbn [andb].
  destruct (add_adj_spec l i j Hi Hok) as (l1 & E1 & S1 & O1 & A1). rewrite E1. cbn [obind].
  assert (L1 := shape_length _ _ S1).
  destruct (add_adj_spec l1 j i) as (l2 & E2 & S2 & O2 & A2); [lia|exact O1|].
  exists l2. split; [exact E2|]. split; [congruence|]. split; [exact O2|].
  intros k z Hk. rewrite A2, A1 by exact Hk. cbn [In]. 
  split.
  - intros [[H | [-> ->]] | [-> ->]]; auto.
  - intros [H | [[H | []] | [H | []]]]; auto; injection H as -> ->; auto.
Qed.

Lemma effect_trans l l1 l2 e1 e2 : effect l l1 e1 -> effect l1 l2 e2 -> effect l l2 (e1 ++ e2).
Proof.
  intros (S1 & O1 & A1) (S2 & O2 & A2). split; [congruence|]. split; [exact O2|].
  intros k z Hk. rewrite A2, A1, !in_app_iff by exact Hk. tauto.
Qed.
Lemma effect_nil l : okl l -> effect l l [].
Proof. intros H. split; [reflexivity|]. split; [exact H|]. cbn. intuition. Qed.
Lemma inr_shape l l' es : shape l' = shape l -> inr l es -> inr l' es.
Proof. intros S H a b Hab. rewrite (shape_length _ _ S). apply H. exact Hab. Qed.
Lemma inr_app l a b : inr l (a ++ b) -> inr l a /\ inr l b.
Proof. intros H. split; intros x y Hxy; apply H, in_app_iff; auto. Qed.

Definition edge2 (nd : Z) (s d : pdist) : list (Z * Z) :=
  [(pd0 s * nd + pd0 d, pd1 s * nd + pd1 d); (pd0 s * nd + pd1 d, pd1 s * nd + pd0 d)].
Definition edges (nd : Z) (s : pdist) (ds : list pdist) := flat_map (edge2 nd s) ds.

Lemma link_dst_spec nd s : forall ds l, okl l -> inr l (edges nd s ds) -> exists l', link_dst nd s ds l = Ret l' /\ effect l l' (edges nd s ds).
Proof.
  induction ds as [|d ds IH]; intros l Hok Hr.
  - exists l. split; [reflexivity|apply effect_nil; exact Hok].
  - cbn [link_dst]. change (edges nd s (d :: ds)) with (([(pd0 s * nd + pd0 d, pd1 s * nd + pd1 d)] ++ [(pd0 s * nd + pd1 d, pd1 s * nd + pd0 d)]) ++ edges nd s ds) in *.
    apply inr_app in Hr. destruct Hr as [Hr H3]. apply inr_app in Hr. destruct Hr as [H1 H2].
    destruct (link_spec l _ _ Hok H1) as (l1 & E1 & F1). rewrite E1. cbn [obind].
    destruct (link_spec l1 _ _ (proj1 (proj2 F1)) (inr_shape _ _ _ (proj1 F1) H2)) as (l2 & E2 & F2). rewrite E2. cbn [obind].
    pose proof (effect_trans _ _ _ _ _ F1 F2) as F12.
    destruct (IH l2 (proj1 (proj2 F2)) (inr_shape _ _ _ (proj1 F12) H3)) as (l3 & E3 & F3).
    exists l3. split; [exact E3|]. eapply effect_trans; eassumption.
Qed.

Definition window (t : R) (ds : list pdist) (s : pdist) := take_below (pdd s + t) (upper_from (pdd s - t) ds).
Definition all_edges nd t ds ss := flat_map (fun s => edges nd s (window t ds s)) ss.

Lemma link_src_spec nd t ds : forall ss l, okl l -> inr l (all_edges nd t ds ss) ->
  exists l', link_src nd t ds ss l = Ret l' /\ effect l l' (all_edges nd t ds ss).
Proof.
  induction ss as [|s ss IH]; intros l Hok Hr.
  - exists l. split; [reflexivity|apply effect_nil; exact Hok].
  - cbn [link_src]. change (all_edges nd t ds (s :: ss)) with (edges nd s (window t ds s) ++ all_edges nd t ds ss) in *.
    apply inr_app in Hr. destruct Hr as [H1 H2]. fold (window t ds s).
    destruct (link_dst_spec nd s (window t ds s) l Hok H1) as (l1 & E1 & F1). rewrite E1. cbn [obind].
    destruct (IH l1 (proj1 (proj2 F1)) (inr_shape _ _ _ (proj1 F1) H2)) as (l2 & E2 & F2).
    exists l2. split; [exact E2|]. eapply effect_trans; eassumption.
Qed.

(** Searches in sorted vectors. *)
Notation dsorted := (StronglySorted (fun p q => (pdd p <= pdd q)%R)).
Lemma upper_In b l p : dsorted l -> (In p (upper_from b l) <-> In p l /\ (b < pdd p)%R).
Proof.
  induction l as [|q l IH]; intros Hs; cbn; [tauto|].
  inversion Hs as [|? ? Hs' Hq]; subst. rewrite Forall_forall in Hq.
  destruct (Rlt_dec b (pdd q)) as [H|H].
  - cbn. split; [|tauto]. intros [-> | Hp]; [auto|]. split; [auto|]. specialize (Hq _ Hp). cbn in Hq. lra.
  - rewrite IH by exact Hs'. split; [tauto|]. intros [[-> | Hp] Hb]; [contradiction|auto].
Qed.
Lemma upper_sorted b l : dsorted l -> dsorted (upper_from b l).
Proof. induction l as [|q l IH]; intros Hs; cbn; [auto|]. destruct (Rlt_dec b (pdd q)); [exact Hs|]. inversion Hs; auto. Qed.
Lemma take_In b l p : dsorted l -> (In p (take_below b l) <-> In p l /\ (pdd p < b)%R).
Proof.
  induction l as [|q l IH]; intros Hs; cbn; [tauto|].
  inversion Hs as [|? ? Hs' Hq]; subst. rewrite Forall_forall in Hq.
  destruct (Rlt_dec (pdd q) b) as [H|H].
  - cbn. rewrite IH by exact Hs'. split; [|tauto]. intros [-> | Hp]; tauto.
  - cbn. split; [tauto|]. intros [[-> | Hp] Hb]; [contradiction|]. specialize (Hq _ Hp). cbn in Hq. lra.
Qed.
Lemma window_In t ds s p : dsorted ds -> (In p (window t ds s) <-> In p ds /\ (Rabs (pdd s - pdd p) < t)%R).
Proof.
  intros H. unfold window. rewrite take_In by (apply upper_sorted; exact H). rewrite upper_In by exact H.
  split.
  - intros [[Hp H1] H2]. split; [exact Hp|]. apply Rabs_def1; lra.
  - intros [Hp Ha]. apply Rabs_def2 in Ha. repeat split; auto; lra.
Qed.

(** The pairs generated. *)
Lemma pairs_with_In {A} (dist : A -> A -> R) a : forall l i0 i1 p, In p (pairs_with dist i0 i1 a l) <->
  exists k b, nth_error l k = Some b /\ p = mkPD i0 (i1 + Z.of_nat k) (dist a b).
Proof.
  induction l as [|b l IH]; intros i0 i1 p; cbn.
  - split; [tauto|]. intros (k & b & H & _). destruct k; discriminate.
  - rewrite IH. split.
    + intros [<- | (k & c & H & ->)].
      * exists O, b. split; [reflexivity|]. f_equal. lia.
      * exists (S k), c. split; [exact H|]. f_equal. lia.
    + intros ([|k] & c & H & ->); cbn in H.
      * injection H as ->. left. f_equal. lia.
      * right. exists k, c. split; [exact H|]. f_equal. lia.
Qed.
Lemma pairs_from_In {A} (dist : A -> A -> R) : forall l i0 p, In p (pairs_from dist i0 l) <->
  exists j k a b, (j < k)%nat /\ nth_error l j = Some a /\ nth_error l k = Some b /\ p = mkPD (i0 + Z.of_nat j) (i0 + Z.of_nat k) (dist a b).
Proof.
  induction l as [|x l IH]; intros i0 p; cbn [pairs_from].
  - split; [intros []|]. intros (j & k & a & b & _ & H & _). destruct j; discriminate.
  - rewrite in_app_iff, pairs_with_In, IH. split.
    + intros [(k & b & H & ->) | (j & k & a & b & Hjk & Ha & Hb & ->)].
      * exists O, (S k), x, b. repeat split; [lia|exact H|]. f_equal; lia.
      * exists (S j), (S k), a, b. repeat split; [lia|exact Ha|exact Hb|]. f_equal; lia.
    + intros ([|j] & [|k] & a & b & Hjk & Ha & Hb & ->); try lia; cbn in Ha, Hb.
      * injection Ha as ->. left. exists k, b. split; [exact Hb|]. f_equal; lia.
      * right. exists j, k, a, b. repeat split; [lia|exact Ha|exact Hb|]. f_equal; lia.
Qed.

Lemma iota_length n : length (iota n) = Z.to_nat n.
Proof. unfold iota. rewrite map_length, seq_length. reflexivity. Qed.
Lemma iota_nth n i : 0 <= i < n -> nth_error (iota n) (Z.to_nat i) = Some i.
Proof.
  intros H. unfold iota. rewrite nth_error_map.
  assert (E : nth_error (seq 0 (Z.to_nat n)) (Z.to_nat i) = Some (Z.to_nat i)).
  { rewrite (nth_error_nth' _ O) by (rewrite seq_length; lia). rewrite seq_nth by lia. reflexivity. }
  rewrite E. cbn. f_equal. lia.
Qed.
Lemma iota_In n i : In i (iota n) <-> 0 <= i < n.
Proof.
  unfold iota. rewrite in_map_iff. split.
  - intros (k & <- & H). apply in_seq in H. lia.
  - intros H. exists (Z.to_nat i). split; [lia|]. apply in_seq. lia.
Qed.

Lemma flat_nth {A B} (f : A -> list B) (n : nat) : forall l i j a, (forall x, length (f x) = n) -> nth_error l i = Some a -> (j < n)%nat ->
  nth_error (flat_map f l) (i * n + j) = nth_error (f a) j.
Proof.
  induction l as [|x l IH]; intros i j a Hf Hi Hj; [destruct i; discriminate|].
  destruct i as [|i]; cbn in Hi |- *.
  - injection Hi as ->. apply nth_error_app1. rewrite Hf. exact Hj.
  - rewrite nth_error_app2 by (rewrite Hf; lia). rewrite Hf.
    replace (n + i * n + j - n)%nat with (i * n + j)%nat by lia. apply IH; auto.
Qed.
Lemma flat_len {A B} (f : A -> list B) (n : nat) l : (forall x, length (f x) = n) -> length (flat_map f l) = (length l * n)%nat.
Proof. intros H. induction l as [|x l IH]; cbn; [reflexivity|]. rewrite app_length, H, IH. reflexivity. Qed.

Lemma new_nodes_length ns nd : 0 <= ns -> 0 <= nd -> Z.of_nat (length (new_nodes ns nd)) = ns * nd.
Proof.
  intros H1 H2. unfold new_nodes. rewrite (flat_len _ (Z.to_nat nd)).
  - rewrite iota_length. nia.
  - intros x. rewrite map_length, iota_length. reflexivity.
Qed.
Lemma new_nodes_nth ns nd s d : 0 <= s < ns -> 0 <= d < nd -> nth_error (new_nodes ns nd) (Z.to_nat (s * nd + d)) = Some (mkN s d []).
Proof.
  intros Hs Hd. unfold new_nodes.
  replace (Z.to_nat (s * nd + d)) with (Z.to_nat s * Z.to_nat nd + Z.to_nat d)%nat by nia.
  rewrite (flat_nth _ (Z.to_nat nd) _ _ _ s).
  - rewrite nth_error_map, iota_nth by lia. reflexivity.
  - intros x. rewrite map_length, iota_length. reflexivity.
  - apply iota_nth. lia.
  - lia.
Qed.
Lemma new_nodes_ok ns nd : okl (new_nodes ns nd).
Proof.
  apply Forall_forall. intros n Hn. unfold new_nodes in Hn. apply in_flat_map in Hn. destruct Hn as (s & _ & Hn).
  apply in_map_iff in Hn. destruct Hn as (d & <- & _). constructor.
Qed.
Lemma new_nodes_adj ns nd k : adj (new_nodes ns nd) k = [].
Proof.
  unfold adj. destruct (nth_error (new_nodes ns nd) (Z.to_nat k)) as [n|] eqn:E; [|reflexivity].
  apply nth_error_In in E. unfold new_nodes in E. apply in_flat_map in E. destruct E as (s & _ & Hn).
  apply in_map_iff in Hn. destruct Hn as (d & <- & _). reflexivity.
Qed.

(** Membership of a sorted pair vector. *)
Lemma sorted_pairs_In {A} sort (dist : A -> A -> R) items p : conforming sort -> 
  (In p (sort ([] ++ pairs_from dist 0 items)) <-> gap dist items (pd0 p) (pd1 p) (pdd p) /\ pd0 p < pd1 p).
Proof.
  intros Hc. cbn [app]. destruct (Hc (pairs_from dist 0 items)) as [Hp _].
  assert (Hin : In p (sort (pairs_from dist 0 items)) <-> In p (pairs_from dist 0 items)).
  { split; intros H; [eapply Permutation_in; [apply Permutation_sym, Hp|exact H]|eapply Permutation_in; [exact Hp|exact H]]. }
  rewrite Hin, pairs_from_In. clear Hin Hp. split.
  - intros (j & k & a & b & Hjk & Ha & Hb & ->). cbn. unfold gap. split; [|lia]. repeat split; try lia.
    exists a, b. rewrite Z.min_l, Z.max_r by lia. rewrite !Nat2Z.id. auto.
  - destruct p as [i j x]; cbn. intros [(Hi & Hj & Hne & a & b & Ha & Hb & Hx) Hij].
    rewrite Z.min_l in Ha by lia. rewrite Z.max_r in Hb by lia.
    exists (Z.to_nat i), (Z.to_nat j), a, b. repeat split; auto; [lia|]. f_equal; try lia. symmetry; exact Hx.
Qed.

Lemma gap_range {A} (dist : A -> A -> R) items i j x : gap dist items i j x ->
  0 <= i < Z.of_nat (length items) /\ 0 <= j < Z.of_nat (length items).
Proof.
  intros (Hi & Hj & Hne & a & b & Ha & Hb & _).
  assert (H : forall n (y : A), nth_error items n = Some y -> (n < length items)%nat).
  { intros n y Hn. apply nth_error_Some. congruence. }
  apply H in Ha. apply H in Hb. lia.
Qed.
Lemma gap_sym {A} (dist : A -> A -> R) items i j x : gap dist items i j x -> gap dist items j i x.
Proof. unfold gap. rewrite (Z.min_comm j i), (Z.max_comm j i). intuition. Qed.

Section graph.
  Context {A B : Type} (sort : list pdist -> list pdist) (src : list A) (ds : A -> A -> R) (dst : list B) (dd : B -> B -> R) (t m : R).
  Hypothesis Hc : conforming sort.
  Notation c := (problem sort src ds dst dd t m).
  Notation ns := (Z.of_nat (length src)).
  Notation nd := (Z.of_nat (length dst)).

  Lemma dsrc_sorted : dsorted (dsrc c).
  Proof. unfold problem. cbn [dsrc setDistanceMin setTolerance insertDst insertSrc]. apply Hc. Qed.
  Lemma ddst_sorted : dsorted (ddst c).
  Proof. unfold problem. cbn [ddst setDistanceMin setTolerance insertDst insertSrc]. apply Hc. Qed.

  Lemma all_In i j : In (i, j) (all_edges nd t (ddst c) (upper_from m (dsrc c))) <->
    exists s0 s1 d0 d1 x y, s0 < s1 /\ gap ds src s0 s1 x /\ gap dd dst d0 d1 y /\ (m < x)%R /\ (Rabs (x - y) < t)%R /\
      i = s0 * nd + d0 /\ j = s1 * nd + d1.
  Proof.
    unfold all_edges. rewrite in_flat_map. split.
    - intros (s & Hs & H). apply upper_In in Hs; [|apply dsrc_sorted]. destruct Hs as [Hs Hm].
      apply (sorted_pairs_In sort ds src s Hc) in Hs. destruct Hs as [Gs Ls].
      apply in_flat_map in H. destruct H as (d & Hd & H). apply window_In in Hd; [|apply ddst_sorted]. destruct Hd as [Hd Ht].
      apply (sorted_pairs_In sort dd dst d Hc) in Hd. destruct Hd as [Gd Ld].
      cbn [edge2 In] in H. destruct H as [H | [H | []]]; injection H as <- <-.
      + exists (pd0 s), (pd1 s), (pd0 d), (pd1 d), (pdd s), (pdd d). repeat split; auto; apply Gs || apply Gd.
      + exists (pd0 s), (pd1 s), (pd1 d), (pd0 d), (pdd s), (pdd d). apply gap_sym in Gd. repeat split; auto; apply Gs || apply Gd.
    - intros (s0 & s1 & d0 & d1 & x & y & L & Gs & Gd & Hm & Ht & -> & ->).
      exists (mkPD s0 s1 x). split.
      + apply upper_In; [apply dsrc_sorted|]. split; [|exact Hm]. apply (sorted_pairs_In sort ds src _ Hc). split; [exact Gs|exact L].
      + apply in_flat_map. destruct (Z.lt_trichotomy d0 d1) as [Hd | [Hd | Hd]].
        * exists (mkPD d0 d1 y). split; [|cbn; auto]. apply window_In; [apply ddst_sorted|]. split; [|exact Ht].
          apply (sorted_pairs_In sort dd dst _ Hc). split; [exact Gd|exact Hd].
        * exfalso. apply Gd. exact Hd.
        * exists (mkPD d1 d0 y). split; [|cbn; auto]. apply window_In; [apply ddst_sorted|]. split; [|exact Ht].
          apply (sorted_pairs_In sort dd dst _ Hc). split; [apply gap_sym; exact Gd|exact Hd].
  Qed.

  Lemma index_inj s0 d0 s1 d1 : 0 <= d0 < nd -> 0 <= d1 < nd -> s0 * nd + d0 = s1 * nd + d1 -> s0 = s1 /\ d0 = d1.
  Proof. intros H0 H1 E. assert (s0 = s1) by nia. subst. split; [reflexivity|lia]. Qed.

  Lemma build_spec : exists l, build c = Ret l /\ effect (new_nodes ns nd) l (all_edges nd t (ddst c) (upper_from m (dsrc c))).
  Proof.
    unfold build. change (nodes c) with (@nil node). cbn [app].
    change (nsrc c) with ns. change (ndst c) with nd. change (tol c) with t. change (dmin c) with m.
    apply link_src_spec; [apply new_nodes_ok|].
    intros i j H. apply all_In in H. destruct H as (s0 & s1 & d0 & d1 & x & y & _ & Gs & Gd & _ & _ & -> & ->).
    apply gap_range in Gs. apply gap_range in Gd. rewrite new_nodes_length by lia. nia.
  Qed.

  Lemma graph_lemma : exists l, build c = Ret l /\ Z.of_nat (length l) = ns * nd /\
    (forall s d, 0 <= s < ns -> 0 <= d < nd -> exists n, nth_error l (Z.to_nat (s * nd + d)) = Some n /\ isrc n = s /\ idst n = d /\ StronglySorted Z.lt (adjacents n)) /\
    (forall i j, linked l i j -> 0 <= j < ns * nd) /\
    (forall s0 d0 s1 d1, 0 <= s0 < ns -> 0 <= d0 < nd -> 0 <= s1 < ns -> 0 <= d1 < nd ->
      (linked l (s0 * nd + d0) (s1 * nd + d1) <->
       exists x y, gap ds src s0 s1 x /\ gap dd dst d0 d1 y /\ (m < x)%R /\ (Rabs (x - y) < t)%R)) /\
    (forall i j, linked l i j -> linked l j i) /\ (forall i, ~ linked l i i).
  Proof.
    destruct build_spec as (l & E & S & O & Ha). exists l. split; [exact E|].
    assert (Hlen : Z.of_nat (length l) = ns * nd).
    { rewrite (shape_length _ _ S). apply new_nodes_length; lia. }
    assert (Hlk : forall i j, linked l i j <-> 0 <= i /\ In j (adj l i)).
    { intros i j. unfold linked, adj. split.
      - intros (Hi & n & -> & Hn). auto.
      - intros (Hi & Hn). split; [exact Hi|]. destruct (nth_error l (Z.to_nat i)) as [n|]; [eauto|destruct Hn]. }
    assert (Hed : forall i j, linked l i j <-> exists s0 s1 d0 d1 x y, gap ds src s0 s1 x /\ gap dd dst d0 d1 y /\ (m < x)%R /\ (Rabs (x - y) < t)%R /\
      i = s0 * nd + d0 /\ j = s1 * nd + d1).
    { intros i j. rewrite Hlk. split.
      - intros [Hi Hj]. apply Ha in Hj; [|exact Hi]. rewrite new_nodes_adj in Hj. destruct Hj as [[] | [Hj | Hj]]; apply all_In in Hj;
        destruct Hj as (s0 & s1 & d0 & d1 & x & y & L & Gs & Gd & Hm & Ht & -> & ->).
        + exists s0, s1, d0, d1, x, y. repeat split; auto; apply Gs || apply Gd.
        + exists s1, s0, d1, d0, x, y. apply gap_sym in Gs. apply gap_sym in Gd. repeat split; auto; apply Gs || apply Gd.
      - intros (s0 & s1 & d0 & d1 & x & y & Gs & Gd & Hm & Ht & -> & ->).
        pose proof (gap_range _ _ _ _ _ Gs) as Rs. pose proof (gap_range _ _ _ _ _ Gd) as Rd.
        assert (Hi : 0 <= s0 * nd + d0) by nia. split; [exact Hi|]. apply Ha; [exact Hi|].
        right. destruct (Z.lt_trichotomy s0 s1) as [L | [L | L]].
        + left. apply all_In. exists s0, s1, d0, d1, x, y. repeat split; auto; apply Gs || apply Gd.
        + exfalso. apply Gs. exact L.
        + right. apply all_In. exists s1, s0, d1, d0, x, y. apply gap_sym in Gs. apply gap_sym in Gd. repeat split; auto; apply Gs || apply Gd. }
    split; [exact Hlen|]. split; [|split; [|split; [|split]]].
    - intros s d Hs Hd.
      pose proof (new_nodes_nth ns nd s d Hs Hd) as Hn. apply (map_nth_error (fun n => (isrc n, idst n))) in Hn. cbn in Hn.
      fold (shape (new_nodes ns nd)) in Hn. rewrite <- S in Hn. unfold shape in Hn. rewrite nth_error_map in Hn.
      destruct (nth_error l (Z.to_nat (s * nd + d))) as [n|] eqn:En; [|discriminate]. cbn in Hn. injection Hn as H1 H2.
      exists n. repeat split; auto. unfold okl in O. rewrite Forall_forall in O. apply O. eapply nth_error_In; exact En.
    - intros i j H. apply Hed in H. destruct H as (s0 & s1 & d0 & d1 & x & y & Gs & Gd & _ & _ & _ & ->).
      apply gap_range in Gs. apply gap_range in Gd. nia.
    - intros s0 d0 s1 d1 H1 H2 H3 H4. rewrite Hed. split.
      + intros (s0' & s1' & d0' & d1' & x & y & Gs & Gd & Hm & Ht & E0 & E1).
        pose proof (gap_range _ _ _ _ _ Gd) as Rd.
        destruct (index_inj _ _ _ _ H2 (proj1 Rd) E0) as [-> ->]. destruct (index_inj _ _ _ _ H4 (proj2 Rd) E1) as [-> ->]. exists x, y. exact (conj Gs (conj Gd (conj Hm Ht))).
      + intros (x & y & Gs & Gd & Hm & Ht). exists s0, s1, d0, d1, x, y. repeat split; auto; apply Gs || apply Gd.
    - intros i j H. apply Hed in H. apply Hed. destruct H as (s0 & s1 & d0 & d1 & x & y & Gs & Gd & Hm & Ht & -> & ->).
      exists s1, s0, d1, d0, x, y. apply gap_sym in Gs. apply gap_sym in Gd. repeat split; auto; apply Gs || apply Gd.
    - intros i H. apply Hed in H. destruct H as (s0 & s1 & d0 & d1 & x & y & Gs & Gd & Hm & Ht & E0 & E1).
      pose proof (gap_range _ _ _ _ _ Gd) as Rd. rewrite E0 in E1.
      destruct (index_inj _ _ _ _ (proj1 Rd) (proj2 Rd) E1) as [Es _]. apply Gs. exact Es.
  Qed.
End graph.
