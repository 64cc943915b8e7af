(** * The search of the correspondence graph and repeated use of the object. *)
From Coq Require Import List ZArith Bool Reals Lia Lra Permutation Sorted.
From Verif Require Import Base LabelSetModel LabelSetProofs AssocModel AssocSpec AssocProofs.
Import ListNotations.
Open Scope Z_scope.
Open Scope outcome_scope.

Lemma inter_incl : forall l1 l2 x, In x (std_set_intersection l1 l2) -> In x l1.
Proof.
  induction l1 as [|a l1 IH]; [intros [|b l2] x H; exact H|].
  induction l2 as [|b l2 IH2]; intros x H; [destruct H|].
  cbn in H. destruct (a <? b); [right; eapply IH; exact H|]. destruct (b <? a); [apply IH2; exact H|].
  destruct H as [-> | H]; [left; reflexivity|right; eapply IH; exact H].
Qed.

Definition within (l : list node) (s : list Z) : Prop := forall i, In i s -> 0 <= i < Z.of_nat (length l).

Lemma bk_done f l cnt q p x : 199 <= cnt -> bronKerbosch (S f) l cnt q p x = Ret (cnt + 1).
Proof. intros H. cbn [bronKerbosch]. replace (200 <=? cnt + 1) with true by (symmetry; apply Z.leb_le; lia). reflexivity. Qed.
Lemma bk_nil f l cnt q x : bronKerbosch (S f) l cnt q [] x = Ret (cnt + 1).
Proof. cbn [bronKerbosch]. destruct (200 <=? cnt + 1); [reflexivity|]. destruct (ls_is_empty [] && ls_is_empty x); reflexivity. Qed.
Lemma bk_ub l : forall f cnt q p x, 200 - cnt <= Z.of_nat f -> cnt < 199 -> within l p -> p <> [] -> bronKerbosch f l cnt q p x = UB.
Proof.
  induction f as [|f IH]; intros cnt q p x Hf Hc Hw Hp; [lia|].
  cbn [bronKerbosch]. replace (200 <=? cnt + 1) with false by (symmetry; apply Z.leb_gt; lia).
  destruct p as [|n p]; [contradiction|]. cbn [ls_is_empty andb].
  assert (Hn : 0 <= n < Z.of_nat (length l)) by (apply Hw; left; reflexivity).
  unfold vread. destruct (nth_error l (Z.to_nat n)) as [nd|] eqn:E; [|reflexivity]. cbn [obind].
  set (p' := intersectionSet (n :: p) (adjacents nd)). set (q' := unionLabel q n). set (x' := intersectionSet x (adjacents nd)).
  assert (Hin : within l p').
  { intros i Hi. apply Hw. unfold p', intersectionSet, ls_range in Hi.
    apply insert_all_In in Hi. destruct Hi as [[] | Hi]. apply inter_incl in Hi. exact Hi. }
  clearbody p' q' x'. destruct f as [|f]; [lia|].
  destruct (Z_le_gt_dec 199 (cnt + 1)) as [H|H].
  - rewrite bk_done by lia. reflexivity.
  - destruct p' as [|a p']; [rewrite bk_nil; reflexivity|].
    rewrite IH; [reflexivity|lia|lia|exact Hin|discriminate].
Qed.

Lemma cand_spec n : forall i, In i (fold_left (fun s i => fst (ls_insert s i)) (iota n) ls_empty) <-> 0 <= i < n.
Proof.
  assert (H : forall xs s i, In i (fold_left (fun s i => fst (ls_insert s i)) xs s) <-> In i s \/ In i xs).
  { induction xs as [|x xs IH]; intros s i; cbn [fold_left In]; [tauto|]. rewrite IH, ins_In. intuition. }
  intros i. rewrite H, iota_In. cbn. intuition.
Qed.

Lemma associate_exact_lemma c cnt out l : build c = Ret l ->
  ((l = [] \/ 199 <= cnt) -> associate c cnt out = Ret (with_nodes c l, cnt + 1, out)) /\
  (l <> [] -> cnt < 199 -> associate c cnt out = UB).
Proof.
  intros Hb. unfold associate. rewrite Hb. cbn [obind].
  pose proof (cand_spec (Z.of_nat (length l))) as Hc.
  set (cand := fold_left _ _ _) in *. clearbody cand. split.
  - intros [-> | H].
    + destruct cand as [|a cand]; [|exfalso; specialize (Hc a); cbn in Hc; lia].
      rewrite bk_nil. reflexivity.
    + rewrite bk_done by lia. reflexivity.
  - intros Hl H. rewrite bk_ub; [reflexivity|lia|exact H| |].
    + intros i Hi. apply Hc. exact Hi.
    + intros ->. destruct l as [|n l]; [contradiction|]. specialize (Hc 0). cbn [length] in Hc. cbn in Hc. lia.
Qed.

Lemma never_written_lemma c cnt out c' cnt' out' : associate c cnt out = Ret (c', cnt', out') -> out' = out.
Proof.
  unfold associate. destruct (build c) as [l| | |]; cbn [obind]; try discriminate.
  match goal with |- context [bronKerbosch ?f ?l0 ?cn ?q ?p ?x] => destruct (bronKerbosch f l0 cn q p x); cbn [obind]; try discriminate end.
  intros H. injection H as _ _ H. symmetry. exact H.
Qed.
Lemma hyp_empty_lemma c cnt c' cnt' out : associate_hyp c cnt = Ret (c', cnt', out) -> out = [].
Proof.
  unfold associate_hyp. destruct (associate c cnt []) as [[[c1 n1] cs]| | |] eqn:E; cbn [obind]; try discriminate.
  apply never_written_lemma in E. subst cs. cbn. intros H. injection H as _ _ H. symmetry. exact H.
Qed.

Lemma undefined_lemma {A B} sort (src : list A) ds (dst : list B) dd t m cnt out : conforming sort -> src <> [] -> dst <> [] -> cnt < 199 ->
  associate (problem sort src ds dst dd t m) cnt out = UB /\ associate_hyp (problem sort src ds dst dd t m) cnt = UB.
Proof.
  intros Hc Hs Hd Hn. destruct (graph_lemma sort src ds dst dd t m Hc) as (l & Hb & Hl & _).
  assert (Hne : l <> []).
  { intros ->. cbn in Hl. destruct src; [contradiction|]. destruct dst; [contradiction|]. cbn [length] in Hl. lia. }
  assert (H : forall o, associate (problem sort src ds dst dd t m) cnt o = UB).
  { intros o. apply (proj2 (associate_exact_lemma _ _ _ _ Hb)); auto. }
  split; [apply H|]. unfold associate_hyp. rewrite H. reflexivity.
Qed.

(** An assertion stops the program when a distance of an older, larger set is still stored. *)
Lemma link_exit l i j : (below i l && below j l = false)%bool -> link l i j = Exit.
Proof. intros H. unfold link. rewrite H. reflexivity. Qed.
Lemma link_cases l i j : okl l -> (link l i j = Exit) \/ (exists l', link l i j = Ret l' /\ effect l l' [(i, j)]).
Proof.
  intros Hok. destruct (below i l && below j l)%bool eqn:E; [right|left; apply link_exit; exact E].
  apply link_spec; [exact Hok|]. intros a b [H | []]. injection H as <- <-. unfold below in E.
  apply andb_true_iff in E. destruct E as [E1 E2]. apply andb_true_iff in E1. apply andb_true_iff in E2.
  rewrite Z.leb_le, Z.ltb_lt in E1, E2. lia.
Qed.
Lemma below_shape l l' i : shape l' = shape l -> below i l' = below i l.
Proof. intros H. unfold below. rewrite (shape_length _ _ H). reflexivity. Qed.
Lemma link_dst_exit nd s : forall ds l, okl l -> 
  link_dst nd s ds l = Exit \/ (exists l', link_dst nd s ds l = Ret l' /\ okl l' /\ shape l' = shape l /\ forall i j, In (i, j) (edges nd s ds) -> below i l && below j l = true)%bool.
Proof.
  induction ds as [|d ds IH]; intros l Hok; cbn [link_dst].
  - right. exists l. repeat split; auto. all: intros i j [].
  - destruct (link_cases l (pd0 s * nd + pd0 d) (pd1 s * nd + pd1 d) Hok) as [E | (l1 & E1 & S1 & O1 & _)]; [left; rewrite E; reflexivity|].
    rewrite E1. cbn [obind].
    destruct (link_cases l1 (pd0 s * nd + pd1 d) (pd1 s * nd + pd0 d) O1) as [E | (l2 & E2 & S2 & O2 & _)]; [left; rewrite E; reflexivity|].
    rewrite E2. cbn [obind]. destruct (IH l2 O2) as [E | (l3 & E3 & O3 & S3 & A3)]; [left; exact E|].
    right. exists l3. split; [exact E3|]. split; [exact O3|]. split; [congruence|].
    intros i j H. change (edges nd s (d :: ds)) with (edge2 nd s d ++ edges nd s ds) in H. apply in_app_iff in H.
    destruct H as [[H | [H | []]] | H].
    + injection H as <- <-. destruct (below _ l && below _ l)%bool eqn:B; [reflexivity|]. rewrite (link_exit _ _ _ B) in E1. discriminate.
    + injection H as <- <-. rewrite <- (below_shape l l1), <- (below_shape l l1 (pd1 s * nd + pd0 d)) by exact S1.
      destruct (below _ l1 && below _ l1)%bool eqn:B; [reflexivity|]. rewrite (link_exit _ _ _ B) in E2. discriminate.
    + specialize (A3 _ _ H). rewrite !(below_shape l1 l2), !(below_shape l l1) in A3 by assumption. exact A3.
Qed.
Lemma link_src_exit nd t ds : forall ss l, okl l -> 
  link_src nd t ds ss l = Exit \/ (exists l', link_src nd t ds ss l = Ret l' /\ shape l' = shape l /\ forall i j, In (i, j) (all_edges nd t ds ss) -> below i l && below j l = true)%bool.
Proof.
  induction ss as [|s ss IH]; intros l Hok; cbn [link_src].
  - right. exists l. repeat split; auto. all: intros i j [].
  - fold (window t ds s). destruct (link_dst_exit nd s (window t ds s) l Hok) as [E | (l1 & E1 & O1 & S1 & A1)]; [left; rewrite E; reflexivity|].
    rewrite E1. cbn [obind]. destruct (IH l1 O1) as [E | (l2 & E2 & S2 & A2)]; [left; exact E|].
    right. exists l2. split; [exact E2|]. split; [congruence|]. intros i j H.
    change (all_edges nd t ds (s :: ss)) with (edges nd s (window t ds s) ++ all_edges nd t ds ss) in H. apply in_app_iff in H.
    destruct H as [H | H]; [apply A1; exact H|]. specialize (A2 _ _ H). rewrite !(below_shape l l1) in A2 by exact S1. exact A2.
Qed.

(** A second insertSrc with fewer items. *)
Lemma stale_lemma {A B} sort (src1 src2 : list A) ds (dst : list B) dd t m s0 s1 d0 d1 x y : conforming sort ->
  gap ds src1 s0 s1 x -> s0 < s1 -> Z.of_nat (length src2) <= s1 -> gap dd dst d0 d1 y -> (m < x)%R -> (Rabs (x - y) < t)%R ->
  build (setDistanceMin (setTolerance (insertDst sort (insertSrc sort (insertSrc sort cga_new src1 ds) src2 ds) dst dd) t) m) = Exit.
Proof.
  intros Hc Gs Hss Hlen Gd Hm Ht.
  set (c := setDistanceMin _ _). unfold build. change (nodes c) with (@nil node). cbn [app].
  change (nsrc c) with (Z.of_nat (length src2)). change (ndst c) with (Z.of_nat (length dst)). change (tol c) with t. change (dmin c) with m.
  set (nd := Z.of_nat (length dst)).
  destruct (link_src_exit nd t (ddst c) (upper_from m (dsrc c)) (new_nodes (Z.of_nat (length src2)) nd)) as [E | (l' & E & _ & Ha)]; [apply new_nodes_ok|exact E|].
  exfalso.
  assert (Ss : dsorted (dsrc c)) by apply Hc. assert (Sd : dsorted (ddst c)) by apply Hc.
  assert (Is : In (mkPD s0 s1 x) (dsrc c)).
  { eapply Permutation_in; [apply Hc|]. apply in_app_iff. left. apply (sorted_pairs_In sort ds src1 (mkPD s0 s1 x) Hc). split; [exact Gs|exact Hss]. }
  assert (Id : In (mkPD (Z.min d0 d1) (Z.max d0 d1) y) (ddst c)).
  { apply (sorted_pairs_In sort dd dst _ Hc). cbn. destruct Gd as (D0 & D1 & Dne & a & b & Da & Db & Dx). split; [|lia].
    unfold gap. repeat split; try lia. exists a, b. replace (Z.min (Z.min d0 d1) (Z.max d0 d1)) with (Z.min d0 d1) by lia.
    replace (Z.max (Z.min d0 d1) (Z.max d0 d1)) with (Z.max d0 d1) by lia. auto. }
  pose proof (gap_range _ _ _ _ _ Gd) as Rd. fold nd in Rd.
  specialize (Ha (s0 * nd + Z.min d0 d1) (s1 * nd + Z.max d0 d1)).
  assert (Hin : In (s0 * nd + Z.min d0 d1, s1 * nd + Z.max d0 d1) (all_edges nd t (ddst c) (upper_from m (dsrc c)))).
  { unfold all_edges. apply in_flat_map. exists (mkPD s0 s1 x). split; [apply upper_In; auto|].
    apply in_flat_map. exists (mkPD (Z.min d0 d1) (Z.max d0 d1) y). split; [apply window_In; auto|]. left. reflexivity. }
  specialize (Ha Hin). apply andb_true_iff in Ha. destruct Ha as [_ Hb]. unfold below in Hb. apply andb_true_iff in Hb. destruct Hb as [_ Hb].
  apply Z.ltb_lt in Hb. rewrite new_nodes_length in Hb by lia. nia.
Qed.

(** A second associate appends the nodes again. *)
Lemma double_lemma {A B} sort (src : list A) ds (dst : list B) dd t m cnt out c1 cnt1 out1 : conforming sort ->
  associate (problem sort src ds dst dd t m) cnt out = Ret (c1, cnt1, out1) ->
  Z.of_nat (length (nodes c1)) = Z.of_nat (length src) * Z.of_nat (length dst) /\
  exists l, build c1 = Ret l /\ Z.of_nat (length l) = 2 * (Z.of_nat (length src) * Z.of_nat (length dst)).
Proof.
  intros Hc Ha.
  destruct (build_spec sort src ds dst dd t m Hc) as (l & Hb & S & O & _).
  assert (Hl : Z.of_nat (length l) = Z.of_nat (length src) * Z.of_nat (length dst)).
  { rewrite (shape_length _ _ S). apply new_nodes_length; lia. }
  assert (E : c1 = with_nodes (problem sort src ds dst dd t m) l).
  { destruct (associate_exact_lemma _ cnt out _ Hb) as [H1 H2].
    destruct l as [|n l]; [|destruct (Z_le_gt_dec 199 cnt) as [Hn|Hn]].
    - rewrite H1 in Ha by auto. injection Ha as <- _ _. reflexivity.
    - rewrite H1 in Ha by auto. injection Ha as <- _ _. reflexivity.
    - rewrite H2 in Ha by (discriminate || lia). discriminate. }
  subst c1. split; [exact Hl|].
  unfold build. change (nodes (with_nodes (problem sort src ds dst dd t m) l)) with l.
  change (nsrc (with_nodes (problem sort src ds dst dd t m) l)) with (Z.of_nat (length src)).
  change (ndst (with_nodes (problem sort src ds dst dd t m) l)) with (Z.of_nat (length dst)).
  change (tol (with_nodes (problem sort src ds dst dd t m) l)) with t.
  change (dmin (with_nodes (problem sort src ds dst dd t m) l)) with m.
  change (ddst (with_nodes (problem sort src ds dst dd t m) l)) with (ddst (problem sort src ds dst dd t m)).
  change (dsrc (with_nodes (problem sort src ds dst dd t m) l)) with (dsrc (problem sort src ds dst dd t m)).
  destruct (link_src_spec (Z.of_nat (length dst)) t (ddst (problem sort src ds dst dd t m)) (upper_from m (dsrc (problem sort src ds dst dd t m)))
    (l ++ new_nodes (Z.of_nat (length src)) (Z.of_nat (length dst)))) as (l2 & E2 & S2 & _).
  - apply Forall_app. split; [exact O|apply new_nodes_ok].
  - intros i j H. apply (all_In sort src ds dst dd t m Hc) in H. destruct H as (s0 & s1 & d0 & d1 & x & y & _ & Gs & Gd & _ & _ & -> & ->).
    apply gap_range in Gs. apply gap_range in Gd. rewrite app_length, Nat2Z.inj_add, Hl, new_nodes_length by lia. nia.
  - exists l2. split; [exact E2|]. rewrite (shape_length _ _ S2), app_length, Nat2Z.inj_add, Hl, new_nodes_length by lia. lia.
Qed.

(** A conforming sort. *)
Fixpoint rinsert (p : pdist) (l : list pdist) : list pdist :=
  match l with [] => [p] | q :: r => if Rlt_dec (pdd q) (pdd p) then q :: rinsert p r else p :: l end.
Definition rsort (l : list pdist) : list pdist := fold_right rinsert [] l.
Lemma rinsert_perm p l : Permutation (p :: l) (rinsert p l).
Proof. induction l as [|q l IH]; cbn; [auto|]. destruct (Rlt_dec (pdd q) (pdd p)); [|auto].
  eapply Permutation_trans; [apply perm_swap|]. apply perm_skip. exact IH. Qed.
Lemma rinsert_sorted p l : dsorted l -> dsorted (rinsert p l).
Proof.
  induction l as [|q l IH]; intros H; cbn; [constructor; constructor|].
  destruct (Rlt_dec (pdd q) (pdd p)) as [Hlt|Hge].
  - inversion H as [|? ? H1 H2]; subst. constructor; [apply IH; exact H1|].
    apply Forall_forall. intros z Hz. apply (Permutation_in _ (Permutation_sym (rinsert_perm p l))) in Hz.
    destruct Hz as [<- | Hz]; [lra|]. rewrite Forall_forall in H2. apply H2. exact Hz.
  - constructor; [exact H|]. constructor; [lra|]. inversion H as [|? ? H1 H2]; subst.
    eapply Forall_impl; [|exact H2]. cbn. intros; lra.
Qed.
Lemma rsort_conforming : conforming rsort.
Proof.
  intros l. induction l as [|p l [IH1 IH2]]; cbn; [split; [auto|constructor]|]. split.
  - eapply Permutation_trans; [apply perm_skip; exact IH1|]. apply rinsert_perm.
  - apply rinsert_sorted. exact IH2.
Qed.
