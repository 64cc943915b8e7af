(** * Proofs: DisjointSet with int ids. *)
From Coq Require Import List ZArith Bool Lia Arith.
From Verif Require Import Base BaseLemmas DisjointSetModel DisjointSetSpec DisjointSetProofs DisjointIntModel.
From Verif Require IntervalModel.
Import ListNotations.
Open Scope Z_scope.

Definition emb (nd : node) : inode := mkINode (Z.of_nat (parent nd)) (Z.of_nat (rank nd)) (Z.of_nat (nsize nd)).
Definition embs (s : dset) : iset := mkISet (map emb (nodes s)) (set_num s).
Definition omap {A B} (f : A -> B) (x : outcome A) : outcome B := obind x (fun a => Ret (f a)).

Lemma chk_ok x : - 2 ^ 31 <= x < 2 ^ 31 -> chk x = Ret x.
Proof. intros H. unfold IntervalModel.chk. destruct (Z.leb_spec (- 2 ^ 31) x), (Z.ltb_spec x (2 ^ 31)); try lia; reflexivity. Qed.
Lemma to_int_ok x : 0 <= x < 2 ^ 31 -> to_int x = x.
Proof. intros H. unfold IntervalModel.to_int. rewrite Z.mod_small; lia. Qed.

Lemma iread_emb ns i : iread (map emb ns) (Z.of_nat i) = omap emb (vread ns i).
Proof.
  unfold iread. destruct (Z.ltb_spec (Z.of_nat i) 0); [lia|]. rewrite Nat2Z.id. unfold vread. rewrite nth_error_map. destruct (nth_error ns i); reflexivity.
Qed.
Lemma lset_map {A B} (f : A -> B) l : forall i a, lset (map f l) i (f a) = map f (lset l i a).
Proof. induction l as [|x l IH]; intros [|i] a; cbn; auto. now rewrite IH. Qed.
Lemma iwrite_emb ns i nd : iwrite (map emb ns) (Z.of_nat i) (emb nd) = omap (map emb) (vwrite ns i nd).
Proof.
  unfold iwrite. destruct (Z.ltb_spec (Z.of_nat i) 0); [lia|]. rewrite Nat2Z.id. unfold vwrite. rewrite nth_error_map. destruct (nth_error ns i); [|reflexivity].
  cbn [option_map omap obind]. now rewrite lset_map.
Qed.
Lemma eqb_of_nat a b : (Z.of_nat a =? Z.of_nat b) = Nat.eqb a b.
Proof. destruct (Nat.eqb_spec a b), (Z.eqb_spec (Z.of_nat a) (Z.of_nat b)); try reflexivity; lia. Qed.
Lemma ltb_of_nat a b : (Z.of_nat a <? Z.of_nat b) = Nat.ltb a b.
Proof. destruct (Nat.ltb_spec a b), (Z.ltb_spec (Z.of_nat a) (Z.of_nat b)); try reflexivity; lia. Qed.

Lemma walk_emb f : forall ns t, walk_int f (map emb ns) (Z.of_nat t) = omap Z.of_nat (walk f ns t).
Proof.
  induction f as [|f IH]; intros ns t; [reflexivity|]. cbn [walk_int walk]. rewrite iread_emb. destruct (vread ns t) as [nd| | |]; try reflexivity.
  cbn [omap obind emb iparent]. rewrite eqb_of_nat. destruct (Nat.eqb t (parent nd)); [reflexivity|]. apply IH.
Qed.
Lemma set_parent_emb ns i p : set_parent_int (map emb ns) (Z.of_nat i) (Z.of_nat p) = omap (map emb) (set_parent ns i p).
Proof.
  unfold set_parent_int, set_parent. rewrite iread_emb. destruct (vread ns i) as [nd| | |]; try reflexivity. cbn [omap obind].
  exact (iwrite_emb ns i (mkNode p (rank nd) (nsize nd))).
Qed.
Lemma add_size_emb ns i k : (forall nd, nth_error ns i = Some nd -> Z.of_nat (nsize nd) + Z.of_nat k < 2 ^ 64) ->
  add_size_int (map emb ns) (Z.of_nat i) (Z.of_nat k) = omap (map emb) (add_size ns i k).
Proof.
  intros H. unfold add_size_int, add_size. rewrite iread_emb. unfold vread. destruct (nth_error ns i) as [nd|] eqn:E; [|reflexivity]. cbn [omap obind emb iparent irank isize].
  specialize (H nd eq_refl). rewrite Z.mod_small by lia. rewrite <- Nat2Z.inj_add. exact (iwrite_emb ns i (mkNode (parent nd) (rank nd) (nsize nd + k))).
Qed.
Lemma incr_rank_emb ns i : (forall nd, nth_error ns i = Some nd -> Z.of_nat (rank nd) + 1 < 2 ^ 31) ->
  incr_rank_int (map emb ns) (Z.of_nat i) = omap (map emb) (incr_rank ns i).
Proof.
  intros H. unfold incr_rank_int, incr_rank. rewrite iread_emb. unfold vread. destruct (nth_error ns i) as [nd|] eqn:E; [|reflexivity]. cbn [omap obind emb iparent irank isize].
  specialize (H nd eq_refl). rewrite chk_ok by lia. cbn [obind]. replace (Z.of_nat (rank nd) + 1) with (Z.of_nat (S (rank nd))) by lia.
  exact (iwrite_emb ns i (mkNode (parent nd) (S (rank nd)) (nsize nd))).
Qed.

Definition emb2 (p : dset * nat) : iset * Z := (embs (fst p), Z.of_nat (snd p)).
Lemma int_size_emb s : Z.of_nat (length (nodes s)) < 2 ^ 31 -> int_size (embs s) = Z.of_nat (length (nodes s)).
Proof. intros H. unfold int_size, embs. cbn [inodes]. rewrite map_length. apply to_int_ok. lia. Qed.

Lemma find_emb s n : Z.of_nat (length (nodes s)) < 2 ^ 31 -> find_int (embs s) n = omap emb2 (find s n).
Proof.
  intros H. unfold find_int, find, valid_id. rewrite int_size_emb by auto. destruct (Z.ltb_spec n 0); cbn [orb].
  - destruct (Z.leb_spec 0 n); [lia|]. reflexivity.
  - destruct (Z.leb_spec 0 n); [|lia]. cbn [andb]. destruct (Z.leb_spec (Z.of_nat (length (nodes s))) n); destruct (Z.ltb_spec n (Z.of_nat (length (nodes s)))); try lia; [reflexivity|].
    cbn [embs inodes inum]. rewrite map_length. assert (En : n = Z.of_nat (Z.to_nat n)) by lia. remember (Z.to_nat n) as k. subst n. rewrite walk_emb. destruct (walk _ (nodes s) k) as [r| | |]; try reflexivity.
    cbn [omap obind]. rewrite set_parent_emb. destruct (set_parent (nodes s) k r); reflexivity.
Qed.

Lemma join_emb s rf a b : Inv (nodes s) rf -> Z.of_nat (length (nodes s)) < 2 ^ 31 -> - 2 ^ 31 < set_num s <= 2 ^ 31 -> valid_id (nodes s) a = true -> valid_id (nodes s) b = true ->
  join_int (embs s) a b = omap emb2 (join s a b).
Proof.
  intros HI HL HN Ha Hb. unfold join_int, join. rewrite find_emb by auto. rewrite (find_valid _ _ _ HI Ha). cbn [omap obind emb2 fst snd].
  pose proof (valid_id_true _ _ Ha) as [_ Hla]. pose proof (valid_id_true _ _ Hb) as [_ Hlb]. pose proof (compress_Inv _ _ HI _ Hla) as HI1.
  rewrite find_emb by (cbn [nodes]; now rewrite length_compress). rewrite (find_valid _ rf b) by (cbn [nodes]; rewrite ?valid_compress; auto). cbn [omap obind emb2 fst snd nodes set_num].
  set (ns := compress (compress (nodes s) rf (Z.to_nat a)) rf (Z.to_nat b)). set (r1 := rf (Z.to_nat a)). set (r2 := rf (Z.to_nat b)).
  assert (HI2 : Inv ns rf) by (apply compress_Inv; auto; now rewrite length_compress).
  assert (Len : length ns = length (nodes s)) by (unfold ns; now rewrite !length_compress).
  rewrite eqb_of_nat. destruct (Nat.eqb_spec r1 r2) as [E|N].
  { cbn [omap obind emb2 fst snd]. rewrite int_size_emb by (cbn [nodes]; lia). reflexivity. }
  cbn [embs inum set_num inodes nodes]. rewrite chk_ok by lia. cbn [obind].
  destruct (rf_root _ _ HI2 (Z.to_nat a) ltac:(lia)) as (n1 & Hn1 & Hp1). destruct (rf_root _ _ HI2 (Z.to_nat b) ltac:(lia)) as (n2 & Hn2 & Hp2). fold r1 in Hn1, Hp1. fold r2 in Hn2, Hp2.
  assert (B : forall r nr, nth_error ns r = Some nr -> parent nr = r -> (rank nr < length ns)%nat /\ (nsize nr <= length ns)%nat).
  { intros r nr Hr Hp. split; [eapply rootrank_lt; eauto|]. rewrite (inv_size _ _ HI2 _ _ Hr Hp). apply count_le. }
  destruct (B _ _ Hn1 Hp1) as [K1 S1]. destruct (B _ _ Hn2 Hp2) as [K2 S2].
  rewrite !iread_emb. unfold vread. rewrite Hn1, Hn2. cbn [omap obind emb irank isize]. rewrite !ltb_of_nat.
  assert (A : forall w l nw nl ns1, w <> l -> nth_error ns w = Some nw -> nth_error ns l = Some nl -> (nsize nw <= length ns)%nat -> (nsize nl <= length ns)%nat ->
    set_parent ns l w = Ret ns1 -> add_size_int (map emb ns1) (Z.of_nat w) (Z.of_nat (nsize nl)) = omap (map emb) (add_size ns1 w (nsize nl))).
  { intros w l nw nl ns1 Hwl Hw Hl Sw Sl E. apply add_size_emb. intros nd Hnd. unfold set_parent, vread, vwrite in E. rewrite Hl in E. cbn [obind] in E. rewrite ?Hl in E. injection E as <-.
    rewrite nth_error_lset_neq in Hnd by auto. rewrite Hw in Hnd. injection Hnd as <-. lia. }
  destruct (Nat.ltb (rank n1) (rank n2)).
  - rewrite set_parent_emb. destruct (set_parent ns r1 r2) as [ns1| | |] eqn:E1; try reflexivity. cbn [omap obind]. rewrite (A r2 r1 n2 n1 ns1) by auto.
    destruct (add_size ns1 r2 (nsize n1)); reflexivity.
  - destruct (Nat.ltb (rank n2) (rank n1)).
    + rewrite set_parent_emb. destruct (set_parent ns r2 r1) as [ns1| | |] eqn:E1; try reflexivity. cbn [omap obind]. rewrite (A r1 r2 n1 n2 ns1) by auto.
      destruct (add_size ns1 r1 (nsize n2)); reflexivity.
    + rewrite set_parent_emb. destruct (set_parent ns r2 r1) as [ns1| | |] eqn:E1; try reflexivity. cbn [omap obind]. rewrite (A r1 r2 n1 n2 ns1) by auto.
      destruct (add_size ns1 r1 (nsize n2)) as [ns2| | |] eqn:E2; try reflexivity. cbn [omap obind]. rewrite incr_rank_emb; [destruct (incr_rank ns2 r1); reflexivity|].
      intros nd Hnd. pose proof (hang_eval ns r1 r2 n1 n2 N Hn1 Hn2) as Hh. rewrite E1 in Hh. cbn [obind] in Hh. rewrite E2 in Hh. injection Hh as ->.
      rewrite (hang_nth ns r1 r2 false n1 n2 r1 n1) in Hnd by auto. rewrite Nat.eqb_refl in Hnd. injection Hnd as <-. cbn [rank]. lia.
Qed.

Lemma parents_emb ns : forall id, Z.of_nat id + Z.of_nat (length ns) < 2 ^ 31 -> parents_int (map emb ns) (Z.of_nat id) = Ret (parents_from ns id).
Proof.
  induction ns as [|nd ns IH]; intros id H; [reflexivity|]. cbn [map parents_int parents_from length] in *. rewrite chk_ok by lia. cbn [obind].
  replace (Z.of_nat id + 1) with (Z.of_nat (S id)) by lia. rewrite IH by lia. cbn [obind emb iparent]. rewrite eqb_of_nat, Nat2Z.id. destruct (Nat.eqb (parent nd) id); reflexivity.
Qed.

Lemma step_emb s rf L m o s' v : Good s rf L m -> legal (Z.of_nat (length (nodes s))) [o] = true -> Z.of_nat (length (nodes s')) < 2 ^ 31 ->
  0 <= m -> m <= Z.of_nat (length (nodes s)) -> Z.of_nat (length (nodes s)) < 2 ^ 31 -> step s o = Ret (s', v) -> step_int (embs s) o = Ret (embs s', v).
Proof.
  intros HG Hl Hlen' Hm0 Hm Hlen E. pose proof (g_inv _ _ _ _ HG) as HI. pose proof (g_num _ _ _ _ HG) as HN.
  pose proof (count_le (length (nodes s)) (fun i => Nat.eqb (rf i) i)) as HC. destruct o as [n|n1 n2| |n| | |]; cbn [step step_int] in *.
  - rewrite find_emb by auto. destruct (find s n) as [[s1 r]| | |]; try discriminate. cbn in E |- *. injection E as <- <-. reflexivity.
  - cbn [legal] in Hl. rewrite andb_true_r in Hl. apply eqb_prop in Hl. rewrite !in_range_valid in Hl.
    assert (J : join_int (embs s) n1 n2 = omap emb2 (join s n1 n2)).
    { destruct (valid_id (nodes s) n1) eqn:V1.
      - apply (join_emb s rf); auto. lia.
      - unfold join_int, join. rewrite find_emb by auto. rewrite (find_invalid _ _ V1). cbn [omap obind emb2 fst snd]. rewrite find_emb by auto. rewrite (find_invalid s n2) by auto.
        cbn [omap obind emb2 fst snd]. rewrite eqb_of_nat, Nat.eqb_refl. cbn [omap obind emb2 fst snd]. now rewrite int_size_emb. }
    rewrite J. destruct (join s n1 n2) as [[s1 r]| | |]; try discriminate. cbn in E |- *. injection E as <- <-. reflexivity.
  - unfold makeSet_int, makeSet in *. injection E as <- <-. rewrite int_size_emb by auto. unfold embs. cbn [inodes inum nodes set_num]. rewrite map_app. reflexivity.
  - unfold set_size_int, set_size in *. rewrite find_emb by auto. destruct (find s n) as [[s1 r]| | |]; try discriminate. cbn [omap obind emb2 fst snd] in *. cbn [embs inodes].
    rewrite iread_emb. destruct (vread (nodes s1) r) as [nd| | |]; try discriminate. cbn in E |- *. injection E as <- <-. reflexivity.
  - injection E as <- <-. reflexivity.
  - injection E as <- <-. cbn [embs inodes]. rewrite map_length. reflexivity.
  - injection E as <- <-. cbn [embs inodes]. change 0 with (Z.of_nat 0). rewrite (parents_emb (nodes s) 0) by lia. reflexivity.
Qed.

Lemma run_emb h : forall s rf L m, Good s rf L m -> legal (Z.of_nat (length (nodes s))) h = true -> 0 <= m <= Z.of_nat (length (nodes s)) ->
  elements (Z.of_nat (length (nodes s))) h < 2 ^ 31 -> exists s' vs, run s h = Ret (s', vs) /\ run_int (embs s) h = Ret (embs s', vs).
Proof.
  induction h as [|o h IH]; intros s rf L m HG Hleg Hm He; [exists s, []; split; reflexivity|].
  change (o :: h) with ([o] ++ h) in Hleg, He. rewrite legal_app in Hleg. apply andb_true_iff in Hleg as [Hl1 Hl2]. rewrite elements_app in He.
  destruct (step_Good s rf L m o HG Hl1) as (s1 & v & rf1 & Hs & HG1 & Hlen1). rewrite <- Hlen1 in Hl2, He.
  pose proof (elements_ge (Z.of_nat (length (nodes s1))) h) as G1. pose proof (elements_ge (Z.of_nat (length (nodes s))) [o]) as G2.
  assert (M1 : 0 <= m + makes [o] <= Z.of_nat (length (nodes s1))) by (rewrite Hlen1; destruct o; cbn [makes elements]; lia).
  destruct (IH s1 rf1 _ _ HG1 Hl2 M1 He) as (s2 & vs & Hr & Hr').
  exists s2, (v :: vs). cbn [run run_int]. rewrite Hs. rewrite (step_emb s rf L m o s1 v) by (auto; lia). cbn [obind]. rewrite Hr, Hr'. split; reflexivity.
Qed.

Lemma init_emb n : initSets_int n = embs (initSets n).
Proof. unfold initSets_int, embs, initSets, fresh_nodes. cbn [nodes set_num]. rewrite map_map. reflexivity. Qed.

Lemma int_exact_lemma n h : 0 <= n -> legal n h = true -> elements n h < 2 ^ 31 -> exists s t vs, run (initSets n) h = Ret (s, vs) /\ run_int (initSets_int n) h = Ret (t, vs) /\
  inum t = setNum s /\ length (inodes t) = nodeNum s.
Proof.
  intros Hn Hl He. assert (Hlen : Z.of_nat (length (nodes (initSets n))) = n) by (cbn [initSets nodes]; rewrite length_fresh; lia).
  destruct (run_emb h (initSets n) _ _ _ (init_Good n Hn)) as (s & vs & H1 & H2); rewrite ?Hlen; auto; [lia|].
  exists s, (embs s), vs. rewrite init_emb. repeat split; auto. cbn [embs inodes]. apply map_length.
Qed.

Lemma int_state n h : 0 <= n -> legal n h = true -> elements n h < 2 ^ 31 -> exists s vs, run (initSets n) h = Ret (s, vs) /\ run_int (initSets_int n) h = Ret (embs s, vs) /\
  Z.of_nat (length (nodes s)) < 2 ^ 31.
Proof.
  intros Hn Hl He. assert (Hlen : Z.of_nat (length (nodes (initSets n))) = n) by (cbn [initSets nodes]; rewrite length_fresh; lia).
  destruct (run_emb h (initSets n) _ _ _ (init_Good n Hn)) as (s & vs & H1 & H2); rewrite ?Hlen; auto; [lia|].
  exists s, vs. rewrite init_emb. split; [exact H1|]. split; [exact H2|].
  destruct (run_Good n h Hn Hl) as (s' & vs' & rf' & Hr & _ & Hl').
  rewrite H1 in Hr. injection Hr as <- <-. lia.
Qed.

Lemma int_connectivity_lemma n h : 0 <= n -> legal n h = true -> elements n h < 2 ^ 31 -> exists t vs, run_int (initSets_int n) h = Ret (t, vs) /\
  forall a b, 0 <= a < elements n h -> 0 <= b < elements n h -> exists t1 t2 ra rb, find_int t a = Ret (t1, ra) /\ find_int t1 b = Ret (t2, rb) /\
    (ra = rb <-> connected n h a b) /\ 0 <= ra < elements n h /\ connected n h a ra.
Proof.
  intros Hn Hl He. destruct (int_state n h Hn Hl He) as (s & vs & H1 & H2 & H3). exists (embs s), vs. split; [exact H2|]. intros a b Ha Hb.
  destruct (find_connected_lemma n h Hn Hl) as (s' & vs' & Hr & F). rewrite H1 in Hr. injection Hr as <- <-. destruct (F a b Ha Hb) as (s1 & s2 & s3 & ra & rb & F1 & F2 & Iff & L & C & _).
  assert (L1 : length (nodes s1) = length (nodes s)).
  { clear - F1. unfold find in F1. destruct (valid_id (nodes s) a); [|injection F1 as <- <-; reflexivity]. destruct (walk _ _ _) as [r| | |]; try discriminate. cbn [obind] in F1.
    unfold set_parent, vread, vwrite in F1. destruct (nth_error (nodes s) (Z.to_nat a)) eqn:E; [|discriminate]. cbn [obind] in F1. injection F1 as <- <-. cbn [nodes]. apply length_lset. }
  exists (embs s1), (embs s2), (Z.of_nat ra), (Z.of_nat rb). rewrite find_emb, F1 by auto. rewrite find_emb, F2 by (rewrite L1; auto).
  split; [reflexivity|]. split; [reflexivity|]. split; [|split; [lia|exact C]]. rewrite <- Iff. split; [apply Nat2Z.inj|congruence].
Qed.

(** At 2^31 nodes. *)
Lemma full_lemma t : Z.of_nat (length (inodes t)) = 2 ^ 31 ->
  (forall a, - 2 ^ 31 <= a < 2 ^ 31 -> find_int t a = Ret (t, - 2 ^ 31)) /\
  (forall a b, - 2 ^ 31 <= a < 2 ^ 31 -> - 2 ^ 31 <= b < 2 ^ 31 -> join_int t a b = Ret (t, - 2 ^ 31)) /\
  (forall a, - 2 ^ 31 <= a < 2 ^ 31 -> set_size_int t a = UB) /\ step_int t OParents = UB.
Proof.
  intros H. assert (S : int_size t = - 2 ^ 31) by (unfold int_size; rewrite H; reflexivity).
  assert (F : forall a, - 2 ^ 31 <= a < 2 ^ 31 -> find_int t a = Ret (t, - 2 ^ 31)).
  { intros a Ha. unfold find_int. rewrite S. destruct (Z.leb_spec (- 2 ^ 31) a); [|lia]. rewrite orb_true_r. reflexivity. }
  split; [exact F|]. split; [|split].
  - intros a b Ha Hb. unfold join_int. rewrite (F a Ha). cbn [obind]. rewrite (F b Hb). cbn [obind]. rewrite Z.eqb_refl, S. reflexivity.
  - intros a Ha. unfold set_size_int. rewrite (F a Ha). reflexivity.
  - cbn [step_int]. assert (P : forall ns id, 0 <= id -> 2 ^ 31 <= id + Z.of_nat (length ns) -> id < 2 ^ 31 -> parents_int ns id = UB).
    { induction ns as [|nd ns IH]; intros id H0 H1 H2; cbn [length] in H1; [lia|]. cbn [parents_int]. destruct (Z.eq_dec id (2 ^ 31 - 1)) as [->|Ne]; [reflexivity|].
      rewrite chk_ok by lia. cbn [obind]. rewrite IH by lia. reflexivity. }
    rewrite P; [reflexivity|lia..].
Qed.
Lemma make_last s : Z.of_nat (length (inodes s)) = 2 ^ 31 - 1 ->
  exists t, run_int s [OMake] = Ret (t, [VId (2 ^ 31 - 1)]) /\ Z.of_nat (length (inodes t)) = 2 ^ 31.
Proof.
  intros L. exists (mkISet (inodes s ++ [mkINode (int_size s) 0 1]) (inum s)). split.
  - cbn [run_int step_int]. unfold makeSet_int. cbn [obind]. assert (E : int_size s = 2 ^ 31 - 1) by (unfold int_size; rewrite L; reflexivity). rewrite E. reflexivity.
  - cbn [inodes]. rewrite app_length. cbn [length]. lia.
Qed.
Lemma length_init n : 0 <= n -> Z.of_nat (length (inodes (initSets_int n))) = n.
Proof. intros H. unfold initSets_int. cbn [inodes]. rewrite map_length, seq_length. apply Z2Nat.id. exact H. Qed.
Lemma full_reached n : n = 2 ^ 31 - 1 -> exists t, run_int (initSets_int n) [OMake] = Ret (t, [VId n]) /\ Z.of_nat (length (inodes t)) = 2 ^ 31.
Proof. intros E. assert (H : 0 <= n) by lia. destruct (make_last (initSets_int n)) as (t & H1 & H2); [rewrite length_init; auto|]. exists t. rewrite <- E in H1. auto. Qed.
Lemma full_refuted_lemma : exists n h t vs, 0 <= n < 2 ^ 31 /\ legal n h = true /\ run_int (initSets_int n) h = Ret (t, vs) /\
  (forall a, 0 <= a < 2 ^ 31 -> 0 <= a < elements n h /\ find_int t a = Ret (t, - 2 ^ 31) /\ set_size_int t a = UB) /\
  (forall a b, 0 <= a < 2 ^ 31 -> 0 <= b < 2 ^ 31 -> join_int t a b = Ret (t, - 2 ^ 31)) /\ step_int t OParents = UB.
Proof.
  destruct (full_reached _ eq_refl) as (t & R & L). destruct (full_lemma t L) as (F & J & S & P). exists (2 ^ 31 - 1), [OMake], t, [VId (2 ^ 31 - 1)].
  split; [lia|]. split; [reflexivity|]. split; [exact R|]. split; [|split; [|exact P]].
  - intros a Ha. split; [cbn [elements]; lia|]. split; [apply F|apply S]; lia.
  - intros a b Ha Hb. apply J; lia.
Qed.
