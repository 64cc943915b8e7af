(** * Proofs about the peak finder. *)
From Coq Require Import List ZArith Bool Lia Permutation Sorting.Sorted.
From Verif Require Import Base BaseLemmas IntervalModel IntervalSpec IntervalProofs MinMaxHeapModel MinMaxHeapSpec MinMaxHeapTree MinMaxHeapProofs MinMaxHeapOps MinMaxHeapRun
  PeakModel PeakSpec.
Import ListNotations.
Open Scope Z_scope.
Ltac Zify.zify_post_hook ::= idtac.

(** ** Intersections with the domain *)
Lemma meet_dims m1 d1 : corners_ok m1 d1 -> forall a0 d0, length a0 = length d1 -> length d0 = length d1 ->
  let mn := map2 Z.max a0 m1 in
  let mx := map (fun x => x - 1) (map2 Z.min (map2 Z.add a0 d0) (map2 Z.add m1 d1)) in
  let dm := map (fun d => if d <? 0 then 0 else d) (map2 (fun a b => b - a + 1) mn mx) in
  length mn = length d1 /\ length dm = length d1 /\ Forall (fun d => 0 <= d) dm /\
  (Forall (fun d => 0 < d) dm -> Forall2 (fun m d => - 2 ^ 31 <= m /\ m + d - 1 < 2 ^ 31) mn dm) /\ 0 <= vol dm <= vol d1 /\ 0 < vol d1.
Proof.
  induction 1 as [|m d mn dm Hd Hm Hmd Hc IH]; intros [|a a0] [|e d0] H1 H2; cbn [length] in H1, H2; try lia.
  - cbn. repeat split; auto; try lia.
  - cbn [map2 map]. cbv zeta in IH. destruct (IH a0 d0) as (L1 & L2 & Hnn & Hco & Hv & Hv0); try lia. clear IH.
    set (mn' := map2 Z.max a0 mn) in *. set (dm' := map _ (map2 (fun a1 b => b - a1 + 1) mn' _)) in *.
    set (k := Z.min (a + e) (m + d) - 1 - Z.max a m + 1). cbn [length vol]. 
    assert (Hk : (if k <? 0 then 0 else k) = Z.max 0 k) by (destruct (Z.ltb_spec k 0); lia). rewrite Hk.
    assert (Hkd : 0 <= Z.max 0 k <= d) by (unfold k; lia).
    split; [lia|]. split; [lia|]. split; [constructor; [lia|auto]|]. split; [|split].
    + intros HF. inversion HF as [|? ? HF1 HF2]; subst. constructor; [|auto]. unfold k in *. lia.
    + split; [apply Z.mul_nonneg_nonneg; lia|]. apply Z.mul_le_mono_nonneg; lia.
    + apply Z.mul_pos_pos; lia.
Qed.

Lemma iterate_meet a dom : int_box (imin dom) (idim dom) -> length (imin a) = length (idim dom) -> length (idim a) = length (idim dom) ->
  Forall (fun d => 0 < d) (idim a) ->
  exists l, iterate_raster (intersect a dom) = Ret l /\ NoDup l /\
    forall x, In x l <-> length x = length (idim dom) /\ inside a x = true /\ inside dom x = true.
Proof.
  intros [Hc Hv] L1 L2 Hp.
  assert (Ld : length (imin dom) = length (idim dom)) by (clear - Hc; induction Hc; cbn [length]; congruence).
  assert (Ea : empty a = false) by (apply empty_spec; auto).
  assert (Hpd : Forall (fun d => 0 < d) (idim dom)) by (clear - Hc; induction Hc; constructor; auto).
  assert (Ed : empty dom = false) by (apply empty_spec; auto).
  destruct (meet_dims _ _ Hc (imin a) (idim a) L1 L2) as (M1 & M2 & M3 & M4 & M5 & M6).
  assert (Hsem : forall x, length x = length (imin a) -> inside (intersect a dom) x = inside a x && inside dom x) by (intros x Hx; apply intersect_lemma; congruence).
  set (I := intersect a dom) in *.
  assert (EI : I = mkI (map2 Z.max (imin a) (imin dom)) (map (fun d => if d <? 0 then 0 else d) (map2 (fun a b => b - a + 1) (map2 Z.max (imin a) (imin dom)) (map (fun x => x - 1) (map2 Z.min (map2 Z.add (imin a) (idim a)) (map2 Z.add (imin dom) (idim dom))))))).  
  { unfold I, intersect. rewrite Ea, Ed. reflexivity. }
  assert (LI : length (imin I) = length (idim I)) by (rewrite EI; cbn [imin idim]; congruence).
  assert (LI2 : length (idim I) = length (idim dom)) by (rewrite EI; cbn [imin idim]; congruence).
  assert (NN : nonneg_dims I) by (unfold nonneg_dims; rewrite EI; exact M3).
  assert (VI : vol (idim I) < 2 ^ 31) by (rewrite EI; cbn [idim]; lia).
  destruct (empty I) eqn:EE.
  - exists []. split; [|split; [constructor|]].
    + unfold iterate_raster, iterate. rewrite size_vol by (auto; lia). rewrite (empty_vol _ NN EE). unfold it_make. rewrite EE. reflexivity.
    + intros x. split; [intros []|]. intros (Hx & H1 & H2). exfalso. pose proof (inside_empty I x LI ltac:(congruence) EE) as H3. rewrite Hsem in H3 by congruence. rewrite H1, H2 in H3. discriminate.
  - apply empty_spec in EE. assert (Hco : int_corners I) by (unfold int_corners; rewrite EI in *; cbn [imin idim] in *; apply M4; exact EE).
    destruct (iterate_lemma I Hco NN VI) as [(l & El & Hnd & Hin & _) _]. exists l. split; [auto|]. split; [auto|]. intros x. rewrite Hin, LI2. split.
    + intros [Hx Hi]. rewrite Hsem in Hi by congruence. apply andb_true_iff in Hi as [? ?]. auto.
    + intros (Hx & H1 & H2). split; [auto|]. rewrite Hsem by congruence. now rewrite H1, H2.
Qed.

(** ** The increment between two cells *)
Lemma incr_loop_spec prev : forall curr d dm im, length prev = length curr ->
  let r := incr_loop d prev curr dm im in
  (fst r < Nat.max (S dm) (d + length prev))%nat /\ (im <> 0 \/ prev <> curr -> snd r <> 0).
Proof.
  induction prev as [|p prev IH]; intros [|c curr] d dm im Hl; cbn [length incr_loop] in *; try lia.
  - cbn [fst snd]. split; [lia|]. intros [H|H]; congruence.
  - destruct (Z.ltb_spec (Z.abs im) (Z.abs (c - p))) as [H|H].
    + destruct (IH curr (S d) d (c - p) ltac:(lia)) as [H1 H2]. split; [lia|]. intros _. apply H2. left. lia.
    + destruct (IH curr (S d) dm im ltac:(lia)) as [H1 H2]. split; [lia|]. intros Hne. apply H2.
      destruct (Z.eq_dec im 0) as [->|]; [|auto]. right. destruct Hne as [Hne|Hne]; [congruence|]. assert (c = p) by lia. congruence.
Qed.
Lemma findIncrement_spec prev curr : length prev = length curr -> prev <> curr ->
  (fst (findIncrement prev curr) < length prev)%nat /\ snd (findIncrement prev curr) <> 0.
Proof.
  intros Hl Hne. destruct (incr_loop_spec prev curr 0 0 0 Hl) as [H1 H2]. split; [|apply H2; auto].
  destruct prev; [destruct curr; [congruence|discriminate]|]. cbn [length] in *. unfold findIncrement. lia.
Qed.

Section P.
Context {V : Type}.
Variable comp : V -> V -> bool.
Variable val : list Z -> V.
Notation icmp := (icmp comp val).

(** ** Totality, any dimension, any comparator *)
Lemma push_all_total l : forall h, exists h', push_all comp val h l = Ret h' /\ Permutation (l ++ h) h'.
Proof.
  induction l as [|x l IH]; intros h; cbn [push_all]; [exists h; auto|].
  destruct (push_total x icmp h x) as (h1 & E1 & P1). rewrite E1. cbn [obind]. destruct (IH h1) as (h' & E & P). exists h'. split; [auto|].
  rewrite <- P, <- P1. cbn [app]. apply Permutation_middle.
Qed.

Lemma purge_total win f : forall h, (length h < f)%nat -> exists h' out, purge comp val f win h = Ret h' /\ Permutation h (out ++ h') /\
  Forall (fun x => inside win x = false) out /\ (forall t, top h' = Ret t -> inside win t = true).
Proof.
  induction f as [|f IH]; intros h Hl; [lia|]. cbn [purge]. destruct h as [|x h0] eqn:Eh.
  - exists [], []. split; [auto|]. split; [auto|]. split; [constructor|]. intros t Ht. discriminate.
  - rewrite <- Eh in *. assert (Hne : h <> []) by (subst; discriminate). destruct (popTop_total x icmp h Hne) as (h1 & E1 & P1).
    rewrite (top_total x h Hne). cbn [obind]. destruct (inside win (nth 0 h x)) eqn:Ei.
    + exists h, []. split; [auto|]. split; [auto|]. split; [constructor|]. intros t Ht. rewrite (top_total x h Hne) in Ht. congruence.
    + rewrite E1. cbn [obind]. assert (Hl1 : (length h1 < f)%nat). { apply Permutation_length in P1. cbn [length] in P1. lia. }
      destruct (IH h1 Hl1) as (h' & out & E & P & HF & HT). exists h', (nth 0 h x :: out). split; [auto|]. split; [|split; [constructor; auto|auto]].
      eapply Permutation_trans; [exact P1|]. cbn [app]. now apply perm_skip.
Qed.

Lemma is_peak_total fm h cur : exists b, is_peak comp val fm h cur = Ret b /\ (b = true -> passes comp val fm cur).
Proof.
  unfold is_peak. assert (Hpass : (match fm with None => true | Some vmin => comp (val cur) vmin end) = true <-> passes comp val fm cur) by (unfold passes; destruct fm; [reflexivity|split; auto]).
  destruct (match fm with None => true | Some vmin => comp (val cur) vmin end); [|exists false; split; [reflexivity|discriminate]].
  destruct h as [|x h0] eqn:Eh; [exists false; split; [reflexivity|discriminate]|]. rewrite <- Eh. assert (Hne : h <> []) by (subst; discriminate).
  rewrite (top_total x h Hne). cbn [obind]. destruct (comp _ _); [exists false; split; [reflexivity|discriminate]|].
  destruct (next_total icmp h Hne) as (nt & _ & -> & _). cbn [obind]. eexists. split; [reflexivity|]. intros _. now apply Hpass.
Qed.

Lemma drain_total f : forall h, (length h <= f)%nat -> exists out, drain comp val f h = Ret out /\ Permutation h out.
Proof.
  induction f as [|f IH]; intros h Hl; destruct h as [|x h0] eqn:Eh; cbn [drain length] in *; try lia; [exists []; auto|exists []; auto|].
  rewrite <- Eh in *. assert (Hne : h <> []) by (subst; discriminate). destruct (popTop_total x icmp h Hne) as (h1 & E1 & P1).
  replace (length h0) with (length h - 1)%nat in Hl by (subst; cbn; lia).
  rewrite (top_total x h Hne), E1. cbn [obind]. assert (Hl1 : (length h1 <= f)%nat) by (apply Permutation_length in P1; cbn [length] in P1; lia).
  destruct (IH h1 Hl1) as (out & -> & P). cbn [obind]. eexists. split; [reflexivity|]. eapply Permutation_trans; [exact P1|]. now apply perm_skip.
Qed.

Definition win_ok (dim : nat) (win : interval) : Prop := length (imin win) = dim /\ length (idim win) = dim /\ Forall (fun d => 0 < d) (idim win).

Lemma move_ok dim win d incr : win_ok dim win -> (d < dim)%nat -> incr <> 0 ->
  exists st win', stacked win d incr = Ret st /\ translate win d incr = Ret win' /\ win_ok dim st /\ win_ok dim win'.
Proof.
  intros (L1 & L2 & HF) Hd Hi. unfold stacked, translate. rewrite L1. destruct (Nat.ltb_spec d dim); [|lia].
  destruct (nth_error_ex (imin win) d ltac:(lia)) as [m Em]. destruct (nth_error_ex (idim win) d ltac:(lia)) as [e Ee].
  unfold vread. rewrite Em, Ee. cbn [obind]. eexists _, _. split; [reflexivity|]. split; [reflexivity|].
  assert (HL : forall (l : list Z) v, Forall (fun d => 0 < d) l -> 0 < v -> Forall (fun d => 0 < d) (lset l d v)).
  { clear. intros l v Hl Hv. revert d. induction Hl as [|x l Hx Hl IH]; intros [|d]; cbn [lset]; constructor; auto. }
  split.
  - destruct (Z.leb_spec 0 incr); unfold win_ok; cbn [imin idim]; rewrite !length_lset; repeat split; auto; apply HL; auto; lia.
  - unfold win_ok. cbn [imin idim]. rewrite length_lset. auto.
Qed.

Lemma scan_total dom fm : int_box (imin dom) (idim dom) -> forall cells prev win items maxima,
  NoDup (prev :: cells) -> Forall (fun x => length x = length (idim dom)) (prev :: cells) -> win_ok (length (idim dom)) win ->
  exists maxima' sel, scan comp val dom fm cells prev win items maxima = Ret maxima' /\ Permutation (sel ++ maxima) maxima' /\
    NoDup sel /\ forall x, In x sel -> In x cells /\ passes comp val fm x.
Proof.
  intros Hb. induction cells as [|cur rest IH]; intros prev win items maxima Hnd Hlen Hw; cbn [scan].
  - exists maxima, []. split; [auto|]. split; [auto|]. split; [constructor|intros x []].
  - inversion Hlen as [|? ? Hl1 Hl2]; subst. inversion Hl2 as [|? ? Hl3 Hl4]; subst. inversion Hnd as [|? ? Hn1 Hn2]; subst.
    destruct (findIncrement_spec prev cur) as [F1 F2]; [congruence|intros ->; apply Hn1; now left|].
    destruct (findIncrement prev cur) as [d incr]. cbn [fst snd] in F1, F2. rewrite Hl1 in F1.
    destruct (move_ok _ win d incr Hw F1 F2) as (st & win' & E1 & E2 & (S1 & S2 & S3) & W'). rewrite E1. cbn [obind].
    destruct (iterate_meet st dom Hb S1 S2 S3) as (l & E3 & _ & _). rewrite E3. cbn [obind].
    destruct (push_all_total l items) as (items1 & E4 & P4). rewrite E4. cbn [obind]. rewrite E2. cbn [obind].
    destruct (purge_total win' (S (length items1)) items1 ltac:(lia)) as (items2 & out & E5 & _ & _ & _). rewrite E5. cbn [obind].
    destruct (is_peak_total fm items2 cur) as (b & E6 & Hp). rewrite E6. cbn [obind].
    destruct b.
    + destruct (push_total cur icmp maxima cur) as (m1 & E7 & P7). rewrite E7. cbn [obind].
      destruct (IH cur win' items2 m1 Hn2 Hl2 W') as (m2 & sel & E8 & P8 & N8 & H8). exists m2, (cur :: sel). split; [exact E8|]. split; [|split].
      * rewrite <- P8, <- P7. cbn [app]. apply Permutation_middle.
      * constructor; [|auto]. intros Hin. apply H8 in Hin as [Hin _]. now inversion Hn2.
      * intros x [<-|Hx]; [split; [now left|auto]|]. apply H8 in Hx as [Hx1 Hx2]. split; [now right|auto].
    + cbn [obind]. destruct (IH cur win' items2 maxima Hn2 Hl2 W') as (m2 & sel & E8 & P8 & N8 & H8). exists m2, sel. split; [exact E8|]. split; [auto|]. split; [auto|].
      intros x Hx. apply H8 in Hx as [Hx1 Hx2]. split; [now right|auto].
Qed.

Lemma initCentered_ok c w dim : length c = dim -> length w = dim -> Forall (fun x => 0 <= x) w -> win_ok dim (initCentered c w).
Proof.
  intros Hc Hw HF. subst dim. unfold win_ok, initCentered. cbn [imin idim]. revert c Hw. induction HF as [|x w Hx HF IH]; intros [|y c] H; cbn [length map2] in *; try lia; [repeat split; auto|].
  destruct (IH c) as (H1 & H2 & H3); [lia|]. repeat split; [lia|lia|]. constructor; [lia|auto].
Qed.

Lemma detect_safe_lemma dom iwin fm : int_box (imin dom) (idim dom) -> length iwin = length (idim dom) -> Forall (fun x => 0 <= x) iwin ->
  exists out, detect comp val dom iwin fm = Ret out /\ NoDup out /\
    forall x, In x out -> in_box (imin dom) (idim dom) x /\ x <> imin dom /\ passes comp val fm x.
Proof.
  intros Hb Lw Hw. pose proof Hb as [Hc Hv].
  assert (Ld : length (imin dom) = length (idim dom)) by (clear - Hc; induction Hc; cbn [length]; congruence).
  assert (Hpd : pos_dims (idim dom)) by (clear - Hc; unfold pos_dims; induction Hc; constructor; auto).
  assert (Hnn : nonneg_dims dom) by (unfold nonneg_dims; eapply Forall_impl; [|exact Hpd]; cbn; intros; lia).
  pose proof (vol_pos _ Hpd) as Hvp.
  destruct (iterate_gen boust_getIndices dom (fun p => map2 Z.add (bz (idim dom) p) (imin dom)) Ld Hnn Hv) as (cells & Ec & Nc & Hin & _ & Hmap).
  { intros _. split; [|split; [|split]].
    - intros p Hp. apply boust_pure; auto. lia.
    - intros p Hp. now apply bz_in_box.
    - intros p q Hp Hq E. apply (bz_inj _ Hpd); auto. apply (map2_add_inj _ _ (imin dom)); auto; rewrite bz_length; auto.
    - intros x Hx. apply bz_surj. exact Hx. }
  unfold detect. unfold iterate_boustrophedon. rewrite Ec. cbn [obind]. specialize (Hmap Hpd).
  destruct (Z.to_nat (vol (idim dom))) as [|n] eqn:En; [lia|]. rewrite zseq_S in Hmap. cbn [map] in Hmap.
  assert (E0 : map2 Z.add (bz (idim dom) 0) (imin dom) = imin dom).
  { clear - Ld Hpd. revert Ld. generalize (imin dom). induction Hpd as [|d dm Hd Hdm IH]; intros [|m mn] L; cbn [length] in L; try lia; [reflexivity|]. cbn [bz map2].
    rewrite Zmod_0_l, Zdiv_0_l. assert (Eh : hdd dm 0 = 0) by (destruct dm; [reflexivity|apply Zmod_0_l]). rewrite Eh. cbn [Z.even]. f_equal. apply IH. lia. }
  rewrite E0 in Hmap. set (rest := map _ (zseq (0 + 1) n)) in *. rewrite Hmap.
  assert (Hcell : forall x, In x cells -> length x = length (idim dom) /\ in_box (imin dom) (idim dom) x).
  { intros x Hx. apply Hin in Hx as [H1 H2]. split; [auto|]. now apply inside_in_box in H2. }
  pose proof (initCentered_ok (imin dom) iwin _ Ld Lw Hw) as W. destruct W as (W1 & W2 & W3).
  destruct (iterate_meet _ dom Hb W1 W2 W3) as (l & E3 & _ & _). rewrite E3. cbn [obind].
  destruct (push_all_total l []) as (items1 & E4 & _). rewrite E4. cbn [obind].
  destruct (scan_total dom fm Hb rest (imin dom) (initCentered (imin dom) iwin) items1 []) as (mx & sel & E5 & P5 & N5 & H5).
  { now rewrite <- Hmap. }
  { rewrite <- Hmap. apply Forall_forall. intros x Hx. now apply Hcell. }
  { split; auto. }
  rewrite E5. cbn [obind]. destruct (drain_total (length mx) mx ltac:(lia)) as (out & E6 & P6). exists out. split; [exact E6|].
  assert (P : Permutation sel out) by (rewrite app_nil_r in P5; now transitivity mx).
  split; [eapply Permutation_NoDup; eauto|]. intros x Hx. apply (Permutation_in _ (Permutation_sym P)) in Hx. apply H5 in Hx as [Hx1 Hx2]. split; [|split; [|auto]].
  - apply Hcell. rewrite Hmap. now right.
  - intros ->. rewrite Hmap in Nc. now inversion Nc.
Qed.

End P.
