(** * The peak finder on a one-dimensional domain. *)
From Coq Require Import List ZArith Bool Lia Permutation Sorting.Sorted.
From Verif Require Import Base BaseLemmas IntervalModel IntervalSpec IntervalProofs MinMaxHeapModel MinMaxHeapSpec MinMaxHeapTree MinMaxHeapProofs MinMaxHeapOps MinMaxHeapRun
  PeakModel PeakSpec PeakProofs.
Import ListNotations.
Open Scope Z_scope.
Ltac Zify.zify_post_hook ::= idtac.

(** nextTop never reads the root when there are two items. *)
Lemma nextTop_pos {A} (cmp : A -> A -> bool) (x : A) h : (2 <= length h)%nat -> exists k, (0 < k < length h)%nat /\ nextTop cmp h = Ret (nth k h x).
Proof.
  intros Hl. unfold nextTop. destruct h as [|a [|b t]] eqn:Eh; cbn [length] in Hl; try lia. rewrite <- Eh in *.
  assert (Hl2 : (2 <= length h)%nat) by (subst; cbn [length]; lia).
  destruct (childMin_spec x cmp h 0) as (c & -> & Hc0 & Hcp & Hcl & _). specialize (Hcl ltac:(lia)).
  destruct (grandchildMin_spec x cmp h 0) as (g & -> & Hg2 & Hgp & Hgl & _). cbn [obind].
  destruct (Nat.ltb_spec (length h) 4).
  - exists c. split; [lia|]. now rewrite (vread_ok x) by lia.
  - specialize (Hgl ltac:(lia)). exists g. split; [lia|]. now rewrite (vread_ok x) by lia.
Qed.

Lemma NoDup_nth_0 {A} (x : A) h k : NoDup h -> (0 < k < length h)%nat -> nth k h x <> nth 0 h x.
Proof. intros Hnd Hk E. apply (proj1 (NoDup_nth h x) Hnd) in E; lia. Qed.

Section L.
Context {V : Type}.
Variable comp : V -> V -> bool.
Variable val : list Z -> V.
Hypothesis SW : StrictWeak comp.
Notation icmp := (icmp comp val).

Lemma icmp_sw : StrictWeak icmp.
Proof.
  unfold PeakModel.icmp. destruct SW as [H1 H2 H3]. split; intros; eauto.
Qed.
(** "not better than" is transitive. *)
Lemma nb_trans x y z : icmp x y = false -> icmp y z = false -> icmp x z = false.
Proof. intros H1 H2. pose proof (leo_trans icmp icmp_sw z y x) as H. unfold leo in H. auto. Qed.

Variables a n w : Z.
Hypothesis Hn : 0 < n < 2 ^ 31.
Hypothesis Ha : - 2 ^ 31 <= a.
Hypothesis Han : a + n - 1 < 2 ^ 31.
Hypothesis Hw : 0 <= w.
Hypothesis RT : rare_ties comp val a n.

Definition dcell (x : list Z) : Prop := exists i, x = [i] /\ a <= i < a + n.

Lemma filter_three {A} (f : A -> bool) h : NoDup h -> (length (filter f h) <= 2)%nat \/
  exists x y z, In x h /\ In y h /\ In z h /\ x <> y /\ y <> z /\ x <> z /\ f x = true /\ f y = true /\ f z = true.
Proof.
  intros Hnd. pose proof (NoDup_filter f Hnd) as Hf. assert (Hin : forall u, In u (filter f h) -> In u h /\ f u = true) by (intros u; apply filter_In).
  destruct (filter f h) as [|x [|y [|z l]]]; cbn [length]; try (left; lia). right. exists x, y, z.
  inversion Hf as [|? ? N1 Hf1]; subst. inversion Hf1 as [|? ? N2 _]; subst.
  destruct (Hin x) as [X1 X2]; [now left|]. destruct (Hin y) as [Y1 Y2]; [cbn; auto|]. destruct (Hin z) as [Z1 Z2]; [cbn; auto|].
  repeat (split; [auto; try (intros ->; cbn in N1, N2; tauto)|]). auto.
Qed.

(** A duplicate-free heap of cells suits popTop. *)
Lemma tame_cells h : NoDup h -> Forall dcell h -> tame icmp h.
Proof.
  intros Hnd HF v. unfold copies. destruct (filter_three (fun x => negb (icmp v x) && negb (icmp x v)) h Hnd) as [H|(x & y & z & Hx & Hy & Hz & N1 & N2 & N3 & Ex & Ey & Ez)]; [now left|right].
  rewrite Forall_forall in HF. destruct (HF x Hx) as (i & -> & Hi). destruct (HF y Hy) as (j & -> & Hj). destruct (HF z Hz) as (k & -> & Hk).
  apply andb_true_iff in Ex as [Ex1 Ex2]. apply andb_true_iff in Ey as [Ey1 Ey2]. apply andb_true_iff in Ez as [Ez1 Ez2]. apply negb_true_iff in Ex1, Ex2, Ey1, Ey2, Ez1, Ez2.
  intros u Hu. destruct (HF u Hu) as (l & -> & Hl).
  assert (H : ~ better comp val [i] [l]).
  { apply (RT i j k); auto; try congruence; split; eapply nb_trans; eauto. }
  unfold better in H. apply not_true_is_false in H. eapply nb_trans; [exact Ex1|]. exact H.
Qed.

(** A heap of cells in good shape. *)
Definition good (h : list (list Z)) : Prop := hok icmp h /\ NoDup h /\ Forall dcell h.

Lemma good_top h t : good h -> top h = Ret t -> In t h /\ forall x, In x h -> icmp x t = false.
Proof.
  intros (Hk & _) Ht. assert (Hne : h <> []) by (intros ->; discriminate). destruct (hok_extremes icmp icmp_sw h Hk Hne) as [(x & Ex & H1 & H2) _].
  replace t with x by congruence. auto.
Qed.
Lemma good_push h x : good h -> dcell x -> ~ In x h -> exists h', push icmp h x = Ret h' /\ Permutation (x :: h) h' /\ good h'.
Proof.
  intros (Hk & Hnd & HF) Hx Hni. destruct (push_total x icmp h x) as (h' & E & P). exists h'. split; [auto|]. split; [auto|]. split; [|split].
  - intros d. destruct (push_hmm d icmp icmp_sw h x (Hk d)) as (h2 & E2 & Hh2). rewrite E in E2. injection E2 as <-. exact Hh2.
  - eapply Permutation_NoDup; [exact P|]. now constructor.
  - eapply Permutation_Forall; [exact P|]. now constructor.
Qed.
Lemma good_pop h t : good h -> top h = Ret t -> exists h', popTop icmp h = Ret h' /\ Permutation h (t :: h') /\ good h'.
Proof.
  intros (Hk & Hnd & HF) Ht. assert (Hne : h <> []) by (intros ->; discriminate). destruct (popTop_total t icmp h Hne) as (h' & E & P).
  rewrite (top_total t h Hne) in Ht. injection Ht as Ht. rewrite Ht in P. exists h'. split; [auto|]. split; [auto|].
  pose proof (Permutation_NoDup P Hnd) as N. pose proof (Permutation_Forall P HF) as F. inversion N; inversion F; subst. split; [|split]; auto.
  intros d. destruct (popTop_hmm d icmp icmp_sw h (Hk d) Hne (tame_cells h Hnd HF)) as (h2 & E2 & Hh2). rewrite E in E2. injection E2 as <-. exact Hh2.
Qed.

Lemma good_push_all l : forall h, good h -> Forall dcell l -> NoDup (l ++ h) -> exists h', push_all comp val h l = Ret h' /\ Permutation (l ++ h) h' /\ good h'.
Proof.
  induction l as [|x l IH]; intros h Hg HF Hnd; cbn [push_all]; [exists h; auto|]. inversion HF as [|? ? Hx HF']; subst. cbn [app] in Hnd. inversion Hnd as [|? ? Hx2 Hnd']; subst.
  destruct (good_push h x Hg Hx) as (h1 & E1 & P1 & G1). { intros Hin. apply Hx2. apply in_or_app. now right. }
  rewrite E1. cbn [obind]. assert (PP : Permutation ((x :: l) ++ h) (l ++ h1)) by (rewrite <- P1; cbn [app]; apply Permutation_middle).
  destruct (IH h1 G1 HF') as (h' & E & P & G). { eapply Permutation_NoDup; [exact PP|]. now constructor. }
  exists h'. split; [auto|]. split; [now transitivity (l ++ h1)|auto].
Qed.

(** Purging removes only outside cells, and keeps for every removed cell one that is not better. *)
Lemma good_purge win f : forall h c, (length h < f)%nat -> good h -> In c h -> inside win c = true ->
  exists h', purge comp val f win h = Ret h' /\ good h' /\ (forall x, In x h' -> In x h) /\ (forall x, In x h -> inside win x = true -> In x h') /\
    (forall t, top h' = Ret t -> inside win t = true) /\ (forall x, In x h -> exists y, In y h' /\ icmp y x = false).
Proof.
  induction f as [|f IH]; intros h c Hl Hg Hc Hi; [lia|]. cbn [purge]. destruct h as [|x0 h0] eqn:Eh; [contradiction|]. rewrite <- Eh in *.
  assert (Hne : h <> []) by (subst; discriminate). assert (Ht : top h = Ret (nth 0 h x0)) by (now apply top_total). rewrite Ht. cbn [obind]. set (t := nth 0 h x0) in *.
  destruct (inside win t) eqn:Ei.
  - exists h. split; [auto|]. split; [auto|]. split; [auto|]. split; [auto|]. split; [intros t' Ht'; rewrite Ht in Ht'; congruence|].
    intros x Hx. exists x. split; [auto|]. apply (sw_irrefl _ icmp_sw).
  - destruct (good_pop h t Hg Ht) as (h1 & E1 & P1 & G1). rewrite E1. cbn [obind].
    assert (Hc1 : In c h1). { apply (Permutation_in _ P1) in Hc. destruct Hc as [<-|Hc]; [congruence|auto]. }
    assert (Hl1 : (length h1 < f)%nat) by (apply Permutation_length in P1; cbn [length] in P1; lia).
    destruct (IH h1 c Hl1 G1 Hc1 Hi) as (h' & E & G & H1 & H2 & H3 & H4). exists h'. split; [auto|]. split; [auto|].
    assert (Hin : forall x, In x h1 -> In x h) by (intros x Hx; apply (Permutation_in _ (Permutation_sym P1)); now right).
    split; [auto|]. split; [|split; [auto|]].
    + intros x Hx Hxi. apply H2; auto. apply (Permutation_in _ P1) in Hx. destruct Hx as [<-|Hx]; [congruence|auto].
    + intros x Hx. apply (Permutation_in _ P1) in Hx. destruct Hx as [<-|Hx]; [|auto]. destruct (H4 c Hc1) as (y & Hy & Hyc). exists y. split; [auto|].
      eapply nb_trans; [exact Hyc|]. apply (good_top h t Hg Ht). now apply Hin.
Qed.

(** The window around j. *)
Definition lwin (j : Z) : interval := mkI [j - w] [2 * w + 1].
Lemma lwin_inside j i : inside (lwin j) [i] = true <-> Z.abs (i - j) <= w.
Proof.
  unfold inside, lwin. cbn [imin idim inside_loop]. destruct (Z.ltb_spec i (j - w)), (Z.leb_spec (j - w + (2 * w + 1)) i); cbn [orb]; split; try discriminate; try reflexivity; lia.
Qed.

(** The items before the step to cell j+1. *)
Definition linv (j : Z) (items : list (list Z)) : Prop :=
  good items /\ (forall i, In [i] items -> a <= i <= j + w) /\
  (forall i, a <= i < a + n -> Z.abs (i - j) <= w -> In [i] items) /\
  (forall i, a <= i < a + n -> i <= j + w -> exists y, In y items /\ icmp y [i] = false).

Definition reported (fm : option V) (j : Z) : Prop :=
  passes comp val fm [j] /\ window_best comp val a n w j /\ exists i, a <= i < a + n /\ i <= j + w /\ better comp val [j] [i].

Lemma find_step j : findIncrement [j] [j + 1] = (0%nat, 1).
Proof. unfold findIncrement. cbn [incr_loop]. replace (j + 1 - j) with 1 by lia. reflexivity. Qed.
Lemma stack_step j : stacked (lwin j) 0 1 = Ret (mkI [j + w + 1] [1]).
Proof. unfold stacked, lwin. generalize (eq_refl (2 * w)). generalize (2 * w) at 1 3. intros z E. cbn -[Z.mul]. do 3 f_equal. lia. Qed.
Lemma trans_step j : translate (lwin j) 0 1 = Ret (lwin (j + 1)).
Proof. unfold translate, lwin. cbn. do 3 f_equal. lia. Qed.

Definition ldom : interval := mkI [a] [n].
Lemma ldom_box : int_box (imin ldom) (idim ldom).
Proof. unfold ldom. cbn [imin idim]. split; [constructor; [lia|lia|lia|constructor]|cbn [vol]; lia]. Qed.
Lemma inside1 m d i : inside (mkI [m] [d]) [i] = true <-> m <= i < m + d.
Proof.
  unfold inside. cbn [imin idim inside_loop]. destruct (Z.ltb_spec i m), (Z.leb_spec (m + d) i); cbn [orb]; split; try discriminate; try reflexivity; lia.
Qed.
Lemma dcell_inside x : dcell x <-> length x = 1%nat /\ inside ldom x = true.
Proof.
  split.
  - intros (i & -> & Hi). split; [reflexivity|]. now apply inside1.
  - intros [Hl Hi]. destruct x as [|i [|]]; try discriminate. exists i. split; [auto|]. now apply inside1.
Qed.

Lemma linv_step j items : a <= j -> j + 1 < a + n -> linv j items ->
  exists l items1 items2, iterate_raster (intersect (mkI [j + w + 1] [1]) ldom) = Ret l /\ push_all comp val items l = Ret items1 /\
    purge comp val (S (length items1)) (lwin (j + 1)) items1 = Ret items2 /\ linv (j + 1) items2 /\
    (forall t, top items2 = Ret t -> inside (lwin (j + 1)) t = true).
Proof.
  intros Hj1 Hj2 (Hg & Hrange & Hwin & Hnb).
  destruct (iterate_meet (mkI [j + w + 1] [1]) ldom ldom_box eq_refl eq_refl) as (l & E1 & N1 & Hl); [repeat constructor; lia|]. exists l. 
  assert (Hl' : forall x, In x l <-> x = [j + w + 1] /\ j + w + 1 < a + n).
  { intros x. rewrite Hl. cbn [ldom idim length]. split.
    - intros (H1 & H2 & H3). destruct x as [|i [|]]; try discriminate. apply inside1 in H2. apply inside1 in H3. split; [f_equal; lia|lia].
    - intros [-> H]. split; [reflexivity|]. split; apply inside1; lia. }
  assert (Fl : Forall dcell l). { apply Forall_forall. intros x Hx. apply Hl' in Hx as [-> Hx]. exists (j + w + 1). split; [auto|lia]. }
  assert (ND : NoDup (l ++ items)).
  { destruct Hg as (_ & Hnd & HF). clear - N1 Hnd Hl' Hrange. induction l as [|x l IH]; [exact Hnd|]. 
    assert (Hx : x = [j + w + 1]) by (apply (proj1 (Hl' x)); now left).
    assert (l = []) as ->. { destruct l as [|y l]; [reflexivity|]. exfalso. assert (y = [j + w + 1]) by (apply (proj1 (Hl' y)); right; now left). subst. inversion N1 as [|? ? H _]; subst. apply H. now left. }
    cbn [app]. constructor; [|auto]. subst x. intros H. apply Hrange in H. lia. }
  destruct (good_push_all l items Hg Fl ND) as (items1 & E2 & P2 & G2). exists items1.
  assert (Hin1 : forall x, In x items1 <-> (x = [j + w + 1] /\ j + w + 1 < a + n) \/ In x items).
  { intros x. rewrite <- Hl'. split; intros H; [apply (Permutation_in _ (Permutation_sym P2)) in H; now apply in_app_or in H|apply (Permutation_in _ P2); now apply in_or_app]. }
  assert (Hcur : In [j + 1] items1). { apply Hin1. destruct (Z.eq_dec w 0) as [->|]; [left; split; [f_equal; lia|lia]|right]. apply Hwin; lia. }
  destruct (good_purge (lwin (j + 1)) (S (length items1)) items1 [j + 1] ltac:(lia) G2 Hcur) as (items2 & E3 & G3 & H1 & H2 & H3 & H4); [apply lwin_inside; lia|].
  exists items2. split; [auto|]. split; [auto|]. split; [auto|]. split; [|auto]. split; [auto|]. split; [|split].
  - intros i Hi. apply H1, Hin1 in Hi as [[E Hi]|Hi]; [injection E as ->; lia|]. apply Hrange in Hi. lia.
  - intros i Hi Hiw. apply H2; [|apply lwin_inside; auto]. apply Hin1. destruct (Z.eq_dec i (j + w + 1)) as [->|]; [left; split; [auto|lia]|]. right. apply Hwin; lia.
  - intros i Hi Hiw. assert (Hex : exists y, In y items1 /\ icmp y [i] = false).
    { destruct (Z.eq_dec i (j + w + 1)) as [->|]; [exists [j + w + 1]; split; [apply Hin1; left; split; [auto|lia]|apply (sw_irrefl _ icmp_sw)]|].
      destruct (Hnb i Hi ltac:(lia)) as (y & Hy & Hyi). exists y. split; [|auto]. apply Hin1. now right. }
    destruct Hex as (y & Hy & Hyi). destruct (H4 y Hy) as (z & Hz & Hzy). exists z. split; [auto|]. eapply nb_trans; eauto.
Qed.

Lemma good_drain f : forall h, (length h <= f)%nat -> good h -> exists out, drain comp val f h = Ret out /\ Permutation h out /\ StronglySorted (fun x y => icmp y x = false) out.
Proof.
  induction f as [|f IH]; intros h Hl Hg; destruct h as [|x h0] eqn:Eh; cbn [drain length] in *; try lia; [exists []; repeat split; auto; constructor|exists []; repeat split; auto; constructor|].
  rewrite <- Eh in *. assert (Hne : h <> []) by (subst; discriminate). assert (Ht : top h = Ret (nth 0 h x)) by (now apply top_total). set (t := nth 0 h x) in *.
  destruct (good_pop h t Hg Ht) as (h1 & E1 & P1 & G1). rewrite Ht, E1. cbn [obind]. replace (length h0) with (length h - 1)%nat in Hl by (subst; cbn; lia).
  assert (Hl1 : (length h1 <= f)%nat) by (apply Permutation_length in P1; cbn [length] in P1; lia).
  destruct (IH h1 Hl1 G1) as (out & -> & P & S). cbn [obind]. eexists. split; [reflexivity|]. split; [eapply Permutation_trans; [exact P1|]; now apply perm_skip|].
  constructor; [auto|]. apply Forall_forall. intros y Hy. apply (Permutation_in _ (Permutation_sym P)) in Hy.
  destruct (good_top h t Hg Ht) as [Ht1 Ht2]. assert (Hyh : In y h) by (apply (Permutation_in _ (Permutation_sym P1)); now right).
  now apply Ht2.
Qed.

Lemma line_cells : iterate_boustrophedon ldom = Ret (map (fun i => [i]) (zseq a (Z.to_nat n))).
Proof.
  assert (Hpd : pos_dims (idim ldom)) by (constructor; [lia|constructor]).
  assert (Hnn : nonneg_dims ldom) by (constructor; [lia|constructor]).
  destruct (iterate_gen boust_getIndices ldom (fun p => map2 Z.add (bz (idim ldom) p) (imin ldom)) eq_refl Hnn) as (cells & Ec & _ & _ & _ & Hmap); [apply ldom_box| |].
  { intros _. split; [|split; [|split]].
    - intros p Hp. apply boust_pure; auto. lia.
    - intros p Hp. now apply bz_in_box.
    - intros p q Hp Hq E. apply (bz_inj _ Hpd); auto. apply (map2_add_inj _ _ (imin ldom)); auto.
    - intros x Hx. apply bz_surj. exact Hx. }
  unfold iterate_boustrophedon. rewrite Ec. f_equal. rewrite (Hmap Hpd). cbn [ldom idim vol]. rewrite Z.mul_1_r. unfold zseq. rewrite !map_map. apply map_ext_in. intros k Hk. apply in_seq in Hk.
  cbn [bz imin hdd map2 Z.even]. rewrite Z.mod_small by lia. unfold ldom. cbn [imin]. f_equal. lia.
Qed.

(** ** With ties *)
Definition may (fm : option V) (j : Z) : Prop := passes comp val fm [j] /\ window_max comp val a n w j.
Definition sure (fm : option V) (j : Z) : Prop :=
  passes comp val fm [j] /\ window_best comp val a n w j /\ (forall i, a <= i < j - w -> ~ level comp val [i] [j]) /\ exists i, a <= i < a + n /\ Z.abs (i - j) <= w /\ i <> j.

Lemma peak_tie j items fm : a <= j < a + n -> good items -> In [j] items ->
  (forall i, In [i] items -> a <= i <= j + w) ->
  (forall i, a <= i < a + n -> Z.abs (i - j) <= w -> In [i] items) ->
  (forall t, top items = Ret t -> inside (lwin j) t = true) ->
  exists b, is_peak comp val fm items [j] = Ret b /\ (b = true -> may fm j) /\ (sure fm j -> b = true).
Proof.
  intros Hj Hg Hin Hrange Hwin Htop. unfold is_peak, may, sure.
  assert (Hpass : (match fm with None => true | Some vmin => comp (val [j]) vmin end) = true <-> passes comp val fm [j]) by (unfold passes; destruct fm; [reflexivity|split; auto]).
  destruct (match fm with None => true | Some vmin => comp (val [j]) vmin end).
  2: { exists false. split; [reflexivity|]. split; [discriminate|]. intros (H & _). apply Hpass in H. discriminate. }
  destruct items as [|x0 h0] eqn:Eh; [contradiction|]. rewrite <- Eh in *. assert (Hne : items <> []) by (subst; discriminate).
  assert (Ht : top items = Ret (nth 0 items x0)) by (now apply top_total). rewrite Ht. cbn [obind]. set (t := nth 0 items x0) in *.
  destruct (good_top _ _ Hg Ht) as [Ht1 Ht2]. destruct Hg as (Hk & Hnd & HF). rewrite Forall_forall in HF. destruct (HF t Ht1) as (ti & Eti & Hti). specialize (Htop t Ht). rewrite Eti in Htop. apply lwin_inside in Htop.
  destruct (comp (val t) (val [j])) eqn:Ec.
  - exists false. split; [reflexivity|]. split; [discriminate|]. intros (_ & Hb & _). exfalso.
    assert (Hne2 : ti <> j). { intros ->. rewrite Eti in Ec. now rewrite (sw_irrefl _ SW) in Ec. }
    specialize (Hb ti Hti Htop Hne2). unfold better in Hb. rewrite <- Eti in Hb. pose proof (sw_trans _ SW _ _ _ Hb Ec) as Hbad. now rewrite (sw_irrefl _ SW) in Hbad.
  - assert (Hmax : forall x, In x items -> icmp x [j] = false) by (intros x Hx; eapply nb_trans; [apply Ht2; exact Hx|exact Ec]).
    assert (Hwm : window_max comp val a n w j). { intros i Hi Hiw Hb. pose proof (Hmax [i] (Hwin i Hi Hiw)) as H. unfold better in Hb. unfold PeakModel.icmp in H. congruence. }
    destruct (next_total icmp items Hne) as (nt & bt & Ent & _). rewrite Ent. cbn [obind]. eexists. split; [reflexivity|].
    split; [intros _; split; [now apply Hpass|exact Hwm]|]. intros (_ & Hb & Hfar & i & Hi & Hiw & Hij).
    assert (Etj : ti = j). { destruct (Z.eq_dec ti j) as [|Hne2]; [auto|]. specialize (Hb ti Hti Htop Hne2). unfold better in Hb. pose proof (Ht2 [j] Hin) as H. rewrite Eti in H. unfold PeakModel.icmp in H. congruence. }
    assert (Hl : (2 <= length items)%nat).
    { pose proof (Hwin i Hi Hiw) as Hii. destruct items as [|y [|y2 r]]; cbn [length]; try lia; [contradiction|]. exfalso. destruct Hin as [->|[]]. destruct Hii as [E|[]]. injection E as E. congruence. }
    destruct (nextTop_pos icmp x0 items Hl) as (k & Hkr & Ent2). rewrite Ent2 in Ent. injection Ent as <-.
    pose proof (NoDup_nth_0 x0 items k Hnd Hkr) as Hnek. fold t in Hnek. set (v := nth k items x0) in *. assert (Hv : In v items) by (apply nth_In; lia).
    destruct (HF v Hv) as (vi & Ev & Hvi). rewrite Ev in *. assert (Hvj : vi <> j) by congruence.
    destruct (Z.le_gt_cases (Z.abs (vi - j)) w) as [Hvw|Hvw]; [now apply Hb|].
    pose proof (Hrange vi Hv) as Hvr. destruct (comp (val [j]) (val [vi])) eqn:Ejv; [reflexivity|]. exfalso. apply (Hfar vi); [lia|]. split; [|exact Ejv]. exact (Hmax [vi] Hv).
Qed.

Lemma line_scan_tie fm m : forall j items maxima, a <= j -> j + 1 + Z.of_nat m = a + n -> linv j items -> good maxima -> (forall i, In [i] maxima -> i <= j) ->
  exists maxima', scan comp val ldom fm (map (fun i => [i]) (zseq (j + 1) m)) [j] (lwin j) items maxima = Ret maxima' /\ good maxima' /\
    (forall x, In x maxima' -> In x maxima \/ exists i, x = [i] /\ j < i < a + n /\ may fm i) /\
    (forall x, In x maxima -> In x maxima') /\ (forall i, j < i < a + n -> sure fm i -> In [i] maxima').
Proof.
  induction m as [|m IH]; intros j items maxima Hj Hm HI Hg Hle.
  - cbn [zseq seq map scan]. exists maxima. split; [reflexivity|]. split; [auto|]. split; [auto|]. split; [auto|]. intros i Hi. lia.
  - rewrite zseq_S. cbn [map scan]. rewrite find_step, stack_step. cbn [obind].
    destruct (linv_step j items Hj ltac:(lia) HI) as (l & items1 & items2 & E1 & E2 & E3 & HI2 & Htop). rewrite E1. cbn [obind]. rewrite E2. cbn [obind]. rewrite trans_step. cbn [obind]. rewrite E3. cbn [obind].
    pose proof HI2 as (Hg2 & Hr2 & Hw2 & Hn2).
    destruct (peak_tie (j + 1) items2 fm ltac:(lia) Hg2) as (b & E4 & Hb1 & Hb2); auto; [apply Hw2; lia|]. rewrite E4. cbn [obind].
    destruct b.
    + destruct (good_push maxima [j + 1] Hg) as (m1 & E5 & P5 & G5); [exists (j + 1); split; [auto|lia]|intros Hin; apply Hle in Hin; lia|]. rewrite E5. cbn [obind].
      assert (Hin5 : forall x, In x m1 <-> x = [j + 1] \/ In x maxima).
      { intros x. split; intros H; [apply (Permutation_in _ (Permutation_sym P5)) in H; destruct H; auto|apply (Permutation_in _ P5); destruct H; [left|right]; auto]. }
      destruct (IH (j + 1) items2 m1 ltac:(lia) ltac:(lia) HI2 G5) as (mx & E6 & G6 & H6 & H7 & H8). { intros i Hi. apply Hin5 in Hi as [E|Hi]; [injection E as ->; lia|apply Hle in Hi; lia]. }
      exists mx. split; [exact E6|]. split; [auto|]. split; [|split].
      * intros x Hx. destruct (H6 x Hx) as [H|(i & -> & Hi & Hrep)]; [|right; exists i; split; [auto|split; [lia|auto]]].
        apply Hin5 in H as [->|H]; [|auto]. right. exists (j + 1). split; [auto|split; [lia|auto]].
      * intros x Hx. apply H7, Hin5. now right.
      * intros i Hi Hs. destruct (Z.eq_dec i (j + 1)) as [->|]; [apply H7, Hin5; now left|apply H8; [lia|auto]].
    + cbn [obind]. destruct (IH (j + 1) items2 maxima ltac:(lia) ltac:(lia) HI2 Hg) as (mx & E6 & G6 & H6 & H7 & H8). { intros i Hi. apply Hle in Hi. lia. }
      exists mx. split; [exact E6|]. split; [auto|]. split; [|split].
      * intros x Hx. destruct (H6 x Hx) as [H|(i & -> & Hi & Hrep)]; [auto|right; exists i; split; [auto|split; [lia|auto]]].
      * auto.
      * intros i Hi Hs. destruct (Z.eq_dec i (j + 1)) as [->|]; [specialize (Hb2 Hs); discriminate|apply H8; [lia|auto]].
Qed.

Lemma line_start : exists l items, iterate_raster (intersect (lwin a) ldom) = Ret l /\ push_all comp val [] l = Ret items /\ linv a items.
Proof.
  destruct (iterate_meet (lwin a) ldom ldom_box eq_refl eq_refl) as (l & E1 & N1 & Hl); [repeat constructor; lia|].
  assert (Fl : Forall dcell l). { apply Forall_forall. intros x Hx. apply Hl in Hx as (H1 & _ & H2). now apply dcell_inside. }
  assert (G0 : good []) by (split; [apply hok_nil|split; constructor]).
  destruct (good_push_all l [] G0 Fl) as (items & E2 & P2 & G2); [now rewrite app_nil_r|]. rewrite app_nil_r in P2.
  assert (Hin : forall i, In [i] items <-> a <= i < a + n /\ Z.abs (i - a) <= w).
  { intros i. assert (Hil : In [i] items <-> In [i] l) by (split; intros H; [apply (Permutation_in _ (Permutation_sym P2))|apply (Permutation_in _ P2)]; auto).
    rewrite Hil, Hl. cbn [ldom idim length]. rewrite lwin_inside. fold ldom. unfold ldom. rewrite inside1. tauto. }
  exists l, items. split; [exact E1|]. split; [exact E2|].
  split; [auto|]. split; [intros i Hi; apply Hin in Hi; lia|]. split; [intros i H1 H2; apply Hin; auto|]. intros i H1 H2. exists [i]. split; [apply Hin; lia|apply (sw_irrefl _ icmp_sw)].
Qed.

Lemma cells_heads out : Forall dcell out -> out = map (fun i => [i]) (map (fun x => hd 0 x) out).
Proof.
  intros F4. rewrite map_map. rewrite <- (map_id out) at 1. apply map_ext_in. intros x Hx. rewrite Forall_forall in F4. destruct (F4 x Hx) as (i & -> & _). reflexivity.
Qed.

Lemma sorted_heads (R : list Z -> list Z -> Prop) out : Forall dcell out -> StronglySorted R out -> StronglySorted (fun i j => R [i] [j]) (map (fun x => hd 0 x) out).
Proof.
  intros F4 S4. induction S4 as [|x l Hs IH Hx]; cbn [map]; [constructor|]. inversion F4 as [|? ? Fx Fl]; subst. constructor; [auto|]. apply Forall_forall. intros i Hi. apply in_map_iff in Hi as (y & <- & Hy).
  rewrite Forall_forall in Hx, Fl. destruct Fx as (i & -> & _). destruct (Fl y Hy) as (k & E & _). specialize (Hx y Hy). rewrite E in *. exact Hx.
Qed.

Lemma line_tie_lemma fm : exists out, detect comp val ldom [w] fm = Ret (map (fun i => [i]) out) /\ NoDup out /\
  StronglySorted (fun i j => ~ better comp val [j] [i]) out /\
  (forall j, In j out -> a < j < a + n /\ may fm j) /\ (forall j, a < j < a + n -> sure fm j -> In j out).
Proof.
  unfold detect. rewrite line_cells. cbn [obind]. destruct (Z.to_nat n) as [|m] eqn:En; [lia|]. rewrite zseq_S. cbn [map].
  assert (EW : initCentered [a] [w] = lwin a) by reflexivity. rewrite EW.
  destruct line_start as (l & items & E1 & E2 & HI). rewrite E1. cbn [obind]. rewrite E2. cbn [obind].
  assert (G0 : good []) by (split; [apply hok_nil|split; constructor]).
  destruct (line_scan_tie fm m a items [] ltac:(lia) ltac:(lia) HI G0 ltac:(intros i [])) as (mx & E3 & G3 & H3 & _ & H4). rewrite E3. cbn [obind].
  destruct (good_drain (length mx) mx ltac:(lia) G3) as (out & E4 & P4 & S4). rewrite E4.
  destruct G3 as (_ & N3 & F3). pose proof (Permutation_Forall P4 F3) as F4. pose proof (Permutation_NoDup P4 N3) as N4. pose proof (cells_heads out F4) as Hmap.
  exists (map (fun x => hd 0 x) out). split; [now rewrite <- Hmap|]. split; [|split; [|split]].
  - rewrite Hmap in N4. now apply NoDup_map_inv in N4.
  - apply (sorted_heads (fun x y => ~ better comp val y x)); [auto|]. clear - S4. induction S4 as [|x l Hs IH Hx]; constructor; [auto|]. eapply Forall_impl; [|exact Hx]. intros y Hy. cbv beta in Hy. unfold better. unfold PeakModel.icmp in Hy. congruence.
  - intros j Hj. apply in_map_iff in Hj as (x & <- & Hx). apply (Permutation_in _ (Permutation_sym P4)) in Hx. apply H3 in Hx as [[]|(i & -> & Hi & Hr)]. cbn [hd]. split; [lia|auto].
  - intros j Hj Hs. apply in_map_iff. exists [j]. split; [reflexivity|]. apply (Permutation_in _ P4). now apply H4.
Qed.

(** ** Without ties *)
Hypothesis DV : distinct_values comp val a n.

Lemma dcell_distinct x y : dcell x -> dcell y -> x <> y -> icmp x y = true \/ icmp y x = true.
Proof. intros (i & -> & Hi) (j & -> & Hj) Hne. apply DV; auto. congruence. Qed.
Lemma dcell_equiv x y : dcell x -> dcell y -> icmp x y = false -> icmp y x = false -> x = y.
Proof.
  intros Hx Hy H1 H2. destruct (list_eq_dec Z.eq_dec x y) as [|Hne]; [auto|]. destruct (dcell_distinct x y Hx Hy Hne); congruence.
Qed.

Lemma good_drain_strict f h : (length h <= f)%nat -> good h -> exists out, drain comp val f h = Ret out /\ Permutation h out /\ StronglySorted (fun x y => icmp x y = true) out.
Proof.
  intros Hl Hg. destruct (good_drain f h Hl Hg) as (out & E & P & S). exists out. split; [auto|]. split; [auto|]. destruct Hg as (_ & Hnd & HF).
  pose proof (Permutation_NoDup P Hnd) as N. pose proof (Permutation_Forall P HF) as F. clear - S N F DV. induction S as [|x l S IH Hx]; [constructor|].
  inversion N as [|? ? Nx Nl]; subst. inversion F as [|? ? Fx Fl]; subst. constructor; [auto|]. rewrite Forall_forall in *. intros y Hy.
  destruct (dcell_distinct x y Fx (Fl y Hy)) as [H|H]; [intros ->; contradiction|auto|]. rewrite (Hx y Hy) in H. discriminate.
Qed.

Lemma peak_step j items fm : a <= j < a + n -> good items -> In [j] items -> 
  (forall i, In [i] items -> a <= i <= j + w) ->
  (forall i, a <= i < a + n -> Z.abs (i - j) <= w -> In [i] items) ->
  (forall t, top items = Ret t -> inside (lwin j) t = true) ->
  (forall i, a <= i < a + n -> i <= j + w -> exists y, In y items /\ icmp y [i] = false) ->
  exists b, is_peak comp val fm items [j] = Ret b /\ (b = true <-> reported fm j).
Proof.
  intros Hj Hg Hin Hrange Hwin Htop Hnb. unfold is_peak, reported.
  assert (Hpass : (match fm with None => true | Some vmin => comp (val [j]) vmin end) = true <-> passes comp val fm [j]) by (unfold passes; destruct fm; [reflexivity|split; auto]).
  destruct (match fm with None => true | Some vmin => comp (val [j]) vmin end).
  2: { exists false. split; [reflexivity|]. split; [discriminate|]. intros (H & _). apply Hpass in H. discriminate. }
  destruct items as [|x0 h0] eqn:Eh; [contradiction|]. rewrite <- Eh in *. assert (Hne : items <> []) by (subst; discriminate).
  assert (Ht : top items = Ret (nth 0 items x0)) by (now apply top_total). rewrite Ht. cbn [obind]. set (t := nth 0 items x0) in *.
  destruct (good_top _ _ Hg Ht) as [Ht1 Ht2]. destruct Hg as (Hk & Hnd & HF). rewrite Forall_forall in HF. destruct (HF t Ht1) as (ti & Eti & Hti). specialize (Htop t Ht). rewrite Eti in Htop. apply lwin_inside in Htop.
  destruct (comp (val t) (val [j])) eqn:Ec.
  - exists false. split; [reflexivity|]. split; [discriminate|]. intros (_ & Hb & _). exfalso.
    assert (Hne2 : ti <> j). { intros ->. rewrite Eti in Ec. now rewrite (sw_irrefl _ SW) in Ec. }
    specialize (Hb ti Hti Htop Hne2). unfold better in Hb. rewrite <- Eti in Hb. pose proof (sw_trans _ SW _ _ _ Hb Ec) as Hbad. now rewrite (sw_irrefl _ SW) in Hbad.
  - assert (Etj : t = [j]). { apply dcell_equiv; [exists ti; auto|exists j; auto|exact Ec|apply Ht2; exact Hin]. }
    destruct (Nat.le_gt_cases 2 (length items)) as [Hl|Hl].
    + destruct (nextTop_pos icmp x0 items Hl) as (k & Hkr & ->). cbn [obind]. eexists. split; [reflexivity|].
      pose proof (NoDup_nth_0 x0 items k Hnd Hkr) as Hnek. fold t in Hnek. set (v := nth k items x0) in *. assert (Hv : In v items) by (apply nth_In; lia).
      assert (Hbv : icmp [j] v = true). { destruct (dcell_distinct v [j] (HF v Hv) ltac:(exists j; auto) ltac:(congruence)) as [H|H]; [|auto]. rewrite <- Etj in H. rewrite (Ht2 v Hv) in H. discriminate. }
      split; [|intros _; exact Hbv]. intros _. split; [now apply Hpass|]. split.
      * intros i Hi Hiw Hij. pose proof (Hwin i Hi Hiw) as Hii. destruct (DV i j Hi Hj Hij) as [H|H]; [|auto]. exfalso. pose proof (Ht2 _ Hii) as H'. rewrite Etj in H'. unfold better in H. unfold PeakModel.icmp in H'. congruence.
      * destruct (HF v Hv) as (vi & Ev & Hvi). exists vi. split; [auto|]. split; [apply Hrange; now rewrite <- Ev|]. rewrite <- Ev. exact Hbv.
    + assert (Ei : items = [[j]]). { destruct items as [|y [|]]; cbn [length] in Hl; try lia; [contradiction|]. cbn in t. subst t. now rewrite Etj. }
      rewrite Ei. cbn. rewrite (sw_irrefl _ SW). exists false. split; [reflexivity|]. split; [discriminate|]. intros (_ & _ & i & Hi & Hiw & Hb).
      destruct (Hnb i Hi Hiw) as (y & Hy & Hyi). rewrite Ei in Hy. destruct Hy as [<-|[]]. unfold better in Hb. unfold PeakModel.icmp in Hyi. congruence.
Qed.

Lemma line_scan fm m : forall j items maxima, a <= j -> j + 1 + Z.of_nat m = a + n -> linv j items -> good maxima -> (forall i, In [i] maxima -> i <= j) ->
  exists maxima', scan comp val ldom fm (map (fun i => [i]) (zseq (j + 1) m)) [j] (lwin j) items maxima = Ret maxima' /\ good maxima' /\
    forall x, In x maxima' <-> In x maxima \/ exists i, x = [i] /\ j < i < a + n /\ reported fm i.
Proof.
  induction m as [|m IH]; intros j items maxima Hj Hm HI Hg Hle.
  - cbn [zseq seq map scan]. exists maxima. split; [reflexivity|]. split; [auto|]. intros x. split; [auto|]. intros [H|(i & _ & Hi & _)]; [auto|lia].
  - rewrite zseq_S. cbn [map scan]. rewrite find_step, stack_step. cbn [obind].
    destruct (linv_step j items Hj ltac:(lia) HI) as (l & items1 & items2 & E1 & E2 & E3 & HI2 & Htop). rewrite E1. cbn [obind]. rewrite E2. cbn [obind]. rewrite trans_step. cbn [obind]. rewrite E3. cbn [obind].
    pose proof HI2 as (Hg2 & Hr2 & Hw2 & Hn2).
    destruct (peak_step (j + 1) items2 fm ltac:(lia) Hg2) as (b & E4 & Hb); auto; [apply Hw2; lia|]. rewrite E4. cbn [obind].
    destruct b.
    + destruct (good_push maxima [j + 1] Hg) as (m1 & E5 & P5 & G5); [exists (j + 1); split; [auto|lia]|intros Hin; apply Hle in Hin; lia|]. rewrite E5. cbn [obind].
      assert (Hin5 : forall x, In x m1 <-> x = [j + 1] \/ In x maxima).
      { intros x. split; intros H; [apply (Permutation_in _ (Permutation_sym P5)) in H; destruct H; auto|apply (Permutation_in _ P5); destruct H; [left|right]; auto]. }
      destruct (IH (j + 1) items2 m1 ltac:(lia) ltac:(lia) HI2 G5) as (mx & E6 & G6 & H6). { intros i Hi. apply Hin5 in Hi as [E|Hi]; [injection E as ->; lia|apply Hle in Hi; lia]. }
      exists mx. split; [exact E6|]. split; [auto|]. intros x. rewrite H6, Hin5. split.
      * intros [[->|H]|(i & -> & Hi & Hrep)]; [right; exists (j + 1); split; [auto|split; [lia|now apply Hb]]|auto|right; exists i; split; [auto|split; [lia|auto]]].
      * intros [H|(i & -> & Hi & Hrep)]; [auto|]. destruct (Z.eq_dec i (j + 1)) as [->|]; [auto|]. right. exists i. split; [auto|split; [lia|auto]].
    + cbn [obind]. destruct (IH (j + 1) items2 maxima ltac:(lia) ltac:(lia) HI2 Hg) as (mx & E6 & G6 & H6). { intros i Hi. apply Hle in Hi. lia. }
      exists mx. split; [exact E6|]. split; [auto|]. intros x. rewrite H6. split.
      * intros [H|(i & -> & Hi & Hrep)]; [auto|right; exists i; split; [auto|split; [lia|auto]]].
      * intros [H|(i & -> & Hi & Hrep)]; [auto|]. destruct (Z.eq_dec i (j + 1)) as [->|]; [apply Hb in Hrep; discriminate|]. right. exists i. split; [auto|split; [lia|auto]].
Qed.

Lemma line_detect_lemma fm : exists out, detect comp val ldom [w] fm = Ret (map (fun i => [i]) out) /\ StronglySorted (fun i j => better comp val [i] [j]) out /\
  forall j, In j out <-> a < j < a + n /\ reported fm j.
Proof.
  unfold detect. rewrite line_cells. cbn [obind]. destruct (Z.to_nat n) as [|m] eqn:En; [lia|]. rewrite zseq_S. cbn [map].
  assert (EW : initCentered [a] [w] = lwin a) by reflexivity. rewrite EW.
  destruct line_start as (l & items & E1 & E2 & HI). rewrite E1. cbn [obind]. rewrite E2. cbn [obind].
  assert (G0 : good []) by (split; [apply hok_nil|split; constructor]).
  destruct (line_scan fm m a items [] ltac:(lia) ltac:(lia) HI G0 ltac:(intros i [])) as (mx & E3 & G3 & H3). rewrite E3. cbn [obind].
  destruct (good_drain_strict (length mx) mx ltac:(lia) G3) as (out & E4 & P4 & S4). rewrite E4.
  destruct G3 as (_ & _ & F3). pose proof (Permutation_Forall P4 F3) as F4.
  pose proof (cells_heads out F4) as Hmap.
  exists (map (fun x => hd 0 x) out). split; [now rewrite <- Hmap|]. split.
  - exact (sorted_heads (better comp val) out F4 S4).
  - intros j. rewrite in_map_iff. split.
    + intros (x & <- & Hx). apply (Permutation_in _ (Permutation_sym P4)) in Hx. apply H3 in Hx as [[]|(i & -> & Hi & Hr)]. cbn [hd]. split; [lia|auto].
    + intros [Hj Hr]. exists [j]. split; [reflexivity|]. apply (Permutation_in _ P4). apply H3. right. exists j. auto.
Qed.
End L.

Lemma distinct_rare {V} (comp : V -> V -> bool) val a n : distinct_values comp val a n -> rare_ties comp val a n.
Proof.
  intros DV i j k Hi Hj _ Hij _ _ [H1 H2] _. exfalso. unfold better in DV. destruct (DV i j Hi Hj Hij); unfold better in *; congruence.
Qed.

Lemma line_positive_window {V} (comp : V -> V -> bool) val a n w fm j : 0 < w -> distinct_values comp val a n -> a < j < a + n ->
  (reported comp val a n w fm j <-> passes comp val fm [j] /\ window_best comp val a n w j).
Proof.
  intros Hw DV Hj. unfold reported. split; [tauto|]. intros [H1 H2]. split; [auto|]. split; [auto|]. exists (j - 1). split; [lia|]. split; [lia|]. apply H2; lia.
Qed.

Lemma line_peaks_lemma {V} (comp : V -> V -> bool) val a n w fm : StrictWeak comp ->
  0 < n < 2 ^ 31 -> - 2 ^ 31 <= a -> a + n - 1 < 2 ^ 31 -> 0 < w -> distinct_values comp val a n ->
  exists out, detect comp val (mkI [a] [n]) [w] fm = Ret (map (fun i => [i]) out) /\
    StronglySorted (fun i j => better comp val [i] [j]) out /\
    forall j, In j out <-> a < j < a + n /\ passes comp val fm [j] /\ window_best comp val a n w j.
Proof.
  intros SW Hn Ha Han Hw DV. destruct (line_detect_lemma comp val SW a n w Hn Ha Han ltac:(lia) (distinct_rare comp val a n DV) DV fm) as (out & E & S & H). exists out. split; [exact E|]. split; [auto|].
  intros j. rewrite H. split; intros [Hj Hr]; split; auto; apply (line_positive_window comp val a n w fm j Hw DV Hj); auto.
Qed.
Lemma line_complete_lemma {V} (comp : V -> V -> bool) val a n w : StrictWeak comp ->
  0 < n < 2 ^ 31 -> - 2 ^ 31 <= a -> a + n - 1 < 2 ^ 31 -> 0 < w -> distinct_values comp val a n ->
  exists out, detect comp val (mkI [a] [n]) [w] None = Ret out /\
    forall j, a < j < a + n -> window_best comp val a n w j -> In [j] out.
Proof.
  intros SW Hn Ha Han Hw DV. destruct (line_peaks_lemma comp val a n w None SW Hn Ha Han Hw DV) as (out & E & _ & H). eexists. split; [exact E|].
  intros j Hj Hb. apply in_map_iff. exists j. split; [auto|]. apply H. split; [auto|]. split; [exact I|auto].
Qed.
Lemma line_sound_lemma {V} (comp : V -> V -> bool) val a n w fm out : StrictWeak comp ->
  0 < n < 2 ^ 31 -> - 2 ^ 31 <= a -> a + n - 1 < 2 ^ 31 -> 0 <= w -> distinct_values comp val a n ->
  detect comp val (mkI [a] [n]) [w] fm = Ret out -> forall x, In x out -> exists j, x = [j] /\ window_best comp val a n w j.
Proof.
  intros SW Hn Ha Han Hw DV E x Hx. destruct (line_detect_lemma comp val SW a n w Hn Ha Han Hw (distinct_rare comp val a n DV) DV fm) as (out' & E' & _ & H). unfold ldom in E'. rewrite E in E'. injection E' as ->.
  apply in_map_iff in Hx as (j & <- & Hj). exists j. split; [auto|]. apply H in Hj as (_ & _ & Hb & _). exact Hb.
Qed.
Lemma zero_window_lemma {V} (comp : V -> V -> bool) val a n fm : StrictWeak comp ->
  0 < n < 2 ^ 31 -> - 2 ^ 31 <= a -> a + n - 1 < 2 ^ 31 -> distinct_values comp val a n ->
  exists out, detect comp val (mkI [a] [n]) [0] fm = Ret (map (fun i => [i]) out) /\
    StronglySorted (fun i j => better comp val [i] [j]) out /\
    forall j, In j out <-> a < j < a + n /\ passes comp val fm [j] /\ exists i, a <= i < j /\ better comp val [j] [i].
Proof.
  intros SW Hn Ha Han DV. destruct (line_detect_lemma comp val SW a n 0 Hn Ha Han ltac:(lia) (distinct_rare comp val a n DV) DV fm) as (out & E & S & H). exists out. split; [exact E|]. split; [auto|].
  intros j. rewrite H. unfold reported. split.
  - intros (Hj & Hp & _ & i & Hi & Hij & Hb). split; [auto|]. split; [auto|]. exists i. split; [|auto]. destruct (Z.eq_dec i j) as [->|]; [|lia]. unfold better in Hb. rewrite (sw_irrefl _ SW) in Hb. discriminate.
  - intros (Hj & Hp & i & Hi & Hb). split; [auto|]. split; [auto|]. split; [intros k Hk Hkw Hne; lia|]. exists i. split; [lia|]. split; [lia|auto].
Qed.

(** ** Refutations: histograms given as tables. *)
Definition table (l : list (list Z * Z)) (x : list Z) : Z :=
  match find (fun p => if list_eq_dec Z.eq_dec (fst p) x then true else false) l with Some p => snd p | None => 0 end.

Definition missed : list (list Z * Z) := [([0;0],1); ([1;0],2); ([2;0],3); ([2;1],5); ([1;1],0); ([0;1],4)].
Definition drift : list (list Z * Z) :=
  [([0;0;0],4); ([1;0;0],15); ([1;1;0],5); ([0;1;0],0); ([0;2;0],2); ([1;2;0],6); ([0;2;1],1); ([1;2;1],13); ([1;1;1],9); ([0;1;1],10);
   ([0;0;1],3); ([1;0;1],12); ([0;0;2],16); ([1;0;2],7); ([1;1;2],14); ([0;1;2],8); ([0;2;2],11); ([1;2;2],17)].

Lemma missed_table x : in_box [0; 0] [3; 2] x -> In x (map fst missed).
Proof.
  intros H. inversion H as [|m d x0 mn dm xs H1 H2]; subst. inversion H2 as [|m d x1 mn dm xs2 H3 H4]; subst. inversion H4; subst.
  assert (E0 : x0 = 0 \/ x0 = 1 \/ x0 = 2) by lia. assert (E1 : x1 = 0 \/ x1 = 1) by lia.
  destruct E0 as [->|[->| ->]], E1 as [->| ->]; cbn; tauto.
Qed.

Lemma gtb_sw : StrictWeak Z.gtb.
Proof. split; intros; rewrite Z.gtb_ltb in *; lia. Qed.

Lemma missed_lemma : exists (val : list Z -> Z) dom w x out,
  int_box (imin dom) (idim dom) /\ Forall (fun k => 0 < k) w /\
  (forall u v, in_box (imin dom) (idim dom) u -> in_box (imin dom) (idim dom) v -> u <> v -> val u <> val v) /\
  in_box (imin dom) (idim dom) x /\ x <> imin dom /\ window_best_nd Z.gtb val (in_box (imin dom) (idim dom)) w x /\
  detect Z.gtb val dom w None = Ret out /\ ~ In x out.
Proof.
  exists (table missed), (mkI [0; 0] [3; 2]), [1; 1], [0; 1], [[2; 1]]. cbn [imin idim].
  split; [split; [constructor; [lia|lia|lia|]; constructor; [lia|lia|lia|constructor]|cbn; lia]|].
  split; [repeat constructor; lia|]. split.
  { intros u v Hu Hv Hne E. apply Hne. apply missed_table in Hu, Hv. cbn [missed map fst In] in Hu, Hv.
    destruct Hu as [<-|[<-|[<-|[<-|[<-|[<-|[]]]]]]], Hv as [<-|[<-|[<-|[<-|[<-|[<-|[]]]]]]]; try reflexivity; vm_compute in E; discriminate E. }
  split; [repeat constructor; lia|]. split; [discriminate|]. split.
  { intros y Hy Hn Hne. apply missed_table in Hy. cbn [missed map fst In] in Hy. unfold near in Hn. unfold better.
    destruct Hy as [<-|[<-|[<-|[<-|[<-|[<-|[]]]]]]]; try (vm_compute; reflexivity).
    - exfalso. inversion Hn as [|? ? ? ? H1 H2]; subst. cbn in H1. lia.
    - now contradiction Hne. }
  split; [vm_compute; reflexivity|]. intros [H|[]]. discriminate.
Qed.

Lemma drift_table x : in_box [0; 0; 0] [2; 3; 3] x -> In x (map fst drift).
Proof.
  intros H. inversion H as [|m d x0 mn dm xs H1 H2]; subst. inversion H2 as [|m d x1 mn dm xs2 H3 H4]; subst. inversion H4 as [|m d x2 mn dm xs3 H5 H6]; subst. inversion H6; subst.
  assert (E0 : x0 = 0 \/ x0 = 1) by lia. assert (E1 : x1 = 0 \/ x1 = 1 \/ x1 = 2) by lia. assert (E2 : x2 = 0 \/ x2 = 1 \/ x2 = 2) by lia.
  destruct E0 as [->| ->], E1 as [->|[->| ->]], E2 as [->|[->| ->]]; cbn; tauto.
Qed.

Lemma drift_lemma : exists (val : list Z -> Z) dom w x y out,
  int_box (imin dom) (idim dom) /\ Forall (fun k => 0 < k) w /\
  (forall u v, in_box (imin dom) (idim dom) u -> in_box (imin dom) (idim dom) v -> u <> v -> val u <> val v) /\
  detect Z.gtb val dom w None = Ret out /\ In x out /\
  in_box (imin dom) (idim dom) y /\ near w x y /\ better Z.gtb val y x.
Proof.
  exists (table drift), (mkI [0; 0; 0] [2; 3; 3]), [2; 1; 1], [1; 2; 1].
  assert (D : exists out, detect Z.gtb (table drift) (mkI [0; 0; 0] [2; 3; 3]) [2; 1; 1] None = Ret out /\ In [1; 2; 1] out).
  { eexists. split; [vm_compute; reflexivity|]. cbn. tauto. }
  destruct D as (out & D1 & D2). exists [1; 2; 2], out. cbn [imin idim].
  split; [split; [constructor; [lia|lia|lia|]; constructor; [lia|lia|lia|]; constructor; [lia|lia|lia|constructor]|cbn; lia]|].
  split; [repeat constructor; lia|]. split.
  { intros u v Hu Hv Hne E. apply Hne. clear Hne. apply drift_table in Hu, Hv. revert u v Hu Hv E.
    assert (A : forallb (fun u => forallb (fun v => if list_eq_dec Z.eq_dec u v then true else negb (table drift u =? table drift v)) (map fst drift)) (map fst drift) = true) by (vm_compute; reflexivity).
    intros u v Hu Hv E. rewrite forallb_forall in A. specialize (A u Hu). rewrite forallb_forall in A. specialize (A v Hv).
    destruct (list_eq_dec Z.eq_dec u v); [auto|]. apply negb_true_iff, Z.eqb_neq in A. contradiction. }
  split; [exact D1|]. split; [exact D2|]. split; [repeat constructor; lia|]. split; [unfold near; cbn; repeat constructor; cbn; lia|]. vm_compute. reflexivity.
Qed.

(** ** More refutations: lines and planes of cells given row by row. *)
Definition row (l : list Z) (x : list Z) : Z := nth (Z.to_nat (hd 0 x)) l 0.
Definition grid (k : Z) (l : list Z) (x : list Z) : Z := nth (Z.to_nat (hd 0 x + k * hd 0 (tl x))) l 0.

Lemma tie_sound_witness : exists (val : list Z -> Z) a n w i j out, 0 < n < 2 ^ 31 /\ - 2 ^ 31 <= a /\ a + n - 1 < 2 ^ 31 /\ 0 < w /\
  detect Z.gtb val (mkI [a] [n]) [w] None = Ret out /\ In [j] out /\ a <= i < a + n /\ Z.abs (i - j) <= w /\ better Z.gtb val [i] [j].
Proof.
  exists (row [3; 1; 6; 0; 5; 4; 4; 1; 1; 0; 3; 3; 3; 1; 0; 2; 1; 0; 1; 0; 2; 1]), 0, 22, 3, 12, 15.
  eexists. split; [lia|]. split; [lia|]. split; [lia|]. split; [lia|]. split; [vm_compute; reflexivity|]. split; [simpl; tauto|]. split; [lia|]. split; [lia|]. vm_compute. reflexivity.
Qed.

Lemma tie_complete_witness : exists (val : list Z -> Z) a n w j out, 0 < n < 2 ^ 31 /\ - 2 ^ 31 <= a /\ a + n - 1 < 2 ^ 31 /\ 0 < w /\ a < j < a + n /\
  window_best Z.gtb val a n w j /\ detect Z.gtb val (mkI [a] [n]) [w] None = Ret out /\ ~ In [j] out.
Proof.
  exists (row [2; 2; 1; 0; 1]), 0, 5, 1, 4. eexists. split; [lia|]. split; [lia|]. split; [lia|]. split; [lia|]. split; [lia|]. split; [|split; [vm_compute; reflexivity|]].
  - intros i Hi Hw Hne. assert (i = 3) as -> by lia. reflexivity.
  - simpl. intuition discriminate.
Qed.

Lemma line_rare_lemma {V} (comp : V -> V -> bool) val a n w fm : StrictWeak comp ->
  0 < n < 2 ^ 31 -> - 2 ^ 31 <= a -> a + n - 1 < 2 ^ 31 -> 0 < w -> rare_ties comp val a n ->
  exists out, detect comp val (mkI [a] [n]) [w] fm = Ret (map (fun i => [i]) out) /\ NoDup out /\
    StronglySorted (fun i j => ~ better comp val [j] [i]) out /\
    (forall j, In j out -> a < j < a + n /\ passes comp val fm [j] /\ window_max comp val a n w j) /\
    (forall j, a < j < a + n -> passes comp val fm [j] -> window_best comp val a n w j -> (forall i, a <= i < j - w -> ~ level comp val [i] [j]) -> In j out).
Proof.
  intros SW Hn Ha Han Hw RT. destruct (line_tie_lemma comp val SW a n w Hn Ha Han ltac:(lia) RT fm) as (out & E & N & S & H1 & H2).
  exists out. split; [exact E|]. split; [auto|]. split; [auto|]. split; [exact H1|]. intros j Hj Hp Hb Hf. apply H2; [auto|]. split; [auto|]. split; [auto|]. split; [auto|].
  exists (j - 1). lia.
Qed.

Definition plane_vals : list Z := [32; 3; 29; 36; 16; 35; 14; 38; 10; 5; 19; 37; 2; 23; 27; 17; 31; 25; 34; 11; 28; 6; 18; 33; 7; 30; 9; 15; 13; 4; 1; 0; 26; 12; 21; 8; 22; 20; 24].
Lemma plane_index k l x y : 0 < k -> in_box [0; 0] [k; l] x -> in_box [0; 0] [k; l] y -> hd 0 x + k * hd 0 (tl x) = hd 0 y + k * hd 0 (tl y) -> x = y.
Proof.
  intros Hk Hx Hy. inversion Hx as [|m d x0 mn dm xs H1 H2]; subst. inversion H2 as [|m d x1 mn dm xs2 H3 H4]; subst. inversion H4; subst.
  inversion Hy as [|m d y0 mn dm ys K1 K2]; subst. inversion K2 as [|m d y1 mn dm ys2 K3 K4]; subst. inversion K4; subst. cbn [hd tl]. intros E.
  assert (x1 = y1) by nia. subst. f_equal. lia.
Qed.
Lemma plane_witness : exists (val : list Z -> Z) dom w x y out,
  length (idim dom) = 2%nat /\ int_box (imin dom) (idim dom) /\ Forall (fun k => 0 < k) w /\
  (forall u v, in_box (imin dom) (idim dom) u -> in_box (imin dom) (idim dom) v -> u <> v -> val u <> val v) /\
  detect Z.gtb val dom w None = Ret out /\ In x out /\
  in_box (imin dom) (idim dom) y /\ near w x y /\ better Z.gtb val y x.
Proof.
  exists (grid 3 plane_vals), (mkI [0; 0] [3; 13]), [1; 3], [2; 12], [2; 10]. eexists. cbn [imin idim length].
  split; [reflexivity|]. split; [split; [constructor; [lia|lia|lia|]; constructor; [lia|lia|lia|constructor]|cbn; lia]|].
  split; [repeat constructor; lia|]. split.
  { intros u v Hu Hv Hne E. apply Hne. apply (plane_index 3 13); auto; [lia|]. unfold grid in E.
    assert (B : forall x, in_box [0; 0] [3; 13] x -> 0 <= hd 0 x + 3 * hd 0 (tl x) < 39).
    { intros x Hx. inversion Hx as [|m d x0 mn dm xs H1 H2]; subst. inversion H2 as [|m d x1 mn dm xs2 H3 H4]; subst. inversion H4; subst. cbn [hd tl]. lia. }
    pose proof (B u Hu). pose proof (B v Hv). assert (ND : NoDup plane_vals) by (unfold plane_vals; repeat (constructor; [simpl; intuition discriminate|]); constructor).
    apply (proj1 (NoDup_nth plane_vals 0) ND) in E; [lia| |]; cbn [plane_vals length]; lia. }
  split; [vm_compute; reflexivity|]. split; [simpl; tauto|]. split; [repeat constructor; lia|]. split; [unfold near; cbn; repeat constructor; cbn; lia|]. vm_compute. reflexivity.
Qed.
