(** * The best cell of a histogram and the peak finder, in any dimension and whatever the other values. *)
From Coq Require Import List ZArith Bool Lia Permutation.
From Verif Require Import Base BaseLemmas IntervalModel IntervalSpec IntervalProofs MinMaxHeapModel MinMaxHeapSpec MinMaxHeapTree MinMaxHeapProofs MinMaxHeapOps MinMaxHeapRun
  PeakModel PeakSpec PeakProofs PeakLine.
Import ListNotations.
Ltac Zify.zify_post_hook ::= idtac.

(** ** The root of a heap that need not be in order *)
Local Open Scope nat_scope.
Section Root.
Context {A : Type}.
Variable dflt : A.
Variable cmp : A -> A -> bool.
Notation F d k := (nth k d dflt).

Lemma swap_other {B} (f : nat -> B) i j k : k <> i -> k <> j -> swap f i j k = f k.
Proof. intros H1 H2. unfold swap. destruct (Nat.eqb_spec k i); [lia|]. destruct (Nat.eqb_spec k j); [lia|]. reflexivity. Qed.
Lemma swap_right {B} (f : nat -> B) i j : swap f i j j = f i.
Proof. unfold swap. destruct (Nat.eqb_spec j i) as [->|]; [reflexivity|]. now rewrite Nat.eqb_refl. Qed.

(** An item that does not pass the test against the root stays below it. *)
Lemma gup_below test fuel : forall (d : list A) i j d' i', 0 < i < length d -> test (F d i) (F d 0) = false ->
  gup test fuel d i j = Ret (d', i') -> F d' 0 = F d 0 /\ 0 < i' < length d' /\ length d' = length d /\ F d' i' = F d i.
Proof.
  induction fuel as [|f IH]; intros d i j d' i' Hi Ht H; cbn [gup] in H; [discriminate|].
  destruct (Nat.ltb_spec j (length d)) as [Hj|Hj]; [|injection H as <- <-; auto]. rewrite (cmp_at_ok dflt) in H by lia. cbn [obind] in H.
  destruct (test (F d i) (F d j)) eqn:E; [|injection H as <- <-; auto].
  assert (Hj0 : j <> 0) by (intros ->; congruence).
  destruct (vswap_ok dflt d i j ltac:(lia) Hj) as (d1 & E1 & L1 & _ & N1). rewrite E1 in H. cbn [obind] in H.
  assert (R0 : F d1 0 = F d 0) by (rewrite N1; rewrite swap_other by lia; reflexivity).
  assert (Rj : F d1 j = F d i) by (rewrite N1, swap_right; reflexivity).
  destruct (IH d1 j _ d' i' ltac:(lia) ltac:(congruence) H) as (H1 & H2 & H3 & H4). split; [congruence|]. split; [lia|]. split; [lia|congruence].
Qed.

(** Along the odd levels the root is not touched. *)
Lemma gup_odd test fuel : forall (d : list A) i j d' i', 0 < i < length d -> (length d <= j \/ ev j = false) ->
  gup test fuel d i j = Ret (d', i') -> F d' 0 = F d 0.
Proof.
  induction fuel as [|f IH]; intros d i j d' i' Hi Hj H; cbn [gup] in H; [discriminate|].
  destruct (Nat.ltb_spec j (length d)) as [Hjl|Hjl]; [|injection H as <- <-; auto]. rewrite (cmp_at_ok dflt) in H by lia. cbn [obind] in H.
  destruct (test (F d i) (F d j)) eqn:E; [|injection H as <- <-; auto].
  destruct Hj as [Hj|Hj]; [lia|]. assert (Hj0 : j <> 0) by (intros ->; rewrite ev_0 in Hj; discriminate).
  destruct (vswap_ok dflt d i j ltac:(lia) Hjl) as (d1 & E1 & L1 & _ & N1). rewrite E1 in H. cbn [obind] in H.
  rewrite (IH d1 j _ d' i' ltac:(lia)) with (2 := H); [rewrite N1; rewrite swap_other by lia; reflexivity|].
  unfold hasGrandparent. destruct (Nat.ltb_spec 2 j); [right; now rewrite ev_gp by auto|left; lia].
Qed.

(** An item that passes the test against all others reaches the root. *)
Lemma gup_reach test fuel : forall (d : list A) i j d' i', i < length d -> (forall k, k < length d -> k <> i -> test (F d i) (F d k) = true) ->
  j < i -> ev j = true -> gup test fuel d i j = Ret (d', i') -> i' = 0 /\ F d' 0 = F d i /\ length d' = length d /\ (forall k, 0 < k < length d' -> test (F d' 0) (F d' k) = true).
Proof.
  induction fuel as [|f IH]; intros d i j d' i' Hi Hb Hji Hev H; cbn [gup] in H; [discriminate|].
  destruct (Nat.ltb_spec j (length d)) as [Hjl|Hjl]; [|lia]. rewrite (cmp_at_ok dflt) in H by lia. cbn [obind] in H. rewrite Hb in H by lia.
  destruct (vswap_ok dflt d i j Hi Hjl) as (d1 & E1 & L1 & _ & N1). rewrite E1 in H. cbn [obind] in H.
  assert (Rj : F d1 j = F d i) by (rewrite N1, swap_right; reflexivity).
  assert (B1 : forall k, k < length d1 -> k <> j -> test (F d1 j) (F d1 k) = true).
  { intros k Hk Hkj. rewrite Rj. destruct (Nat.eq_dec k i) as [->|Hki].
    - rewrite N1. unfold swap. rewrite Nat.eqb_refl. apply Hb; lia.
    - rewrite N1, swap_other by auto. apply Hb; lia. }
  unfold hasGrandparent in H. destruct (Nat.ltb_spec 2 j) as [Hg|Hg].
  - destruct (IH d1 j (grandparent j) d' i' ltac:(lia) B1) as (H1 & H2 & H3 & H4); auto; [unfold grandparent; apply Nat.div_lt_upper_bound; lia|now rewrite ev_gp|].
    split; [auto|]. split; [congruence|]. split; [lia|auto].
  - assert (j = 0) as ->. { destruct j as [|[|[|j]]]; auto; try lia; discriminate Hev. }
    destruct f as [|f]; [discriminate|]. cbn [gup] in H. rewrite <- L1 in H. rewrite Nat.ltb_irrefl in H. injection H as <- <-.
    split; [auto|]. split; [congruence|]. split; [lia|]. intros k Hk. apply B1; lia.
Qed.

Lemma last_nth (d : list A) x : F (d ++ [x]) (length d) = x.
Proof. rewrite app_nth2 by lia. now rewrite Nat.sub_diag. Qed.

Lemma push_below (d : list A) x d' : d <> [] -> cmp x (F d 0) = false -> push cmp d x = Ret d' -> F d' 0 = F d 0.
Proof.
  intros Hne Hc. unfold push, heapUp. set (D := d ++ [x]). set (i := length d).
  assert (Li : 0 < i) by (unfold i; destruct d; [congruence|cbn; lia]). assert (LD : length D = S i) by (unfold D, i; rewrite app_length; cbn; lia).
  assert (D0 : F D 0 = F d 0) by (unfold D; rewrite app_nth1; auto). assert (Di : F D i = x) by apply last_nth.
  set (imin := if MinMaxHeapModel.level i mod 2 =? 0 then _ else _). set (imax := if MinMaxHeapModel.level i mod 2 =? 0 then (if hasParent i then hparent i else length D) else _).
  rewrite up_min_g. destruct (gup cmp (S (length D)) D i imin) as [[d1 i1]| | |] eqn:E1; try discriminate. cbn [obind]. rewrite up_max_g.
  destruct (gup _ (S (length D)) d1 i1 imax) as [[d2 i2]| | |] eqn:E2; try discriminate. cbn [obind]. intros H. injection H as <-.
  assert (HiD : 0 < i < length D) by (rewrite LD; lia). assert (Hlow : cmp (F D i) (F D 0) = false) by (rewrite Di, D0; exact Hc).
  destruct (gup_below _ _ _ _ _ _ _ HiD Hlow E1) as (H1 & H2 & H3 & H4).
  rewrite (gup_odd _ _ _ _ _ _ _ H2) with (2 := E2); [congruence|]. rewrite H3.
  unfold imax. fold (ev i). destruct (ev i) eqn:Ev.
  - unfold hasParent. destruct (Nat.ltb_spec 0 i); [|lia]. right. rewrite ev_S in Ev by auto. now destruct (ev (hparent i)).
  - unfold hasGrandparent. destruct (Nat.ltb_spec 2 i); [right; now rewrite ev_gp|left; lia].
Qed.

Lemma push_reach (d : list A) x d' : (forall y, In y d -> cmp x y = true) -> push cmp d x = Ret d' -> F d' 0 = x.
Proof.
  intros Hb. destruct d as [|a t] eqn:Ed.
  { unfold push, heapUp. cbn. intros H. injection H as <-. reflexivity. }
  rewrite <- Ed in *. assert (Hne : d <> []) by (subst; discriminate). clear Ed a t.
  unfold push, heapUp. set (D := d ++ [x]). set (i := length d).
  assert (Li : 0 < i) by (unfold i; destruct d; [congruence|cbn; lia]). assert (LD : length D = S i) by (unfold D, i; rewrite app_length; cbn; lia).
  assert (Di : F D i = x) by apply last_nth.
  assert (B : forall k, k < length D -> k <> i -> cmp (F D i) (F D k) = true).
  { intros k Hk Hki. rewrite Di. apply Hb. unfold D. rewrite app_nth1 by (unfold i in *; lia). apply nth_In. unfold i in *. lia. }
  set (imin := if MinMaxHeapModel.level i mod 2 =? 0 then _ else _). set (imax := if MinMaxHeapModel.level i mod 2 =? 0 then (if hasParent i then hparent i else length D) else _).
  rewrite up_min_g. destruct (gup cmp (S (length D)) D i imin) as [[d1 i1]| | |] eqn:E1; try discriminate. cbn [obind]. rewrite up_max_g.
  assert (Hm : imin < i /\ ev imin = true).
  { unfold imin. fold (ev i). destruct (ev i) eqn:Ev.
    - unfold hasGrandparent. destruct (Nat.ltb_spec 2 i); [split; [unfold grandparent; apply Nat.div_lt_upper_bound; lia|now rewrite ev_gp]|].
      exfalso. destruct i as [|[|[|?]]]; try lia; discriminate Ev.
    - unfold hasParent. destruct (Nat.ltb_spec 0 i); [|lia]. split; [now apply hparent_lt|]. rewrite ev_S in Ev by auto. now destruct (ev (hparent i)). }
  assert (HiD : i < length D) by (rewrite LD; lia).
  destruct (gup_reach _ _ _ _ _ _ _ HiD B (proj1 Hm) (proj2 Hm) E1) as (-> & H2 & H3 & H4).
  assert (Hx : length d1 <= imax \/ imax < length d1 /\ negb (cmp (F d1 0) (F d1 imax)) = false).
  { destruct (Nat.le_gt_cases (length d1) imax) as [|Hl]; [now left|right]. split; [auto|]. rewrite H4; [reflexivity|]. split; [|auto].
    assert (Hne0 : imax <> 0); [|lia]. intros E0. unfold imax in E0. fold (ev i) in E0. destruct (ev i) eqn:Ev.
    - unfold hasParent in E0. destruct (Nat.ltb_spec 0 i); [|lia]. rewrite ev_S, E0, ev_0 in Ev by auto. discriminate.
    - unfold hasGrandparent in E0. destruct (Nat.ltb_spec 2 i); [|lia]. rewrite <- (ev_gp i), E0, ev_0 in Ev by auto. discriminate. }
  rewrite (gup_stop dflt _ _ d1 0 imax) by (auto; lia). cbn [obind]. intros H. injection H as <-. congruence.
Qed.
End Root.

Local Open Scope Z_scope.

(** ** Moving the window *)
Lemma cover_loop d : forall mn dm x m e incr, length mn = length dm -> length x = length dm -> nth_error mn d = Some m -> nth_error dm d = Some e ->
  inside_loop (lset mn d (m + incr)) dm x = true ->
  inside_loop mn dm x = true \/ (if 0 <=? incr then inside_loop (lset mn d (m + e)) (lset dm d incr) x else inside_loop (lset mn d (m + incr)) (lset dm d (- incr)) x) = true.
Proof.
  induction d as [|d IH]; intros [|a mn] [|b dm] [|y x] m e incr L1 L2 Em Ee H; cbn [length nth_error lset] in *; try discriminate.
  - injection Em as ->. injection Ee as ->. cbn [inside_loop] in *.
    destruct (Z.ltb_spec y (m + incr)), (Z.leb_spec (m + incr + e) y); cbn [orb] in H; try discriminate.
    destruct (Z.leb_spec 0 incr).
    + destruct (Z.ltb_spec y m); [lia|]. destruct (Z.leb_spec (m + e) y); cbn [orb]; [right|left; auto].
      destruct (Z.ltb_spec y (m + e)); [lia|]. destruct (Z.leb_spec (m + e + incr) y); [lia|]. exact H.
    + destruct (Z.leb_spec (m + e) y); [lia|]. destruct (Z.ltb_spec y m); cbn [orb]; [right|left; auto].
      destruct (Z.ltb_spec y (m + incr)); [lia|]. destruct (Z.leb_spec (m + incr + - incr) y); [lia|]. exact H.
  - cbn [inside_loop] in *. destruct ((y <? a) || (a + b <=? y)); [discriminate|].
    destruct (IH mn dm x m e incr) as [K|K]; auto; try lia.
Qed.

Lemma apart_loop d : forall mn dm x m e incr, length mn = length dm -> length x = length dm -> nth_error mn d = Some m -> nth_error dm d = Some e -> 0 < e ->
  (if 0 <=? incr then inside_loop (lset mn d (m + e)) (lset dm d incr) x else inside_loop (lset mn d (m + incr)) (lset dm d (- incr)) x) = true ->
  inside_loop mn dm x = false.
Proof.
  induction d as [|d IH]; intros [|a mn] [|b dm] [|y x] m e incr L1 L2 Em Ee He H; cbn [length nth_error lset] in *; try discriminate.
  - injection Em as ->. injection Ee as ->. cbn [inside_loop] in *. destruct (Z.leb_spec 0 incr).
    + destruct (Z.ltb_spec y (m + e)); [discriminate|]. destruct (Z.leb_spec (m + e) y); [|lia]. now rewrite orb_true_r.
    + destruct (Z.leb_spec (m + incr + - incr) y); [rewrite orb_true_r in H; discriminate|]. destruct (Z.ltb_spec y m); [reflexivity|lia].
  - cbn [inside_loop] in *. destruct ((y <? a) || (a + b <=? y)) eqn:E; [reflexivity|]. apply (IH mn dm x m e incr); auto; try lia.
Qed.

Lemma move_cover dim win d incr st win' x : win_ok dim win -> (d < dim)%nat -> stacked win d incr = Ret st -> translate win d incr = Ret win' -> length x = dim ->
  (inside win' x = true -> inside win x = true \/ inside st x = true) /\ (inside st x = true -> inside win x = false).
Proof.
  intros (L1 & L2 & HF) Hd. unfold stacked, translate. rewrite L1. destruct (Nat.ltb_spec d dim); [|lia].
  destruct (nth_error_ex (imin win) d ltac:(lia)) as [m Em]. destruct (nth_error_ex (idim win) d ltac:(lia)) as [e Ee].
  unfold vread. rewrite Em, Ee. cbn [obind]. intros H1 H2 Lx. injection H1 as <-. injection H2 as <-. unfold inside. cbn [imin idim].
  assert (He : 0 < e) by (rewrite Forall_forall in HF; apply HF; eapply nth_error_In; eauto). split; intros Hin.
  - destruct (cover_loop d (imin win) (idim win) x m e incr) as [K|K]; auto; try lia. right. destruct (0 <=? incr); exact K.
  - apply (apart_loop d (imin win) (idim win) x m e incr); auto; try lia. destruct (0 <=? incr); exact Hin.
Qed.

(** ** The window follows the cell *)
Lemma incr_loop_same post : forall d dm im, incr_loop d post post dm im = (dm, im).
Proof. induction post as [|p post IH]; intros d dm im; cbn [incr_loop]; [reflexivity|]. rewrite Z.sub_diag. destruct (Z.ltb_spec (Z.abs im) (Z.abs 0)); [lia|]. apply IH. Qed.
Lemma incr_loop_nb pre a b post : forall d dm, a <> b -> incr_loop d (pre ++ a :: post) (pre ++ b :: post) dm 0 = ((d + length pre)%nat, b - a).
Proof.
  induction pre as [|p pre IH]; intros d dm Hab; cbn [app incr_loop length].
  - destruct (Z.ltb_spec (Z.abs 0) (Z.abs (b - a))); [|lia]. rewrite incr_loop_same. f_equal. lia.
  - rewrite Z.sub_diag. destruct (Z.ltb_spec (Z.abs 0) (Z.abs 0)); [lia|]. rewrite IH by auto. f_equal. lia.
Qed.
Lemma map2_app_mid (f : Z -> Z -> Z) pre a post : forall w, length w = length (pre ++ a :: post) ->
  exists wa wm wb, w = wa ++ wm :: wb /\ length wa = length pre /\ forall b, map2 f (pre ++ b :: post) w = map2 f pre wa ++ f b wm :: map2 f post wb.
Proof.
  induction pre as [|p pre IH]; intros [|y w] L; cbn [app length map2] in *; try discriminate.
  - exists [], y, w. auto.
  - destruct (IH w ltac:(lia)) as (wa & wm & wb & -> & L1 & H). exists (y :: wa), wm, wb. split; [reflexivity|]. split; [cbn [length]; lia|].
    intros b. cbn [map2 app]. f_equal. apply H.
Qed.
Lemma lset_mid {B} (l : list B) x r y : lset (l ++ x :: r) (length l) y = l ++ y :: r.
Proof. induction l as [|a l IH]; cbn [app length lset]; [reflexivity|]. now rewrite IH. Qed.
Lemma nth_error_mid {B} (l : list B) x r : nth_error (l ++ x :: r) (length l) = Some x.
Proof. induction l as [|a l IH]; cbn [app length nth_error]; auto. Qed.
Lemma map2_length f a : forall b, length b = length a -> length (map2 f a b) = length a.
Proof. induction a as [|x a IH]; intros [|y b] L; cbn [length map2] in *; try discriminate; auto. Qed.

Lemma follow prev cur w : neighbours prev cur -> length w = length prev ->
  exists d incr, findIncrement prev cur = (d, incr) /\ translate (initCentered prev w) d incr = Ret (initCentered cur w).
Proof.
  intros (pre & a & b & post & -> & -> & Hab) Lw. exists (length pre), (b - a). unfold findIncrement. rewrite incr_loop_nb by lia. split; [reflexivity|].
  destruct (map2_app_mid Z.sub pre a post w Lw) as (wa & wm & wb & Ew & La & H). unfold initCentered, translate. cbn [imin idim]. rewrite !H.
  assert (Lp : length (map2 Z.sub pre wa) = length pre) by (apply map2_length; auto).
  destruct (Nat.ltb_spec (length pre) (length (map2 Z.sub pre wa ++ (a - wm) :: map2 Z.sub post wb))) as [_|X]; [|rewrite app_length in X; cbn [length] in X; lia].
  unfold vread. rewrite <- Lp at 1. rewrite nth_error_mid. cbn [obind]. rewrite <- Lp at 1. rewrite lset_mid. f_equal. f_equal; [f_equal; f_equal; lia|].
  clear. revert w. induction pre as [|p pre IH]; intros [|y w]; cbn [app map2]; try reflexivity. f_equal. apply IH.
Qed.

Lemma centred_near w : forall x y, length w = length x -> length w = length y -> near w x y -> inside (initCentered x w) y = true.
Proof.
  unfold inside, initCentered, near. cbn [imin idim]. induction w as [|k w IH]; intros [|z x] [|u y] L L2 H; cbn [length] in L, L2; try discriminate; [reflexivity|].
  cbn [combine map fst snd] in H. inversion H as [|? ? ? ? H1 H2]; subst.
  cbn [map2 inside_loop]. destruct (Z.ltb_spec u (z - k)); [lia|]. destruct (Z.leb_spec (z - k + (2 * k + 1)) u); [lia|]. cbn [orb]. apply IH; auto.
Qed.
Lemma centred_self w x : Forall (fun k => 0 <= k) w -> length w = length x -> inside (initCentered x w) x = true.
Proof.
  intros H L. apply centred_near; auto. unfold near. revert x L. induction H as [|k w Hk HF IH]; intros [|z x] L; cbn [length] in L; try discriminate; [constructor|].
  cbn [combine map fst snd]. constructor; [rewrite Z.sub_diag; exact Hk|apply IH; lia].
Qed.

Fixpoint steps (prev : list Z) (cells : list (list Z)) : Prop := match cells with [] => True | c :: r => neighbours prev c /\ steps c r end.

(** ** The scan *)
Section Best.
Context {V : Type}.
Variable comp : V -> V -> bool.
Variable val : list Z -> V.
Hypothesis SW : StrictWeak comp.
Notation icmp := (icmp comp val).
Variable dom : interval.
Variable w : list Z.
Hypothesis Hbox : int_box (imin dom) (idim dom).
Hypothesis Lw : length w = length (idim dom).
Hypothesis Hw : Forall (fun x => 0 <= x) w.
Variable b : list Z.
Hypothesis Hb : in_box (imin dom) (idim dom) b.
Hypothesis Hbest : forall y, in_box (imin dom) (idim dom) y -> y <> b -> better comp val b y.
Notation cell x := (in_box (imin dom) (idim dom) x).

Definition alone (h : list (list Z)) : Prop := exists t, h = b :: t /\ ~ In b t.
(** If the best cell is in the heap, it is there once and at the root. *)
Definition rooted (h : list (list Z)) : Prop := In b h -> alone h.

Lemma best_cmp y : cell y -> y <> b -> icmp b y = true /\ icmp y b = false.
Proof. intros Hy Hne. pose proof (Hbest y Hy Hne) as H. split; [exact H|]. now apply (sw_asym icmp (icmp_sw comp val SW)). Qed.

Lemma nth0_alone h : In b h -> nth 0 h b = b -> (count_occ (list_eq_dec Z.eq_dec) h b <= 1)%nat -> alone h.
Proof.
  intros Hin H0 Hc. destruct h as [|x t]; [contradiction|]. cbn [nth] in H0. subst x. exists t. split; [reflexivity|]. intros Ht.
  rewrite count_occ_cons_eq in Hc by reflexivity. apply (count_occ_In (list_eq_dec Z.eq_dec)) in Ht. lia.
Qed.

Lemma push_rooted h x h' : Forall (fun y => cell y) h -> rooted h -> cell x -> (x = b -> ~ In b h) -> push icmp h x = Ret h' ->
  rooted h' /\ Permutation (x :: h) h' /\ Forall (fun y => cell y) h'.
Proof.
  intros HF Hr Hx Hxb E. destruct (push_total x icmp h x) as (h2 & E2 & P). rewrite E in E2. injection E2 as <-.
  split; [|split; [auto|eapply Permutation_Forall; [exact P|now constructor]]].
  intros Hin. assert (Hin2 : In b (x :: h)) by (eapply Permutation_in; [symmetry; exact P|auto]).
  assert (Pc : forall z, count_occ (list_eq_dec Z.eq_dec) h' z = count_occ (list_eq_dec Z.eq_dec) (x :: h) z) by (intros z; symmetry; apply (Permutation_count_occ (list_eq_dec Z.eq_dec)); auto).
  destruct (list_eq_dec Z.eq_dec x b) as [->|Hne].
  - specialize (Hxb eq_refl). apply nth0_alone; auto.
    + apply (push_reach b icmp h b h'); auto. intros y Hy. rewrite Forall_forall in HF. apply best_cmp; auto. intros ->. contradiction.
    + rewrite Pc, count_occ_cons_eq by reflexivity. apply (count_occ_not_In (list_eq_dec Z.eq_dec)) in Hxb. lia.
  - destruct Hin2 as [->|Hin2]; [congruence|]. destruct (Hr Hin2) as (t & -> & Ht). apply nth0_alone; auto.
    + rewrite (push_below b icmp (b :: t) x h'); auto; [discriminate|]. cbn [nth]. now apply best_cmp.
    + rewrite Pc, count_occ_cons_neq, count_occ_cons_eq by auto. apply (count_occ_not_In (list_eq_dec Z.eq_dec)) in Ht. lia.
Qed.

Lemma push_all_rooted l : forall h, Forall (fun y => cell y) h -> rooted h -> Forall (fun y => cell y) l -> NoDup l -> (In b l -> ~ In b h) ->
  exists h', push_all comp val h l = Ret h' /\ rooted h' /\ Permutation (l ++ h) h' /\ Forall (fun y => cell y) h'.
Proof.
  induction l as [|x l IH]; intros h HF Hr Hl Hnd Hlb; cbn [push_all]; [exists h; auto|]. inversion Hl as [|? ? Hx Hl']; subst. inversion Hnd as [|? ? Nx Nl]; subst.
  destruct (push_total x icmp h x) as (h1 & E1 & P1). rewrite E1. cbn [obind].
  destruct (push_rooted h x h1) as (R1 & _ & F1); auto. { intros ->. apply Hlb. now left. }
  destruct (IH h1 F1 R1 Hl' Nl) as (h' & E & R & P & F').
  { intros Hin Hin1. apply (Permutation_in _ (Permutation_sym P1)) in Hin1. destruct Hin1 as [->|Hin1]; [contradiction|]. apply Hlb; [now right|auto]. }
  exists h'. split; [auto|]. split; [auto|]. split; [|auto]. rewrite <- P, <- P1. cbn [app]. apply Permutation_middle.
Qed.

Lemma purge_rooted win f : forall h, (length h < f)%nat -> rooted h -> exists h', purge comp val f win h = Ret h' /\ rooted h' /\
  (In b h' -> inside win b = true) /\ (forall x, In x h' -> In x h) /\ (forall x, In x h -> inside win x = true -> In x h').
Proof.
  induction f as [|f IH]; intros h Hl Hr; [lia|]. cbn [purge]. destruct h as [|x h0] eqn:Eh.
  - exists []. split; [auto|]. split; [auto|]. split; [intros []|]. auto.
  - rewrite <- Eh in *. assert (Hne : h <> []) by (subst; discriminate). rewrite (top_total x h Hne). cbn [obind].
    assert (E0 : nth 0 h x = x) by (subst; reflexivity). rewrite E0. destruct (inside win x) eqn:Ei.
    + exists h. split; [auto|]. split; [auto|]. split; [|auto]. intros Hin. destruct (Hr Hin) as (t & Et & _). rewrite Eh in Et. injection Et as -> _. auto.
    + destruct (popTop_total x icmp h Hne) as (h1 & E1 & P1). rewrite E0 in P1. rewrite E1. cbn [obind].
      assert (Hnb : ~ In b h1).
      { intros Hin. assert (Hin' : In b h) by (apply (Permutation_in _ (Permutation_sym P1)); now right). destruct (Hr Hin') as (t & Et & Ht). rewrite Eh in Et. injection Et as -> ->.
        rewrite Eh in P1. apply Permutation_cons_inv in P1. apply Ht. eapply Permutation_in; [symmetry; exact P1|auto]. }
      assert (Hl1 : (length h1 < f)%nat) by (apply Permutation_length in P1; cbn [length] in P1; lia).
      destruct (IH h1 Hl1) as (h' & E & R & H1 & H2 & H3); [intros Hin; contradiction|]. exists h'. split; [auto|]. split; [auto|]. split; [auto|]. split.
      * intros y Hy. apply (Permutation_in _ (Permutation_sym P1)). right. auto.
      * intros y Hy Hyi. apply H3; auto. apply (Permutation_in _ P1) in Hy. destruct Hy as [->|Hy]; [congruence|auto].
Qed.

(** What is known of the items when the window is [win]. *)
Definition binv (win : interval) (items : list (list Z)) : Prop :=
  win_ok (length (idim dom)) win /\ Forall (fun y => cell y) items /\ rooted items /\ (In b items -> inside win b = true) /\
  (forall x, cell x -> inside win x = true -> In x items).

Lemma cell_len x : cell x -> length x = length (idim dom).
Proof. intros H. now apply in_box_length in H as [_ H]. Qed.
Lemma cell_inside x : length x = length (idim dom) -> (inside dom x = true <-> cell x).
Proof.
  intros L. unfold inside. apply inside_in_box; auto. destruct Hbox as [Hc _]. clear - Hc. induction Hc; cbn [length]; congruence.
Qed.

Lemma binv_step win items d incr : binv win items -> (d < length (idim dom))%nat -> incr <> 0 ->
  exists st l items1 win' items2, stacked win d incr = Ret st /\ iterate_raster (intersect st dom) = Ret l /\ push_all comp val items l = Ret items1 /\
    translate win d incr = Ret win' /\ purge comp val (S (length items1)) win' items1 = Ret items2 /\ binv win' items2.
Proof.
  intros (W & HF & Hr & Hi & Hc) Hd Hincr. destruct (move_ok _ win d incr W Hd Hincr) as (st & win' & E1 & E2 & (S1 & S2 & S3) & W').
  destruct (iterate_meet st dom Hbox S1 S2 S3) as (l & E3 & N3 & H3).
  assert (Fl : Forall (fun y => cell y) l). { apply Forall_forall. intros x Hx. apply H3 in Hx as (H1 & _ & H2). now apply cell_inside. }
  destruct (push_all_rooted l items HF Hr Fl N3) as (items1 & E4 & R4 & P4 & F4).
  { intros Hbl Hbi. apply H3 in Hbl as (H1 & H2 & _). destruct (move_cover _ win d incr st win' b W Hd E1 E2 H1) as [_ K]. specialize (K H2). rewrite (Hi Hbi) in K. discriminate. }
  destruct (purge_rooted win' (S (length items1)) items1 ltac:(lia) R4) as (items2 & E5 & R5 & H51 & H52 & H53).
  exists st, l, items1, win', items2. split; [auto|]. split; [auto|]. split; [auto|]. split; [auto|]. split; [auto|].
  split; [auto|]. split; [|split; [auto|split; [auto|]]].
  - rewrite Forall_forall in *. auto.
  - intros x Hx Hxi. apply H53; auto. apply (Permutation_in _ P4). apply in_or_app.
    destruct (move_cover _ win d incr st win' x W Hd E1 E2 (cell_len x Hx)) as [K _]. destruct (K Hxi) as [K1|K1]; [right; auto|left].
    apply H3. split; [now apply cell_len|]. split; [auto|]. apply cell_inside; auto. now apply cell_len.
Qed.

Lemma next_single {A} (cmp : A -> A -> bool) x : nextTop cmp [x] = Ret x.
Proof. reflexivity. Qed.
Lemma peak_best fm win items y : binv win items -> passes comp val fm b -> cell y -> y <> b -> inside win y = true ->
  is_peak comp val fm items b = Ret true.
Proof.
  intros (_ & HF & Hr & _ & Hc) Hp Hy Hyb Hyi. unfold is_peak.
  assert (Hpass : (match fm with None => true | Some vmin => comp (val b) vmin end) = true) by (unfold passes in Hp; destruct fm; auto). rewrite Hpass.
  pose proof (Hc y Hy Hyi) as Hyin. destruct items as [|t0 t]; [contradiction|]. set (h := t0 :: t) in *. assert (Et : top h = Ret t0) by reflexivity.
  assert (Hi : forall x, In x h -> x <> b -> comp (val b) (val x) = true /\ comp (val x) (val b) = false) by (intros x Hx Hxb; rewrite Forall_forall in HF; apply best_cmp; auto).
  rewrite Et. cbn [obind]. assert (Ht0 : comp (val t0) (val b) = false).
  { destruct (list_eq_dec Z.eq_dec t0 b) as [->|Hne]; [apply (sw_irrefl _ SW)|]. apply Hi; auto. now left. }
  rewrite Ht0. destruct (Nat.le_gt_cases 2 (length h)) as [Hl|Hl].
  - destruct (nextTop_pos icmp b h Hl) as (k & Hk & ->). cbn [obind]. f_equal.
    assert (Hn : In (nth k h b) h) by (apply nth_In; lia). apply Hi; auto. intros E.
    destruct (Hr ltac:(rewrite <- E; auto)) as (t' & Et' & Ht'). unfold h in *. injection Et' as -> ->. destruct k as [|k]; [lia|]. cbn [nth length] in *. apply Ht'. rewrite <- E. apply nth_In. lia.
  - assert (t = []) as -> by (unfold h in Hl; destruct t; [auto|cbn [length] in Hl; lia]). destruct Hyin as [->|[]]. unfold h. rewrite next_single. cbn [obind]. f_equal. apply Hi; auto; now left.
Qed.

(** The windows met along the cells; at the best cell the window holds another one. *)
Fixpoint wins (prev : list Z) (win : interval) (cells : list (list Z)) : Prop :=
  match cells with
  | [] => True
  | c :: r => exists win', (let '(d, i) := findIncrement prev c in translate win d i) = Ret win' /\
      (c = b -> exists y, cell y /\ y <> b /\ inside win' y = true) /\ wins c win' r
  end.

(** The best cell is first among the maxima once met. *)
Lemma scan_best fm : passes comp val fm b -> forall cells prev win items maxima, NoDup (prev :: cells) -> Forall (fun x => cell x) (prev :: cells) -> wins prev win cells ->
  binv win items -> Forall (fun x => cell x) maxima -> rooted maxima -> (forall x, In x maxima -> ~ In x cells) ->
  exists maxima', scan comp val dom fm cells prev win items maxima = Ret maxima' /\ rooted maxima' /\ (In b maxima \/ In b cells -> In b maxima').
Proof.
  intros Hp. induction cells as [|cur rest IH]; intros prev win items maxima Hnd HF Hst HI HM Hr Hdis; cbn [scan].
  - exists maxima. split; [reflexivity|]. split; [auto|]. intros [H|[]]. auto.
  - inversion HF as [|? ? Fp HF']; subst. inversion HF' as [|? ? Fc Fr]; subst. inversion Hnd as [|? ? Np Hnd']; subst. inversion Hnd' as [|? ? Nc Hnd'']; subst.
    cbn [wins] in Hst. destruct Hst as (win1 & Etr & Hnear & Hst).
    destruct (findIncrement_spec prev cur) as [F1 F2]; [rewrite (cell_len prev Fp), (cell_len cur Fc); reflexivity|intros ->; apply Np; now left|].
    destruct (findIncrement prev cur) as [d incr] eqn:Ef. cbn [fst snd] in F1, F2. rewrite (cell_len prev Fp) in F1.
    destruct (binv_step _ items d incr HI F1 F2) as (st & l & items1 & win' & items2 & E1 & E2 & E3 & E4 & E5 & HI2).
    rewrite E1. cbn [obind]. rewrite E2. cbn [obind]. rewrite E3. cbn [obind]. rewrite E4. cbn [obind]. rewrite E5. cbn [obind].
    rewrite Etr in E4. injection E4 as <-. destruct (is_peak_total comp val fm items2 cur) as (bb & E6 & _).
    assert (Hcur : cur = b -> bb = true).
    { intros ->. destruct (Hnear eq_refl) as (y & Hy & Hyb & Hyi). cut (is_peak comp val fm items2 b = Ret true); [congruence|]. apply (peak_best fm win1 items2 y); auto. }
    rewrite E6. cbn [obind]. destruct bb.
    + destruct (push_total cur icmp maxima cur) as (m1 & E7 & P7). rewrite E7. cbn [obind].
      destruct (push_rooted maxima cur m1 HM Hr Fc) as (R7 & _ & F7); auto. { intros -> Hin. apply (Hdis b Hin). now left. }
      destruct (IH cur win1 items2 m1 Hnd' HF' Hst HI2 F7 R7) as (mx & E8 & R8 & H8).
      { intros x Hx. apply (Permutation_in _ (Permutation_sym P7)) in Hx. destruct Hx as [<-|Hx]; [auto|]. intros Hxr. apply (Hdis x Hx). now right. }
      exists mx. split; [exact E8|]. split; [auto|]. intros [H|[->|H]]; apply H8; [left; apply (Permutation_in _ P7); now right|left; apply (Permutation_in _ P7); now left|now right].
    + cbn [obind]. destruct (IH cur win1 items2 maxima Hnd' HF' Hst HI2 HM Hr) as (mx & E8 & R8 & H8). { intros x Hx Hxr. apply (Hdis x Hx). now right. }
      exists mx. split; [exact E8|]. split; [auto|]. intros [H|[->|H]]; apply H8; [auto|specialize (Hcur eq_refl); discriminate|now right].
Qed.

Notation walk k n := (map (fun p => map2 Z.add (bz (idim dom) p) (imin dom)) (zseq k n)).
Lemma detect_best fm : wins (imin dom) (initCentered (imin dom) w) (walk 1 (Z.to_nat (vol (idim dom) - 1))) -> b <> imin dom -> passes comp val fm b ->
  exists out, detect comp val dom w fm = Ret (b :: out).
Proof.
  intros Hwins Hb0 Hp. pose proof Hbox as [Hc Hv].
  assert (Ld : length (imin dom) = length (idim dom)) by (clear - Hc; induction Hc; cbn [length]; congruence).
  assert (Hpd : pos_dims (idim dom)) by (clear - Hc; unfold pos_dims; induction Hc; constructor; auto).
  assert (Hnn : nonneg_dims dom) by (unfold nonneg_dims; eapply Forall_impl; [|exact Hpd]; cbn; intros; lia).
  pose proof (vol_pos _ Hpd) as Hvp.
  destruct (iterate_gen boust_getIndices dom (fun p => map2 Z.add (bz (idim dom) p) (imin dom)) Ld Hnn Hv) as (cells & Ec & Nc & Hin & _ & Hmap).
  { intros _. split; [|split; [|split]].
    - intros p Hp'. apply boust_pure; auto. lia.
    - intros p Hp'. now apply bz_in_box.
    - intros p q Hp' Hq E. apply (bz_inj _ Hpd); auto. apply (map2_add_inj _ _ (imin dom)); auto; rewrite bz_length; auto.
    - intros x Hx. apply bz_surj. exact Hx. }
  unfold detect. unfold iterate_boustrophedon. rewrite Ec. cbn [obind]. specialize (Hmap Hpd).
  replace (Z.to_nat (vol (idim dom))) with (S (Z.to_nat (vol (idim dom) - 1))) in Hmap by lia. rewrite zseq_S in Hmap. cbn [map] in Hmap.
  change (0 + 1) with 1 in Hmap.
  assert (E0 : map2 Z.add (bz (idim dom) 0) (imin dom) = imin dom).
  { clear - Ld Hpd. revert Ld. generalize (imin dom). induction Hpd as [|d dm Hd Hdm IH]; intros [|m mn] L; cbn [length] in L; try lia; [reflexivity|]. cbn [bz map2].
    rewrite Zmod_0_l, Zdiv_0_l. assert (Eh : hdd dm 0 = 0) by (destruct dm; [reflexivity|apply Zmod_0_l]). rewrite Eh. cbn [Z.even]. f_equal. apply IH. lia. }
  rewrite E0 in Hmap. set (rest := map _ (zseq 1 _)) in *. rewrite Hmap.
  assert (Hcell : Forall (fun x => cell x) (imin dom :: rest)).
  { rewrite <- Hmap. apply Forall_forall. intros x Hx. apply Hin in Hx as [H1 H2]. now apply cell_inside. }
  pose proof (initCentered_ok comp val (imin dom) w (length (idim dom)) Ld Lw Hw) as W. pose proof W as (W1 & W2 & W3).
  destruct (iterate_meet _ dom Hbox W1 W2 W3) as (l & E3 & N3 & H3). rewrite E3. cbn [obind].
  assert (Fl : Forall (fun y => cell y) l). { apply Forall_forall. intros x Hx. apply H3 in Hx as (H1 & _ & H2). now apply cell_inside. }
  destruct (push_all_rooted l []) as (items & E4 & R4 & P4 & F4); auto; [intros []|]. rewrite E4. cbn [obind]. rewrite app_nil_r in P4.
  assert (HI : binv (initCentered (imin dom) w) items).
  { split; [auto|]. split; [auto|]. split; [auto|]. split.
    - intros Hbi. apply (Permutation_in _ (Permutation_sym P4)) in Hbi. now apply H3 in Hbi as (_ & H & _).
    - intros x Hx Hxi. apply (Permutation_in _ P4). apply H3. split; [now apply cell_len|]. split; [auto|]. apply cell_inside; auto. now apply cell_len. }
  destruct (scan_best fm Hp rest (imin dom) (initCentered (imin dom) w) items []) as (mx & E5 & R5 & H5); auto; [now rewrite <- Hmap|intros []|].
  rewrite E5. cbn [obind]. assert (Hbm : In b mx).
  { apply H5. right. assert (Hbc : In b cells) by (apply Hin; split; [now apply cell_len|]; apply cell_inside; auto; now apply cell_len). rewrite Hmap in Hbc. destruct Hbc as [E|Hbc]; [congruence|auto]. }
  destruct (R5 Hbm) as (t & -> & _). cbn [length drain]. change (top (b :: t)) with (Ret b). cbn [obind].
  destruct (popTop_total b icmp (b :: t)) as (h1 & E6 & P6); [discriminate|]. rewrite E6. cbn [obind]. cbn [nth] in P6. apply Permutation_cons_inv in P6.
  destruct (drain_total comp val (length t) h1) as (out & E7 & _); [now rewrite (Permutation_length P6)|]. rewrite E7. cbn [obind]. eauto.
Qed.

(** The window follows the cell when successive cells are neighbours. *)
Lemma zig_wins y : zigzag_ok (idim dom) -> cell y -> y <> b -> near w b y ->
  wins (imin dom) (initCentered (imin dom) w) (walk 1 (Z.to_nat (vol (idim dom) - 1))).
Proof.
  intros Hz Hy Hyb Hny. pose proof Hbox as [Hc Hv].
  assert (Ld : length (imin dom) = length (idim dom)) by (clear - Hc; induction Hc; cbn [length]; congruence).
  assert (Hpd : pos_dims (idim dom)) by (clear - Hc; unfold pos_dims; induction Hc; constructor; auto).
  pose proof (vol_pos _ Hpd) as Hvp.
  assert (E0 : map2 Z.add (bz (idim dom) 0) (imin dom) = imin dom).
  { clear - Ld Hpd. revert Ld. generalize (imin dom). induction Hpd as [|d dm Hd Hdm IH]; intros [|m mn] L; cbn [length] in L; try lia; [reflexivity|]. cbn [bz map2].
    rewrite Zmod_0_l, Zdiv_0_l. assert (Eh : hdd dm 0 = 0) by (destruct dm; [reflexivity|apply Zmod_0_l]). rewrite Eh. cbn [Z.even]. f_equal. apply IH. lia. }
  assert (Hst : forall m p, 0 <= p -> p + 1 + Z.of_nat m <= vol (idim dom) ->
    wins (map2 Z.add (bz (idim dom) p) (imin dom)) (initCentered (map2 Z.add (bz (idim dom) p) (imin dom)) w) (walk (p + 1) m)).
  { induction m as [|m IH]; intros p Hp0 Hpm; [exact I|]. rewrite zseq_S. cbn [map wins].
    destruct (follow (map2 Z.add (bz (idim dom) p) (imin dom)) (map2 Z.add (bz (idim dom) (p + 1)) (imin dom)) w) as (d & incr & Ef & Etr).
    { apply nb_shift; rewrite ?bz_length; auto. apply (proj2 (all_nb_ok _ Hpd) Hz); lia. }
    { rewrite map2_length; rewrite ?bz_length; auto. }
    eexists. rewrite Ef. split; [exact Etr|]. split; [|apply IH; lia]. intros ->. exists y. split; [auto|]. split; [auto|].
    apply centred_near; auto; [now rewrite Lw, (cell_len b Hb)|now rewrite Lw, (cell_len y Hy)]. }
  specialize (Hst (Z.to_nat (vol (idim dom) - 1)) 0). rewrite E0 in Hst. apply Hst; lia.
Qed.
End Best.

(** ** Three dimensions: when the middle extent is odd the window stays on the first layer. *)
Ltac same3 := match goal with |- Ret (mkI [?a; ?b; ?c] _) = Ret (mkI [?a'; ?b'; ?c'] _) => replace a with a' by lia; replace b with b' by lia; replace c with c' by lia; reflexivity end.
Section Three.
Variables d0 d1 d2 m0 m1 m2 w0 w1 w2 : Z.
Hypothesis H0 : 1 < d0.
Hypothesis H1 : 0 < d1.
Hypothesis H2 : 0 < d2.
Hypothesis Odd : Z.even d1 = false.
Notation C p := (map2 Z.add (bz [d0; d1; d2] p) [m0; m1; m2]).
Definition flat (x : list Z) : list Z := match x with [i; j; _] => [i; j; m2] | _ => x end.

Lemma flat_follow p : 0 <= p -> p + 1 < vol [d0; d1; d2] ->
  (let '(d, i) := findIncrement (C p) (C (p + 1)) in translate (initCentered (flat (C p)) [w0; w1; w2]) d i) = Ret (initCentered (flat (C (p + 1))) [w0; w1; w2]).
Proof.
  intros Hp Hv. cbn [vol fold_right] in Hv. cbn [bz hdd map2]. set (q := p / d0). set (s := q / d1).
  assert (Eq : p = d0 * q + p mod d0) by (apply Z.div_mod; lia). pose proof (Z.mod_pos_bound p d0 ltac:(lia)) as Br. set (r := p mod d0) in *.
  assert (Es : q = d1 * s + q mod d1) by (apply Z.div_mod; lia). pose proof (Z.mod_pos_bound q d1 ltac:(lia)) as Bt. set (t := q mod d1) in *.
  assert (Ep : (p + 1) / d0 = (if r + 1 <? d0 then q else q + 1) /\ (p + 1) mod d0 = (if r + 1 <? d0 then r + 1 else 0)).
  { destruct (Z.ltb_spec (r + 1) d0).
    - split; [symmetry; apply (Z.div_unique _ _ _ (r + 1)); lia|symmetry; apply (Z.mod_unique _ _ q); lia].
    - split; [symmetry; apply (Z.div_unique _ _ _ 0); nia|symmetry; apply (Z.mod_unique _ _ (q + 1)); nia]. }
  destruct Ep as [-> ->]. destruct (Z.ltb_spec (r + 1) d0) as [Hr|Hr].
  - fold t s. unfold findIncrement. cbn [incr_loop]. set (zx := s mod d2).
    replace ((if Z.even t then r + 1 else d0 - (r + 1) - 1) + m0 - ((if Z.even t then r else d0 - r - 1) + m0)) with (if Z.even t then 1 else -1) by (destruct (Z.even t); lia).
    rewrite !Z.sub_diag. destruct (Z.even t); cbn; unfold initCentered; cbn; same3.
  - assert (Er : r = d0 - 1) by lia.
    assert (Eq1 : (q + 1) / d1 = (if t + 1 <? d1 then s else s + 1) /\ (q + 1) mod d1 = (if t + 1 <? d1 then t + 1 else 0)).
    { destruct (Z.ltb_spec (t + 1) d1).
      - split; [symmetry; apply (Z.div_unique _ _ _ (t + 1)); lia|symmetry; apply (Z.mod_unique _ _ s); lia].
      - split; [symmetry; apply (Z.div_unique _ _ _ 0); nia|symmetry; apply (Z.mod_unique _ _ (s + 1)); nia]. }
    destruct Eq1 as [-> ->]. destruct (Z.ltb_spec (t + 1) d1) as [Ht|Ht].
    + rewrite Z.even_add. cbn [Z.even]. unfold findIncrement. cbn [incr_loop]. fold s. set (zx := s mod d2).
      replace ((if Bool.eqb (Z.even t) false then 0 else d0 - 0 - 1) + m0 - ((if Z.even t then r else d0 - r - 1) + m0)) with 0 by (destruct (Z.even t); cbn; lia).
      replace ((if Z.even zx then t + 1 else d1 - (t + 1) - 1) + m1 - ((if Z.even zx then t else d1 - t - 1) + m1)) with (if Z.even zx then 1 else -1) by (destruct (Z.even zx); lia).
      rewrite Z.sub_diag. destruct (Z.even zx), (Z.even t); cbn; unfold initCentered; cbn; same3.
    + assert (Et : t = d1 - 1) by lia. assert (Evt : Z.even t = true) by (rewrite Et, Z.even_sub, Odd; reflexivity).
      assert (Bs : 0 <= s /\ s + 1 < d2).
      { assert (0 <= q) by (unfold q; apply Z.div_pos; lia). split; [unfold s; apply Z.div_pos; lia|].
        assert (Eq2 : q + 1 = d1 * (s + 1)) by lia. assert (Ep2 : p + 1 = d0 * (d1 * (s + 1))) by (rewrite <- Eq2; lia).
        rewrite Ep2, Z.mul_1_r in Hv. apply Z.mul_lt_mono_pos_l in Hv; [|lia]. apply Z.mul_lt_mono_pos_l in Hv; lia. }
      rewrite Evt. change (Z.even 0) with true. cbv iota. rewrite !(Z.mod_small (s + 1)), !(Z.mod_small s) by lia. rewrite Z.even_add. change (Z.even 1) with false.
      unfold findIncrement. cbn [incr_loop]. replace (0 + m0 - (r + m0)) with (1 - d0) by lia. replace (s + 1 + m2 - (s + m2)) with 1 by lia.
      replace ((if Bool.eqb (Z.even s) false then 0 else d1 - 0 - 1) + m1 - ((if Z.even s then t else d1 - t - 1) + m1)) with 0 by (destruct (Z.even s); cbn; lia).
      destruct (Z.ltb_spec (Z.abs 0) (Z.abs (1 - d0))); [|lia]. destruct (Z.ltb_spec (Z.abs (1 - d0)) (Z.abs 0)); [lia|]. destruct (Z.ltb_spec (Z.abs (1 - d0)) (Z.abs 1)); [lia|].
      clear Hv. remember (1 - d0) as dd eqn:Edd. destruct (Z.even s); cbn; unfold initCentered; cbn; same3.
Qed.
End Three.

Lemma detect_best_lemma {V} (comp : V -> V -> bool) val dom w fm b y : StrictWeak comp ->
  int_box (imin dom) (idim dom) -> length w = length (idim dom) -> Forall (fun x => 0 <= x) w -> zigzag_ok (idim dom) ->
  in_box (imin dom) (idim dom) b -> b <> imin dom -> (forall x, in_box (imin dom) (idim dom) x -> x <> b -> better comp val b x) -> passes comp val fm b ->
  in_box (imin dom) (idim dom) y -> y <> b -> near w b y ->
  exists out, detect comp val dom w fm = Ret (b :: out).
Proof. intros SW Hbox Lw Hw Hz Hb Hb0 Hbest Hp Hy Hyb Hn. apply (detect_best comp val SW dom w Hbox Lw Hw b Hb Hbest); auto. eapply zig_wins; eauto. Qed.

Lemma detect_best3_lemma {V} (comp : V -> V -> bool) val dom w fm b y : StrictWeak comp ->
  (length (idim dom) <= 3)%nat -> int_box (imin dom) (idim dom) -> length w = length (idim dom) -> Forall (fun x => 0 <= x) w ->
  in_box (imin dom) (idim dom) b -> b <> imin dom -> (forall x, in_box (imin dom) (idim dom) x -> x <> b -> better comp val b x) -> passes comp val fm b ->
  in_box (imin dom) (idim dom) y -> y <> b -> near w b y ->
  exists out, detect comp val dom w fm = Ret (b :: out).
Proof.
  intros SW L3 Hbox Lw Hw Hb Hb0 Hbest Hp Hy Hyb Hn.
  assert (Hz : zigzag_ok (idim dom) \/ exists d0 d1 d2, idim dom = [d0; d1; d2] /\ Z.even d1 = false /\ d0 <> 1).
  { destruct (idim dom) as [|d0 [|d1 [|d2 [|d3 r]]]]; cbn [length] in L3; try lia.
    - left; exact I.
    - left; exact I.
    - left. cbn. auto.
    - destruct (Z.even d1) eqn:E1; [left; cbn; rewrite E1; auto|]. destruct (Z.eq_dec d0 1); [left; cbn; auto|]. right. eauto 6. }
  destruct Hz as [Hz|(d0 & d1 & d2 & Ed & E1 & Hd0)]; [eapply detect_best_lemma; eauto|].
  destruct dom as [mn dm]. cbn [imin idim] in *. subst dm. destruct Hbox as [Hc Hv]. pose proof Hc as Hc'.
  inversion Hc' as [|m0 ? mn1 ? P0 P1 P2 Hc1]; subst. inversion Hc1 as [|m1 ? mn2 ? Q0 Q1 Q2 Hc2]; subst. inversion Hc2 as [|m2 ? mn3 ? R0 R1 R2 Hc3]; subst. inversion Hc3; subst.
  destruct w as [|w0 [|w1 [|w2 [|]]]]; cbn [length] in Lw; try lia.
  apply (detect_best comp val SW (mkI [m0; m1; m2] [d0; d1; d2]) [w0; w1; w2] (conj Hc Hv) Lw Hw b Hb Hbest); auto. cbn [imin idim].
  assert (Hst : forall m p, 0 <= p -> p + 1 + Z.of_nat m <= vol [d0; d1; d2] ->
    wins (mkI [m0; m1; m2] [d0; d1; d2]) b (map2 Z.add (bz [d0; d1; d2] p) [m0; m1; m2]) (initCentered (flat m2 (map2 Z.add (bz [d0; d1; d2] p) [m0; m1; m2])) [w0; w1; w2])
      (map (fun p => map2 Z.add (bz [d0; d1; d2] p) [m0; m1; m2]) (zseq (p + 1) m))).
  { induction m as [|m IH]; intros p Hp0 Hpm; [exact I|]. rewrite zseq_S. cbn [map wins]. eexists. split; [apply flat_follow; auto; lia|]. split; [|apply IH; lia].
    intros Eb. rewrite Eb. destruct b as [|b0 [|b1 [|b2 [|]]]]; try (apply in_box_length in Hb as [_ Hb]; cbn in Hb; lia). cbn [flat].
    inversion Hb as [|? ? ? ? ? ? B0 Hb1]; subst. inversion Hb1 as [|? ? ? ? ? ? B1 Hb2]; subst. inversion Hb2 as [|? ? ? ? ? ? B2 Hb3]; subst.
    destruct (Z.eq_dec b2 m2) as [->|Hne].
    - exists y. split; [auto|]. split; [auto|]. apply centred_near; auto. apply in_box_length in Hy as [_ Hy]. now rewrite Hy.
    - exists [b0; b1; m2]. split; [repeat (constructor; [cbn in *; lia|]); constructor|]. split; [congruence|]. apply centred_self; auto. }
  specialize (Hst (Z.to_nat (vol [d0; d1; d2] - 1)) 0).
  assert (E0 : map2 Z.add (bz [d0; d1; d2] 0) [m0; m1; m2] = [m0; m1; m2]) by (cbn [bz hdd map2]; rewrite !Zdiv_0_l, !Zmod_0_l; reflexivity).
  rewrite E0 in Hst. cbn [flat] in Hst. assert (0 < vol [d0; d1; d2]) by (apply vol_pos; repeat constructor; auto). apply Hst; lia.
Qed.

(** ** Four dimensions: the window can leave the domain. *)
Definition spike (b x : list Z) : Z := if list_eq_dec Z.eq_dec x b then 5 else 0.
Lemma four_witness : exists (val : list Z -> Z) dom w b y out,
  int_box (imin dom) (idim dom) /\ length w = length (idim dom) /\ Forall (fun k => 0 < k) w /\ in_box (imin dom) (idim dom) b /\ b <> imin dom /\
  (forall x, in_box (imin dom) (idim dom) x -> x <> b -> better Z.gtb val b x) /\
  in_box (imin dom) (idim dom) y /\ y <> b /\ near w b y /\ detect Z.gtb val dom w None = Ret out /\ ~ In b out.
Proof.
  exists (spike [1; 2; 0; 1]), (mkI [0; 0; 0; 0] [3; 3; 3; 2]), [1; 1; 1; 1], [1; 2; 0; 1], [1; 2; 0; 0], []. cbn [imin idim].
  split; [split; [repeat (constructor; [lia|lia|lia|]); constructor|cbn; lia]|]. split; [reflexivity|]. split; [repeat constructor|].
  split; [repeat (constructor; [lia|]); constructor|]. split; [discriminate|]. split.
  { intros x _ Hx. unfold better, spike. destruct (list_eq_dec Z.eq_dec x [1; 2; 0; 1]); [contradiction|]. reflexivity. }
  split; [repeat (constructor; [lia|]); constructor|]. split; [discriminate|]. split; [unfold near; cbn; repeat constructor; lia|].
  split; [vm_compute; reflexivity|]. intros [].
Qed.
