(** * The peak finder in int arithmetic. *)
From Coq Require Import List ZArith Bool Lia Permutation.
From Verif Require Import Base BaseLemmas IntervalModel IntervalSpec IntervalProofs MinMaxHeapModel MinMaxHeapSpec MinMaxHeapTree MinMaxHeapProofs MinMaxHeapOps MinMaxHeapRun
  PeakModel PeakSpec PeakProofs PeakLine PeakBest IntervalChkModel IntervalChkSpec IntervalChkProofs PeakChkSpec.
Import ListNotations.
Open Scope outcome_scope.
Open Scope Z_scope.
Ltac Zify.zify_post_hook ::= idtac.

Lemma nth_map2 f a : forall b k z, nth_error (map2 f a b) k = Some z -> exists x y, nth_error a k = Some x /\ nth_error b k = Some y /\ z = f x y.
Proof.
  induction a as [|x a IH]; intros [|y b] [|k] z H; cbn [map2 nth_error] in *; try discriminate.
  - injection H as <-. eauto.
  - eauto.
Qed.
Lemma map2_nth f a : forall b k x y, nth_error a k = Some x -> nth_error b k = Some y -> nth_error (map2 f a b) k = Some (f x y).
Proof.
  induction a as [|u a IH]; intros [|v b] [|k] x y H1 H2; cbn [map2 nth_error] in *; try discriminate.
  - injection H1 as <-. injection H2 as <-. reflexivity.
  - eauto.
Qed.
Lemma Forall_nth (P : Z -> Prop) l : Forall P l <-> forall k x, nth_error l k = Some x -> P x.
Proof.
  rewrite Forall_forall. split.
  - intros H k x E. apply H. now apply nth_error_In in E.
  - intros H x Hx. apply In_nth_error in Hx as [k E]. eauto.
Qed.

(** ** The increment *)
Lemma incr_chk prev : forall cur d dm im, each2 (fun p c => - 2 ^ 31 < c - p < 2 ^ 31) prev cur -> - 2 ^ 31 < im < 2 ^ 31 ->
  incr_loop_chk d prev cur dm im = Ret (incr_loop d prev cur dm im).
Proof.
  induction prev as [|p prev IH]; intros [|c cur] d dm im H Hi; cbn [incr_loop_chk incr_loop]; try reflexivity.
  apply each2_cons in H as [H1 H2]. rewrite (chk_fits (c - p)) by (unfold fits; lia). cbn [obind]. rewrite (chk_fits (Z.abs (c - p))) by (unfold fits; lia). cbn [obind].
  rewrite (chk_fits (Z.abs im)) by (unfold fits; lia). cbn [obind]. destruct (Z.abs im <? Z.abs (c - p)); apply IH; auto.
Qed.

Lemma box_nth mn dm x : in_box mn dm x -> forall k c n e, nth_error x k = Some c -> nth_error mn k = Some n -> nth_error dm k = Some e -> n <= c < n + e.
Proof.
  induction 1 as [|m d i mn dm x Hi H IH]; intros [|k] c n e H1 H2 H3; cbn [nth_error] in *; try discriminate; [|eauto].
  injection H1 as <-. injection H2 as <-. injection H3 as <-. lia.
Qed.
Lemma box_dim mn dm : corners_ok mn dm -> forall k e, nth_error dm k = Some e -> 0 < e <= vol dm.
Proof.
  induction 1 as [|m d mn dm Hd Hm Hmd Hc IH]; intros [|k] e E; cbn [nth_error] in E; try discriminate.
  - injection E as <-. cbn [vol]. pose proof (vol_pos dm (corners_pos _ _ Hc)). nia.
  - destruct (IH k e E). cbn [vol]. assert (0 < vol dm) by lia. nia.
Qed.

Section P.
Context {V : Type}.
Variable comp : V -> V -> bool.
Variable val : list Z -> V.

Definition ends (a : interval) : Prop := each2 (fun m d => fits (m + d)) (imin a) (idim a).
Lemma purge_chk_eq win f : ends win -> forall h, purge_chk comp val f win h = purge comp val f win h.
Proof.
  intros He. induction f as [|f IH]; intros h; cbn [purge_chk purge]; [reflexivity|]. destruct h as [|x h]; [reflexivity|].
  change (top (x :: h)) with (Ret x). cbn [obind]. unfold inside_chk. rewrite inside_chk_ok by exact He. cbn [obind]. change (inside_loop (imin win) (idim win) x) with (inside win x).
  destruct (inside win x); [reflexivity|]. destruct (popTop _ _); cbn [obind]; auto.
Qed.

(** One step where nothing overflows. *)
Definition step_safe (dom : interval) (prev cur : list Z) (win win' : interval) : Prop :=
  exists d incr st, findIncrement_chk prev cur = Ret (d, incr) /\ findIncrement prev cur = (d, incr) /\ stacked win d incr = Ret st /\ stacked_chk win d incr = Ret st /\
    intersect_chk st dom = Ret (intersect st dom) /\ translate win d incr = Ret win' /\ translate_chk win d incr = Ret win' /\ ends win'.

Fixpoint safe (dom : interval) (cells : list (list Z)) (prev : list Z) (win : interval) : Prop :=
  match cells with
  | [] => True
  | cur :: rest => exists win', step_safe dom prev cur win win' /\ safe dom rest cur win'
  end.

Lemma safe_scan dom fm : forall cells prev win items maxima, safe dom cells prev win ->
  scan_chk comp val dom fm cells prev win items maxima = scan comp val dom fm cells prev win items maxima.
Proof.
  induction cells as [|cur rest IH]; intros prev win items maxima H; cbn [scan_chk scan]; [reflexivity|].
  destruct H as (win' & (d & incr & st & E1 & E2 & E3 & E4 & E5 & E6 & E7 & E8) & H). rewrite E1, E2. cbn [obind]. rewrite E3, E4. cbn [obind]. rewrite E5. cbn [obind].
  destruct (iterate_raster _); cbn [obind]; try reflexivity. destruct (push_all _ _ _ _) as [it| | |]; cbn [obind]; try reflexivity. rewrite E6, E7. cbn [obind].
  rewrite purge_chk_eq by exact E8. destruct (purge _ _ _ _ _); cbn [obind]; try reflexivity. destruct (is_peak _ _ _ _ _) as [b| | |]; cbn [obind]; try reflexivity.
  destruct b; [|cbn [obind]; now apply IH]. destruct (push _ _ _); cbn [obind]; try reflexivity. now apply IH.
Qed.

(** A safe step is passed: what comes after it decides. *)
Lemma step_then_ub dom fm cur rest prev win win' : int_box (imin dom) (idim dom) -> step_safe dom prev cur win win' ->
  win_ok (length (idim dom)) win -> cur <> prev -> length prev = length (idim dom) -> length cur = length (idim dom) ->
  (forall items maxima, scan_chk comp val dom fm rest cur win' items maxima = UB) ->
  forall items maxima, scan_chk comp val dom fm (cur :: rest) prev win items maxima = UB.
Proof.
  intros Hb (d & incr & st & E1 & E2 & E3 & E4 & E5 & E6 & E7 & E8) Hw Hne Lp Lc H items maxima. cbn [scan_chk]. rewrite E1. cbn [obind]. rewrite E4. cbn [obind]. rewrite E5. cbn [obind].
  destruct (findIncrement_spec prev cur) as [F1 F2]; [congruence|congruence|]. rewrite E2 in F1, F2. cbn [fst snd] in F1, F2.
  destruct (move_ok _ win d incr Hw ltac:(lia) F2) as (st' & w' & G1 & G2 & (S1 & S2 & S3) & W'). assert (st' = st) by congruence. assert (w' = win') by congruence. subst st' w'.
  destruct (iterate_meet st dom Hb S1 S2 S3) as (l & -> & _ & _). cbn [obind]. destruct (push_all_total comp val l items) as (it1 & -> & _). cbn [obind]. rewrite E7. cbn [obind].
  rewrite purge_chk_eq by exact E8. destruct (purge_total comp val win' (S (length it1)) it1 ltac:(lia)) as (it2 & out & -> & _). cbn [obind].
  destruct (is_peak_total comp val fm it2 cur) as (b & -> & _). cbn [obind]. destruct b; [|cbn [obind]; apply H].
  destruct (push_total cur (icmp comp val) maxima cur) as (m1 & -> & _). cbn [obind]. apply H.
Qed.

(** ** The window centred on the cell *)
Section Zig.
Variable dom : interval.
Variable w : list Z.
Hypothesis Hbox : int_box (imin dom) (idim dom).
Hypothesis Lw : length w = length (idim dom).
Hypothesis Hw : Forall (fun k => 0 <= k) w.
Hypothesis Hlow : each2 (fun m k => fits (m - k) /\ fits (2 * k + 1)) (imin dom) w.
Hypothesis Hend : ends dom.
Notation cell x := (in_box (imin dom) (idim dom) x).

(** The end of the window centred on [x] is an int. *)
Definition up (x : list Z) : Prop := each2 (fun c k => fits (c + k + 1)) x w.

Lemma dom_len : length (imin dom) = length (idim dom).
Proof. destruct Hbox as [Hc _]. now apply corners_length. Qed.
Lemma cell_nth x k c n e : cell x -> nth_error x k = Some c -> nth_error (imin dom) k = Some n -> nth_error (idim dom) k = Some e -> n <= c < n + e.
Proof. intros H. exact (box_nth _ _ _ H k c n e). Qed.
Lemma w_nth k u : nth_error w k = Some u -> 0 <= u /\ fits (2 * u + 1).
Proof.
  intros E. rewrite Forall_forall in Hw. split; [apply Hw; now apply nth_error_In in E|].
  pose proof (nth_error_lt _ _ _ E) as L. destruct (nth_error_ex (imin dom) k) as [n En]; [rewrite dom_len, <- Lw; lia|]. now destruct (Hlow k n u En E).
Qed.
Lemma dom_nth k n : nth_error (imin dom) k = Some n -> exists e u, nth_error (idim dom) k = Some e /\ nth_error w k = Some u /\ 0 < e /\ 0 <= u /\ fits n /\ fits e /\ fits (n + e) /\ fits (n - u) /\ fits (2 * u + 1).
Proof.
  intros E. pose proof (nth_error_lt _ _ _ E) as L. rewrite dom_len in L.
  destruct (nth_error_ex (idim dom) k L) as [e Ee]. destruct (nth_error_ex w k ltac:(lia)) as [u Eu]. exists e, u. split; [auto|]. split; [auto|].
  destruct (w_nth k u Eu) as [H1 H2]. destruct (Hlow k n u E Eu) as [H3 _]. pose proof (Hend k n e E Ee) as H4. destruct Hbox as [Hc Hv].
  pose proof (box_dim _ _ Hc k e Ee) as He.
  unfold fits in *. repeat split; try lia.
Qed.

Lemma centred_fields x : cell x -> win_ok (length (idim dom)) (initCentered x w).
Proof. intros Hx. destruct (in_box_length _ _ _ Hx). now apply (initCentered_ok comp val). Qed.
Lemma up_ends x : length x = length (idim dom) -> (up x <-> ends (initCentered x w)).
Proof.
  intros Lx. unfold up, ends, initCentered. cbn [imin idim]. split.
  - intros H k m d Hm Hd. apply nth_map2 in Hm as (c & u & Ec & Eu & ->). apply nth_map2 in Hd as (c' & u' & Ec' & Eu' & ->). rewrite Ec in Ec'. rewrite Eu in Eu'. injection Ec' as <-. injection Eu' as <-.
    replace (c - u + (2 * u + 1)) with (c + u + 1) by lia. eauto.
  - intros H k c u Ec Eu. replace (c + u + 1) with (c - u + (2 * u + 1)) by lia. apply (H k); [exact (map2_nth Z.sub _ _ _ _ _ Ec Eu)|exact (map2_nth (fun _ y => 2 * y + 1) _ _ _ _ _ Ec Eu)].
Qed.

Lemma zig_step prev cur : cell prev -> cell cur -> neighbours prev cur -> up prev ->
  (up cur /\ step_safe dom prev cur (initCentered prev w) (initCentered cur w)) \/
  (~ up cur /\ forall fm rest items maxima, scan_chk comp val dom fm (cur :: rest) prev (initCentered prev w) items maxima = UB).
Proof.
  intros Hp Hcu Hnb Hup. destruct (in_box_length _ _ _ Hp) as [_ Lp]. destruct (in_box_length _ _ _ Hcu) as [_ Lc].
  destruct (follow prev cur w Hnb ltac:(congruence)) as (d & incr & Ef & Etr).
  assert (Hform : exists a b, nth_error prev d = Some a /\ cur = lset prev d b /\ Z.abs (a - b) = 1 /\ incr = b - a).
  { destruct Hnb as (pre & a & b & post & -> & -> & Hab). unfold findIncrement in Ef. rewrite incr_loop_nb in Ef by lia. cbn [Nat.add] in Ef.
    assert (d = length pre) by congruence. subst d. assert (incr = b - a) by congruence. exists a, b. rewrite nth_error_mid, lset_mid. auto. }
  destruct Hform as (a & b & Ea & Ecur & Hab & Hinc).
  pose proof (nth_error_lt _ _ _ Ea) as Hd. rewrite Lp in Hd.
  destruct (nth_error_ex (imin dom) d ltac:(rewrite dom_len; lia)) as [n En]. destruct (dom_nth d n En) as (e & u & Ee & Eu & He & Hu & Hfn & Hfe & Hfne & Hfnu & Hfu).
  pose proof (cell_nth prev d a n e Hp Ea En Ee) as Ha.
  assert (Eb : nth_error cur d = Some b) by (rewrite Ecur; apply nth_error_lset_eq; lia).
  pose proof (cell_nth cur d b n e Hcu Eb En Ee) as Hb.
  assert (Hf1 : findIncrement_chk prev cur = Ret (d, incr)).
  { unfold findIncrement_chk. rewrite incr_chk; [unfold findIncrement in Ef; now rewrite Ef| |lia].
    intros k x y Hx Hy. rewrite Ecur, nth_error_lset in Hy. destruct (Nat.eqb_spec d k) as [<-|Hk].
    - destruct (Nat.ltb_spec d (length prev)); [|discriminate]. injection Hy as <-. rewrite Ea in Hx. injection Hx as <-. lia.
    - rewrite Hx in Hy. injection Hy as <-. lia. }
  set (win := initCentered prev w) in *.
  assert (Em : nth_error (imin win) d = Some (a - u)) by (exact (map2_nth Z.sub _ _ _ _ _ Ea Eu)).
  assert (Ed : nth_error (idim win) d = Some (2 * u + 1)) by (exact (map2_nth (fun _ y => 2 * y + 1) _ _ _ _ _ Ea Eu)).
  pose proof (Hup d a u Ea Eu) as Hua.
  destruct (translate_alt win d incr _ Em) as [Ht _]. destruct (stacked_alt win d incr _ _ Em Ed) as [Hs _].
  assert (Ht' : translate_chk win d incr = Ret (initCentered cur w)) by (rewrite Ht; [exact Etr|unfold fits in *; lia]).
  destruct (move_ok _ win d incr (centred_fields prev Hp) Hd ltac:(lia)) as (st & win' & G1 & G2 & (S1 & S2 & S3) & W').
  assert (Hs' : stacked_chk win d incr = Ret st).
  { rewrite Hs; [exact G1|]. destruct (Z.leb_spec 0 incr); unfold fits in *; lia. }
  assert (Est : (incr = 1 /\ st = mkI (lset (imin win) d (a + u + 1)) (lset (idim win) d 1)) \/ (incr = - 1 /\ st = mkI (lset (imin win) d (a - u - 1)) (lset (idim win) d 1))).
  { unfold stacked, vread in G1. destruct (Nat.ltb_spec d (length (imin win))); [|discriminate]. rewrite Em, Ed in G1. cbn [obind] in G1.
    destruct (Z.leb_spec 0 incr); [left|right]; (split; [lia|]); (match type of G1 with Ret ?x = Ret ?y => assert (Exy : y = x) by congruence; rewrite Exy end); f_equal; f_equal; lia. }
  assert (Lm : length (imin win) = length (idim dom)) by (apply (centred_fields prev Hp)).
  assert (Lm2 : length (idim win) = length (idim dom)) by (apply (centred_fields prev Hp)).
  assert (Hst : forall k m dd, nth_error (imin st) k = Some m -> nth_error (idim st) k = Some dd ->
    (k = d /\ dd = 1 /\ ((incr = 1 /\ m = a + u + 1) \/ (incr = -1 /\ m = a - u - 1))) \/ (k <> d /\ exists c v, nth_error prev k = Some c /\ nth_error w k = Some v /\ m = c - v /\ dd = 2 * v + 1)).
  { intros k m dd H1 H2. destruct (Nat.eq_dec k d) as [->|Hk].
    - left. split; [auto|]. destruct Est as [[Ei ->]|[Ei ->]]; cbn [imin idim] in H1, H2; rewrite nth_error_lset_eq in H1, H2 by lia; injection H1 as <-; injection H2 as <-; auto.
    - right. split; [auto|]. assert (H3 : nth_error (imin win) k = Some m /\ nth_error (idim win) k = Some dd).
      { destruct Est as [[Ei ->]|[Ei ->]]; cbn [imin idim] in H1, H2; rewrite nth_error_lset_neq in H1, H2 by auto; auto. }
      destruct H3 as [H3 H4]. unfold win, initCentered in H3, H4. cbn [imin idim] in H3, H4. apply nth_map2 in H3 as (c & v & Ec & Ev & ->). apply nth_map2 in H4 as (c' & v' & Ec' & Ev' & ->).
      rewrite Ev in Ev'. injection Ev' as <-. eauto 6. }
  assert (Est_ne : empty st = false) by (apply empty_spec; exact S3).
  assert (Edom : empty dom = false) by (apply empty_spec; destruct Hbox as [Hc _]; exact (corners_pos _ _ Hc)).
  destruct (intersect_alt st dom) as [[HI EI]|[HI EI]]; auto.
  { congruence. } { exact dom_len. } { rewrite dom_len; congruence. }
  { apply Forall_nth. intros k m Hm. destruct (nth_error_ex (idim st) k) as [dd Edd]; [rewrite S2, <- S1; now apply nth_error_lt in Hm|].
    destruct (Hst k m dd Hm Edd) as [(-> & _ & [[_ ->]|[Hi1 ->]])|(_ & c & v & Ec & Ev & -> & _)]; [auto|unfold fits in *; lia|].
    pose proof (nth_error_lt _ _ _ Ec) as Lk. rewrite Lp in Lk. destruct (nth_error_ex (imin dom) k ltac:(rewrite dom_len; lia)) as [n' En'].
    destruct (dom_nth k n' En') as (e' & u' & Ee' & Eu' & ? & ? & ? & ? & ? & ? & ?). rewrite Ev in Eu'. injection Eu' as <-. pose proof (cell_nth prev k c n' e' Hp Ec En' Ee'). unfold fits in *. lia. }
  { apply Forall_nth. intros k dd Hm. destruct (nth_error_ex (imin st) k) as [m Edd]; [rewrite S1, <- S2; now apply nth_error_lt in Hm|].
    destruct (Hst k m dd Edd Hm) as [(-> & -> & _)|(_ & c & v & Ec & Ev & _ & ->)]; [unfold fits; lia|]. now destruct (w_nth k v Ev). }
  { apply Forall_nth. intros k m Hm. destruct (dom_nth k m Hm) as (? & ? & ? & ? & ? & ? & ? & ? & ?). auto. }
  { apply Forall_nth. intros k m Hm. destruct (nth_error_ex (imin dom) k) as [n' En']; [rewrite dom_len; now apply nth_error_lt in Hm|].
    destruct (dom_nth k n' En') as (e' & u' & Ee' & ? & ? & ? & ? & ? & ?). rewrite Hm in Ee'. injection Ee' as <-. auto. }
  - (* nothing overflows *)
    assert (Hcu' : up cur).
    { intros k c v Ec Ev. destruct (Nat.eq_dec k d) as [->|Hk].
      - rewrite Eb in Ec. injection Ec as <-. rewrite Eu in Ev. injection Ev as <-. destruct (Z.eq_dec incr 1) as [Ei|Ei]; [|unfold fits in *; lia].
        assert (E1 : nth_error (imin st) d = Some (a + u + 1)) by (destruct Est as [[_ ->]|[? _]]; [cbn [imin]; apply nth_error_lset_eq; lia|lia]).
        assert (E2 : nth_error (idim st) d = Some 1) by (destruct Est as [[_ ->]|[? _]]; [cbn [idim]; apply nth_error_lset_eq; lia|lia]).
        destruct (HI d _ _ _ _ E1 E2 En Ee) as [F _]. unfold fits in *. lia.
      - rewrite Ecur, nth_error_lset_neq in Ec by auto. exact (Hup k c v Ec Ev). }
    left. split; [exact Hcu'|]. exists d, incr, st. repeat (split; [assumption|]). apply up_ends; auto.
  - right. split.
    + intros Hcu'. apply HI. intros k m dd n' e' H1 H2 H3 H4. destruct (dom_nth k n' H3) as (e'' & u' & Ee' & Eu' & B1 & B2 & B3 & B4 & B5 & B6 & B7). rewrite H4 in Ee'. injection Ee' as <-.
      destruct (Hst k m dd H1 H2) as [(-> & -> & Hm)|(Hk & c & v & Ec & Ev & -> & ->)].
      * rewrite En in H3. injection H3 as <-. rewrite Ee in H4. injection H4 as <-. pose proof (Hcu' d b u Eb Eu) as F. unfold meet_fits, fits in *. destruct Hm as [[Hi ->]|[Hi ->]]; lia.
      * rewrite Ev in Eu'. injection Eu' as <-. pose proof (cell_nth prev k c n' e' Hp Ec H3 H4) as Hc. pose proof (Hup k c v Ec Ev) as F. unfold meet_fits, fits in *. lia.
    + intros fm rest items maxima. cbn [scan_chk]. rewrite Hf1. cbn [obind]. rewrite Hs'. cbn [obind]. rewrite EI. reflexivity.
Qed.

Inductive chain : list Z -> list (list Z) -> Prop :=
| chain_nil x : cell x -> chain x []
| chain_cons x y l : cell x -> neighbours x y -> chain y l -> chain x (y :: l).
Lemma chain_cell x l : chain x l -> cell x.
Proof. now inversion 1. Qed.
Lemma nb_neq x y : neighbours x y -> y <> x.
Proof. intros (pre & a & b & post & -> & -> & H) E. apply app_inv_head in E. injection E as E. lia. Qed.

Lemma zig_scan : forall cells prev, chain prev cells -> up prev ->
  (Forall up cells /\ safe dom cells prev (initCentered prev w)) \/
  (~ Forall up cells /\ forall fm items maxima, scan_chk comp val dom fm cells prev (initCentered prev w) items maxima = UB).
Proof.
  induction cells as [|cur rest IH]; intros prev Hch Hup.
  - left. split; [constructor|exact I].
  - inversion Hch as [|? ? ? Hp Hnb Hch']; subst. pose proof (chain_cell _ _ Hch') as Hc.
    destruct (zig_step prev cur Hp Hc Hnb Hup) as [[H1 H2]|[H1 H2]].
    + destruct (IH cur Hch' H1) as [[H3 H4]|[H3 H4]].
      * left. split; [constructor; auto|]. exists (initCentered cur w). auto.
      * right. split; [intros F; inversion F; auto|]. intros fm. destruct (in_box_length _ _ _ Hp). destruct (in_box_length _ _ _ Hc).
        eapply step_then_ub; eauto; [now apply centred_fields|now apply nb_neq].
    + right. split; [intros F; inversion F; auto|]. intros fm. apply H2.
Qed.
End Zig.

(** ** The walk over the domain *)
Notation at_pos dom p := (map2 Z.add (bz (idim dom) p) (imin dom)).
Lemma walk_list dom : int_box (imin dom) (idim dom) ->
  at_pos dom 0 = imin dom /\ iterate_boustrophedon dom = Ret (imin dom :: map (fun p => at_pos dom p) (zseq 1 (Z.to_nat (vol (idim dom) - 1)))) /\ forall x, in_box (imin dom) (idim dom) x <-> In x (imin dom :: map (fun p => at_pos dom p) (zseq 1 (Z.to_nat (vol (idim dom) - 1)))).
Proof.
  intros Hbox. pose proof Hbox as [Hc Hv]. pose proof (corners_length _ _ Hc) as Ld. pose proof (corners_pos _ _ Hc) as Hpd. pose proof (vol_pos _ Hpd) as Hvp.
  assert (Hnn : nonneg_dims dom) by (unfold nonneg_dims; eapply Forall_impl; [|exact Hpd]; cbn; intros; lia).
  destruct (iterate_gen boust_getIndices dom (fun p => at_pos dom p) Ld Hnn Hv) as (cells & Ec & Nc & Hin & _ & Hmap).
  { intros _. split; [|split; [|split]].
    - intros p Hp'. apply boust_pure; auto. lia.
    - intros p Hp'. now apply bz_in_box.
    - intros p q Hp' Hq E. apply (bz_inj _ Hpd); auto. apply (map2_add_inj _ _ (imin dom)); auto; rewrite bz_length; auto.
    - intros x Hx. apply bz_surj. exact Hx. }
  specialize (Hmap Hpd). replace (Z.to_nat (vol (idim dom))) with (S (Z.to_nat (vol (idim dom) - 1))) in Hmap by lia. rewrite zseq_S in Hmap. cbn [map] in Hmap.
  change (0 + 1) with 1 in Hmap.
  assert (E0 : at_pos dom 0 = imin dom).
  { clear - Ld Hpd. revert Ld. generalize (imin dom). induction Hpd as [|d dm Hd Hdm IH]; intros [|m mn] L; cbn [length] in L; try lia; [reflexivity|]. cbn [bz map2].
    rewrite Zmod_0_l, Zdiv_0_l. assert (Eh : hdd dm 0 = 0) by (destruct dm; [reflexivity|apply Zmod_0_l]). rewrite Eh. cbn [Z.even]. f_equal. apply IH. lia. }
  split; [exact E0|]. rewrite E0 in Hmap. split; [unfold iterate_boustrophedon; now rewrite Ec, Hmap|].
  intros x. rewrite <- Hmap, Hin. split.
  - intros Hx. destruct (in_box_length _ _ _ Hx) as [_ L]. split; [auto|]. unfold inside. now apply inside_in_box.
  - intros [L H]. unfold inside in H. now apply inside_in_box in H.
Qed.

Lemma detect_zig_lemma dom w fm : int_box (imin dom) (idim dom) -> length w = length (idim dom) -> Forall (fun k => 0 <= k) w -> zigzag_ok (idim dom) ->
  (windows_fit (imin dom) (idim dom) w -> detect_chk comp val dom w fm = detect comp val dom w fm) /\
  (~ windows_fit (imin dom) (idim dom) w -> detect_chk comp val dom w fm = UB).
Proof.
  intros Hbox Lw Hw Hz. pose proof Hbox as [Hc Hv]. pose proof (corners_length _ _ Hc) as Ld. pose proof (corners_pos _ _ Hc) as Hpd. pose proof (vol_pos _ Hpd) as Hvp.
  destruct (walk_list dom Hbox) as (E0 & Ew & Hcells). unfold detect_chk, detect. rewrite Ew. cbn [obind]. set (rest := map _ (zseq 1 _)) in *.
  assert (Hcor : forall k m, nth_error (imin dom) k = Some m -> exists d u, nth_error (idim dom) k = Some d /\ nth_error w k = Some u /\ 0 < d < 2 ^ 31 /\ 0 <= u /\ - 2 ^ 31 <= m /\ m + d - 1 < 2 ^ 31).
  { intros k m Em. pose proof (nth_error_lt _ _ _ Em) as L. destruct (nth_error_ex (idim dom) k ltac:(lia)) as [d Ed]. destruct (nth_error_ex w k ltac:(lia)) as [u Eu].
    exists d, u. pose proof (box_dim _ _ Hc k d Ed). rewrite Forall_forall in Hw. pose proof (Hw u (nth_error_In _ _ Eu)). cbv beta in *.
    assert (- 2 ^ 31 <= m /\ m + d - 1 < 2 ^ 31).
    { clear - Hc Em Ed. revert k Em Ed. induction Hc as [|m0 d0 mn dm Hd Hm Hmd Hc IH]; intros [|k] H1 H2; cbn [nth_error] in *; try discriminate; [|eauto].
      injection H1 as <-. injection H2 as <-. auto. }
    repeat split; auto; lia. }
  assert (Hbox0 : in_box (imin dom) (idim dom) (imin dom)) by (apply Hcells; now left).
  destruct (centered_alt (imin dom) w ltac:(congruence)) as [[C1 ->]|[C1 ->]]; cbn [obind].
  2:{ split; [|reflexivity]. intros F. exfalso. apply C1. intros k m u Em Eu. destruct (Hcor k m Em) as (d & u' & Ed & Eu' & _). rewrite Eu in Eu'. injection Eu' as <-. destruct (F k m d u Em Ed Eu) as (A & B & _). auto. }
  set (win := initCentered (imin dom) w).
  assert (Wok : win_ok (length (idim dom)) win) by (apply (initCentered_ok comp val); auto). pose proof Wok as (W1 & W2 & W3).
  destruct (intersect_alt win dom) as [[I1 EI]|[I1 EI]]; auto.
  { congruence. } { congruence. }
  { apply Forall_nth. intros k x Hx. apply nth_map2 in Hx as (m & u & Em & Eu & ->). now destruct (C1 k m u Em Eu). }
  { apply Forall_nth. intros k x Hx. apply (nth_map2 (fun _ y => 2 * y + 1)) in Hx as (m & u & Em & Eu & ->). now destruct (C1 k m u Em Eu). }
  { apply Forall_nth. intros k m Em. destruct (Hcor k m Em) as (d & u & ?). unfold fits. lia. }
  { apply Forall_nth. intros k d Ed. destruct (nth_error_ex (imin dom) k) as [m Em]; [rewrite Ld; now apply nth_error_lt in Ed|]. destruct (Hcor k m Em) as (d' & u & Ed' & ?). rewrite Ed in Ed'. injection Ed' as <-. unfold fits. lia. }
  { now apply empty_spec. } { now apply empty_spec. }
  2:{ rewrite EI. split; [|reflexivity]. intros F. exfalso. apply I1. intros k x y m d Hx Hy Em Ed. apply nth_map2 in Hx as (m' & u & Em' & Eu & ->). apply (nth_map2 (fun _ y => 2 * y + 1)) in Hy as (m'' & u' & Em'' & Eu' & ->).
      rewrite Em in Em'. injection Em' as <-. rewrite Eu in Eu'. injection Eu' as <-. destruct (F k m d u Em Ed Eu) as (A & B & C). destruct (Hcor k m Em) as (d' & u' & Ed' & Eu' & D1 & D2 & D3 & D4). rewrite Ed in Ed'. injection Ed' as <-. rewrite Eu in Eu'. injection Eu' as <-.
      unfold meet_fits, fits in *. lia. }
  rewrite EI. cbn [obind]. destruct (iterate_meet win dom Hbox W1 W2 W3) as (l & -> & _). cbn [obind]. destruct (push_all_total comp val l []) as (items & -> & _). cbn [obind].
  assert (Hends : ends dom).
  { intros k m d Em Ed. destruct (Hcor k m Em) as (d' & u & Ed' & Eu & _). destruct (I1 k (m - u) (2 * u + 1) m d) as (_ & H & _); auto; [exact (map2_nth Z.sub _ _ _ _ _ Em Eu)|exact (map2_nth (fun _ y => 2 * y + 1) _ _ _ _ _ Em Eu)]. }
  assert (Hup0 : up w (imin dom)).
  { intros k m u Em Eu. destruct (Hcor k m Em) as (d & u' & Ed & Eu' & _). destruct (I1 k (m - u) (2 * u + 1) m d) as (H & _); auto; [exact (map2_nth Z.sub _ _ _ _ _ Em Eu)|exact (map2_nth (fun _ y => 2 * y + 1) _ _ _ _ _ Em Eu)|]. replace (m + u + 1) with (m - u + (2 * u + 1)) by lia. exact H. }
  assert (Hch : chain dom (imin dom) rest).
  { assert (Hst : forall n p, 0 <= p -> p + 1 + Z.of_nat n <= vol (idim dom) -> chain dom (at_pos dom p) (map (fun p => at_pos dom p) (zseq (p + 1) n))).
    { induction n as [|n IH]; intros p Hp0 Hpn; [constructor; now apply bz_in_box|]. rewrite zseq_S. cbn [map]. constructor; [now apply bz_in_box| |apply IH; lia].
      apply nb_shift; rewrite ?bz_length; auto. apply (proj2 (all_nb_ok _ Hpd) Hz); lia. }
    specialize (Hst (Z.to_nat (vol (idim dom) - 1)) 0). rewrite E0 in Hst. apply Hst; lia. }
  destruct (zig_scan dom w Hbox Lw Hw C1 Hends rest (imin dom) Hch Hup0) as [[H1 H2]|[H1 H2]].
  - rewrite (safe_scan dom fm rest (imin dom) win items [] H2). split; [reflexivity|]. intros N. exfalso. apply N.
    intros k m d u Em Ed Eu. destruct (C1 k m u Em Eu) as [A B]. split; [auto|]. split; [auto|].
    (* the opposite corner *)
    set (top_cell := map2 (fun m d => m + d - 1) (imin dom) (idim dom)).
    assert (Hx : in_box (imin dom) (idim dom) top_cell).
    { unfold top_cell. clear - Hc. induction Hc as [|m d mn dm Hd Hm Hmd Hc IH]; cbn [map2]; constructor; auto. lia. }
    assert (Hux : up w top_cell). { apply Hcells in Hx. destruct Hx as [<-|Hx]; [exact Hup0|]. rewrite Forall_forall in H1. now apply H1. }
    pose proof (Hux k (m + d - 1) u (map2_nth (fun m d => m + d - 1) _ _ _ _ _ Em Ed) Eu) as F. replace (m + d + u) with (m + d - 1 + u + 1) by lia. exact F.
  - rewrite H2. split; [|reflexivity]. intros F. exfalso. apply H1. apply Forall_forall. intros x Hx. assert (Hcx : in_box (imin dom) (idim dom) x) by (apply Hcells; now right).
    intros k c u Ec Eu. pose proof (nth_error_lt _ _ _ Ec) as L. destruct (in_box_length _ _ _ Hcx) as [_ Lx]. destruct (nth_error_ex (imin dom) k ltac:(lia)) as [m Em]. destruct (nth_error_ex (idim dom) k ltac:(lia)) as [d Ed].
    destruct (F k m d u Em Ed Eu) as (A & B & C). pose proof (box_nth _ _ _ Hcx k c m d Ec Em Ed). destruct (Hcor k m Em) as (d' & u' & Ed' & Eu' & D1 & D2 & D3 & D4). rewrite Eu in Eu'. injection Eu' as <-. unfold fits in *. lia.
Qed.

(** ** Any extents: the window may lag behind the cell, by no more than the number of cells. *)
Lemma bz_up dm : pos_dims dm -> forall p k a b, 0 <= p -> nth_error (bz dm p) k = Some a -> nth_error (bz dm (p + 1)) k = Some b -> b <= a + 1.
Proof.
  induction 1 as [|d dm Hd Hdm IH]; intros p k a b Hp H1 H2; [destruct k; discriminate H1|]. cbn [bz] in H1, H2.
  destruct (div_next d p Hd Hp) as [(G1 & G2 & G3)|(G1 & G2 & G3)]; rewrite G2, G3 in H2; destruct k as [|k]; cbn [nth_error] in H1, H2.
  - injection H1 as <-. injection H2 as <-. destruct (Z.even _); lia.
  - rewrite H1 in H2. injection H2 as <-. lia.
  - injection H1 as <-. injection H2 as <-. rewrite G1. set (q := p / d) in *. assert (Hq : 0 <= q) by (apply Z.div_pos; lia).
    assert (E : Z.even (hdd dm q) = false -> Z.even (hdd dm (q + 1)) = true).
    { destruct Hdm as [|d1 rest Hd1 Hr]; [discriminate|]. cbn [hdd]. destruct (div_next d1 q Hd1 Hq) as [(K1 & K2 & K3)|(K1 & K2 & K3)]; rewrite K3; [|reflexivity].
      rewrite Z.even_add. intros ->. reflexivity. }
    destruct (Z.even (hdd dm q)); [destruct (Z.even _); lia|]. rewrite E by reflexivity. lia.
  - eapply IH; [|exact H1|exact H2]. apply Z.div_pos; lia.
Qed.

Section Any.
Variable dom : interval.
Variable w : list Z.
Hypothesis Hbox : int_box (imin dom) (idim dom).
Hypothesis Lw : length w = length (idim dom).
Hypothesis Hw : Forall (fun k => 0 <= k) w.
Hypothesis Hsmall : each3 (fun m d k => Z.abs m + d + k + vol (idim dom) <= 2 ^ 30) (imin dom) (idim dom) w.
Notation cell x := (in_box (imin dom) (idim dom) x).

Lemma any_nth k : (k < length (idim dom))%nat -> exists n e u, nth_error (imin dom) k = Some n /\ nth_error (idim dom) k = Some e /\ nth_error w k = Some u /\
  0 < e /\ 0 <= u /\ Z.abs n + e + u + vol (idim dom) <= 2 ^ 30.
Proof.
  intros L. destruct Hbox as [Hc _]. pose proof (corners_length _ _ Hc) as Ld.
  destruct (nth_error_ex (imin dom) k ltac:(lia)) as [n En]. destruct (nth_error_ex (idim dom) k L) as [e Ee]. destruct (nth_error_ex w k ltac:(lia)) as [u Eu].
  exists n, e, u. repeat (split; [assumption|]). pose proof (box_dim _ _ Hc k e Ee). split; [lia|]. rewrite Forall_forall in Hw. split; [apply Hw; now apply nth_error_In in Eu|]. exact (Hsmall k n e u En Ee Eu).
Qed.

(** [P] cells forwards and [N] cells backwards so far; the window took part in some of the moves. *)
Definition lag (p : Z) (prev : list Z) (win : interval) : Prop :=
  length (imin win) = length (idim dom) /\ idim win = map (fun u => 2 * u + 1) w /\
  forall k x c m u, nth_error (imin win) k = Some x -> nth_error prev k = Some c -> nth_error (imin dom) k = Some m -> nth_error w k = Some u ->
    exists P N, 0 <= P <= p /\ 0 <= N /\ c = m + P - N /\ - N <= x + u - m <= P.

Lemma lag_step p prev cur win : 0 <= p -> p + 1 < vol (idim dom) -> cell prev -> cell cur -> prev <> cur ->
  (forall k a b, nth_error prev k = Some a -> nth_error cur k = Some b -> b <= a + 1) -> lag p prev win ->
  exists win', step_safe dom prev cur win win' /\ lag (p + 1) cur win'.
Proof.
  intros Hp Hv Hcp Hcc Hne Hup (L1 & L2 & Hlag). destruct (in_box_length _ _ _ Hcp) as [Ld Lp]. destruct (in_box_length _ _ _ Hcc) as [_ Lc].
  destruct (findIncrement_spec prev cur) as [F1 F2]; [congruence|congruence|]. destruct (findIncrement prev cur) as [d incr] eqn:Ef. cbn [fst snd] in F1, F2. rewrite Lp in F1.
  assert (Hdiff : forall k a b, nth_error prev k = Some a -> nth_error cur k = Some b -> exists n e u, nth_error (imin dom) k = Some n /\ nth_error (idim dom) k = Some e /\ nth_error w k = Some u /\
    0 < e /\ 0 <= u /\ Z.abs n + e + u + vol (idim dom) <= 2 ^ 30 /\ n <= a < n + e /\ n <= b < n + e /\ b <= a + 1).
  { intros k a b Ha Hb. pose proof (nth_error_lt _ _ _ Ha) as L. destruct (any_nth k ltac:(lia)) as (n & e & u & En & Ee & Eu & H1 & H2 & H3). exists n, e, u. repeat (split; [assumption|]).
    split; [exact (box_nth _ _ _ Hcp k a n e Ha En Ee)|]. split; [exact (box_nth _ _ _ Hcc k b n e Hb En Ee)|eauto]. }
  assert (Hf : findIncrement_chk prev cur = Ret (d, incr)).
  { unfold findIncrement_chk. rewrite incr_chk; [unfold findIncrement in Ef; now rewrite Ef| |lia]. intros k a b Ha Hb. destruct (Hdiff k a b Ha Hb) as (n & e & u & ?). lia. }
  assert (Hinc : exists a b, nth_error prev d = Some a /\ nth_error cur d = Some b /\ incr = b - a).
  { clear - Ef F2 Lp Lc. assert (L : length prev = length cur) by congruence. clear Lp Lc.
    assert (G : forall prev cur d0 dm im d incr, length prev = length cur -> incr_loop d0 prev cur dm im = (d, incr) -> (d = dm /\ incr = im) \/ exists j a b, d = (d0 + j)%nat /\ nth_error prev j = Some a /\ nth_error cur j = Some b /\ incr = b - a).
    { clear. induction prev as [|p prev IH]; intros [|c cur] d0 dm im d incr L E; cbn [length] in L; try discriminate; cbn [incr_loop] in E.
      - left. split; congruence.
      - destruct (Z.abs im <? Z.abs (c - p)).
        + apply IH in E; [|lia]. right. destruct E as [[-> ->]|(j & a & b & -> & Ha & Hb & ->)]; [exists 0%nat, p, c; repeat split; auto; lia|exists (S j), a, b; repeat split; auto; lia].
        + apply IH in E; [|lia]. destruct E as [E|(j & a & b & -> & Ha & Hb & ->)]; [now left|right; exists (S j), a, b; repeat split; auto; lia]. }
    apply G in Ef; [|auto]. destruct Ef as [[_ E]|(j & a & b & -> & Ha & Hb & ->)]; [lia|]. cbn [Nat.add]. eauto. }
  destruct Hinc as (a & b & Ea & Eb & Hinc). destruct (Hdiff d a b Ea Eb) as (n & e & u & En & Ee & Eu & He & Hu & Hs & Ha & Hb & Hab).
  destruct (nth_error_ex (imin win) d ltac:(lia)) as [x Ex].
  assert (Ed : nth_error (idim win) d = Some (2 * u + 1)) by (rewrite L2; exact (map_nth_error (fun u => 2 * u + 1) d w Eu)).
  destruct (Hlag d x a n u Ex Ea En Eu) as (P & N & HP & HN & Hc & Hx).
  assert (Wok : win_ok (length (idim dom)) win).
  { split; [auto|]. split; [rewrite L2, map_length; auto|]. rewrite L2. apply Forall_forall. intros y Hy. apply in_map_iff in Hy as (v & <- & Hv'). rewrite Forall_forall in Hw. specialize (Hw v Hv'). cbv beta in Hw. lia. }
  destruct (move_ok _ win d incr Wok F1 F2) as (st & win' & G1 & G2 & (S1 & S2 & S3) & W').
  destruct (translate_alt win d incr _ Ex) as [Ht _]. destruct (stacked_alt win d incr _ _ Ex Ed) as [Hst _].
  assert (Ht' : translate_chk win d incr = Ret win') by (rewrite Ht; [exact G2|unfold fits; lia]).
  assert (Hs' : stacked_chk win d incr = Ret st) by (rewrite Hst; [exact G1|destruct (Z.leb_spec 0 incr); unfold fits; lia]).
  assert (Est : (0 < incr /\ st = mkI (lset (imin win) d (x + (2 * u + 1))) (lset (idim win) d incr)) \/ (incr < 0 /\ st = mkI (lset (imin win) d (x + incr)) (lset (idim win) d (- incr)))).
  { unfold stacked, vread in G1. destruct (Nat.ltb_spec d (length (imin win))); [|discriminate]. rewrite Ex, Ed in G1. cbn [obind] in G1.
    destruct (Z.leb_spec 0 incr); [left|right]; (split; [lia|]); congruence. }
  assert (Ewin : win' = mkI (lset (imin win) d (x + incr)) (idim win)).
  { unfold translate, vread in G2. destruct (Nat.ltb_spec d (length (imin win))); [|discriminate]. rewrite Ex in G2. cbn [obind] in G2. congruence. }
  (* every coordinate of the window and of the novel part *)
  assert (Hoth : forall k y dd, nth_error (imin win) k = Some y -> nth_error (idim win) k = Some dd -> exists n' e' u', nth_error (imin dom) k = Some n' /\ nth_error (idim dom) k = Some e' /\ nth_error w k = Some u' /\
    0 < e' /\ 0 <= u' /\ Z.abs n' + e' + u' + vol (idim dom) <= 2 ^ 30 /\ dd = 2 * u' + 1 /\ - p <= y + u' - n' <= p).
  { intros k y dd Hy Hdd. pose proof (nth_error_lt _ _ _ Hy) as L. destruct (any_nth k ltac:(lia)) as (n' & e' & u' & En' & Ee' & Eu' & H1 & H2 & H3). exists n', e', u'. repeat (split; [assumption|]).
    split; [rewrite L2, (map_nth_error (fun u => 2 * u + 1) k w Eu') in Hdd; congruence|].
    destruct (nth_error_ex prev k ltac:(lia)) as [c Ec]. destruct (Hlag k y c n' u' Hy Ec En' Eu') as (P' & N' & ? & ? & ? & ?). pose proof (box_nth _ _ _ Hcp k c n' e' Ec En' Ee'). lia. }
  assert (Hstk : forall k m dd, nth_error (imin st) k = Some m -> nth_error (idim st) k = Some dd -> exists n' e' u' y, nth_error (imin dom) k = Some n' /\ nth_error (idim dom) k = Some e' /\ nth_error w k = Some u' /\
    0 < e' /\ 0 <= u' /\ Z.abs n' + e' + u' + vol (idim dom) <= 2 ^ 30 /\ - p <= y + u' - n' <= p /\
    ((m = y /\ dd = 2 * u' + 1) \/ (m = y + (2 * u' + 1) /\ dd = 1) \/ (y - e' < m < y /\ m + dd = y))).
  { intros k m dd H1 H2. destruct (Nat.eq_dec k d) as [->|Hk].
    - destruct (Hoth d x (2 * u + 1) Ex Ed) as (n' & e' & u' & En' & Ee' & Eu' & K1 & K2 & K3 & K4 & K5). assert (n' = n) by congruence. assert (e' = e) by congruence. assert (u' = u) by congruence. subst n' e' u'.
      exists n, e, u, x. repeat (split; [assumption|]). destruct Est as [[Ei ->]|[Ei ->]]; cbn [imin idim] in H1, H2; rewrite nth_error_lset_eq in H1, H2 by (rewrite ?L2, ?map_length; lia).
      + right. left. split; [congruence|]. assert (dd = incr) by congruence. lia.
      + right. right. assert (m = x + incr) by congruence. assert (dd = - incr) by congruence. lia.
    - assert (H3 : nth_error (imin win) k = Some m /\ nth_error (idim win) k = Some dd).
      { destruct Est as [[Ei ->]|[Ei ->]]; cbn [imin idim] in H1, H2; rewrite nth_error_lset_neq in H1, H2 by auto; auto. }
      destruct (Hoth k m dd (proj1 H3) (proj2 H3)) as (n' & e' & u' & En' & Ee' & Eu' & K1 & K2 & K3 & K4 & K5). exists n', e', u', m. repeat (split; [assumption|]). left. auto. }
  assert (Est_ne : empty st = false) by (apply empty_spec; exact S3).
  assert (Edom : empty dom = false) by (apply empty_spec; destruct Hbox as [Hc' _]; exact (corners_pos _ _ Hc')).
  exists win'. split.
  - exists d, incr, st. repeat (split; [assumption|]). split; [|split; [assumption|split; [assumption|]]].
    + destruct (intersect_alt st dom) as [[HI EI]|[HI EI]]; auto.
      { congruence. } { congruence. }
      { apply Forall_nth. intros k m Hm. destruct (nth_error_ex (idim st) k) as [dd Edd]; [rewrite S2, <- S1; now apply nth_error_lt in Hm|]. destruct (Hstk k m dd Hm Edd) as (n' & e' & u' & y & ?). unfold fits. lia. }
      { apply Forall_nth. intros k dd Hm. destruct (nth_error_ex (imin st) k) as [m Edd]; [rewrite S1, <- S2; now apply nth_error_lt in Hm|]. destruct (Hstk k m dd Edd Hm) as (n' & e' & u' & y & ?). unfold fits. lia. }
      { apply Forall_nth. intros k m Hm. pose proof (nth_error_lt _ _ _ Hm) as L. destruct (any_nth k ltac:(lia)) as (n' & e' & u' & En' & ?). rewrite Hm in En'. injection En' as <-. unfold fits. lia. }
      { apply Forall_nth. intros k m Hm. pose proof (nth_error_lt _ _ _ Hm) as L. destruct (any_nth k ltac:(lia)) as (n' & e' & u' & En' & Ee' & ?). rewrite Hm in Ee'. injection Ee' as <-. unfold fits. lia. }
      exfalso. apply HI. intros k m dd n' e' H1 H2 H3 H4. destruct (Hstk k m dd H1 H2) as (n'' & e'' & u' & y & En' & Ee' & Eu' & K1 & K2 & K3 & K4 & K5). assert (n'' = n') by congruence. assert (e'' = e') by congruence. subst n'' e''.
      unfold meet_fits, fits. lia.
    + intros k m dd Hm Hdd. rewrite Ewin in Hm, Hdd. cbn [imin idim] in Hm, Hdd. destruct (Nat.eq_dec k d) as [->|Hk].
      * rewrite nth_error_lset_eq in Hm by lia. assert (m = x + incr) by congruence. assert (dd = 2 * u + 1) by congruence. unfold fits. lia.
      * rewrite nth_error_lset_neq in Hm by auto. destruct (Hoth k m dd Hm Hdd) as (n' & e' & u' & ?). unfold fits. lia.
  - rewrite Ewin. split; [cbn [imin]; rewrite length_lset; auto|]. split; [exact L2|]. cbn [imin]. intros k y c m v Hy Ec Em Ev.
    destruct (nth_error_ex prev k) as [c0 Ec0]; [rewrite Lp, <- Lc; now apply nth_error_lt in Ec|]. destruct (nth_error_ex (imin win) k) as [y0 Ey0]; [rewrite L1, <- Lc; now apply nth_error_lt in Ec|].
    destruct (Hlag k y0 c0 m v Ey0 Ec0 Em Ev) as (P' & N' & HP' & HN' & Hc0 & Hy0). pose proof (Hup k c0 c Ec0 Ec) as Hu1.
    assert (Hmv : y = y0 \/ y = y0 + (c - c0)).
    { destruct (Nat.eq_dec k d) as [->|Hk]; [right|left].
      - rewrite nth_error_lset_eq in Hy by lia. assert (y0 = x) by congruence. assert (c0 = a) by congruence. assert (c = b) by congruence. assert (y = x + incr) by congruence. lia.
      - rewrite nth_error_lset_neq in Hy by auto. congruence. }
    destruct (Z_le_dec 0 (c - c0)); [exists (P' + (c - c0)), N'|exists P', (N' + (c0 - c))]; lia.
Qed.
End Any.

Lemma detect_any_lemma dom w fm : int_box (imin dom) (idim dom) -> length w = length (idim dom) -> Forall (fun k => 0 <= k) w ->
  each3 (fun m d k => Z.abs m + d + k + vol (idim dom) <= 2 ^ 30) (imin dom) (idim dom) w ->
  detect_chk comp val dom w fm = detect comp val dom w fm.
Proof.
  intros Hbox Lw Hw Hs. pose proof Hbox as [Hc Hv]. pose proof (corners_length _ _ Hc) as Ld. pose proof (corners_pos _ _ Hc) as Hpd. pose proof (vol_pos _ Hpd) as Hvp.
  destruct (walk_list dom Hbox) as (E0 & Ew & Hcells). unfold detect_chk, detect. rewrite Ew. cbn [obind]. set (rest := map _ (zseq 1 _)) in *.
  assert (Hk : forall k m, nth_error (imin dom) k = Some m -> exists d u, nth_error (idim dom) k = Some d /\ nth_error w k = Some u /\ 0 < d /\ 0 <= u /\ Z.abs m + d + u + vol (idim dom) <= 2 ^ 30).
  { intros k m Em. destruct (any_nth dom w Hbox Lw Hw Hs k ltac:(rewrite <- Ld; now apply nth_error_lt in Em)) as (n & e & u & En & Ee & Eu & H1 & H2 & H3). assert (n = m) by congruence. subst n. exists e, u. auto. }
  destruct (centered_alt (imin dom) w ltac:(congruence)) as [[C1 ->]|[C1 _]]; cbn [obind].
  2:{ exfalso. apply C1. intros k m u Em Eu. destruct (Hk k m Em) as (d & u' & Ed & Eu' & ?). assert (u' = u) by congruence. subst u'. unfold fits. lia. }
  set (win := initCentered (imin dom) w).
  assert (Wok : win_ok (length (idim dom)) win) by (apply (initCentered_ok comp val); auto). pose proof Wok as (W1 & W2 & W3).
  assert (Hwin : forall k x y, nth_error (imin win) k = Some x -> nth_error (idim win) k = Some y -> exists m u, nth_error (imin dom) k = Some m /\ nth_error w k = Some u /\ x = m - u /\ y = 2 * u + 1).
  { intros k x y Hx Hy. apply nth_map2 in Hx as (m & u & Em & Eu & ->). apply (nth_map2 (fun _ y => 2 * y + 1)) in Hy as (m' & u' & Em' & Eu' & ->). assert (u' = u) by congruence. subst u'. eauto 6. }
  destruct (intersect_alt win dom) as [[I1 EI]|[I1 EI]]; auto.
  { congruence. } { congruence. }
  { apply Forall_nth. intros k x Hx. apply nth_map2 in Hx as (m & u & Em & Eu & ->). now destruct (C1 k m u Em Eu). }
  { apply Forall_nth. intros k x Hx. apply (nth_map2 (fun _ y => 2 * y + 1)) in Hx as (m & u & Em & Eu & ->). now destruct (C1 k m u Em Eu). }
  { apply Forall_nth. intros k m Em. destruct (Hk k m Em) as (d & u & ?). unfold fits. lia. }
  { apply Forall_nth. intros k d Ed. destruct (nth_error_ex (imin dom) k) as [m Em]; [rewrite Ld; now apply nth_error_lt in Ed|]. destruct (Hk k m Em) as (d' & u & Ed' & ?). assert (d' = d) by congruence. subst d'. unfold fits. lia. }
  { now apply empty_spec. } { now apply empty_spec. }
  2:{ exfalso. apply I1. intros k x y m d Hx Hy Em Ed. destruct (Hwin k x y Hx Hy) as (m' & u & Em' & Eu & -> & ->). assert (m' = m) by congruence. subst m'. destruct (Hk k m Em) as (d' & u' & Ed' & Eu' & ?). assert (d' = d) by congruence. assert (u' = u) by congruence. subst d' u'.
      unfold meet_fits, fits. lia. }
  rewrite EI. cbn [obind]. destruct (iterate_raster _) as [l| | |]; cbn [obind]; try reflexivity. destruct (push_all _ _ _ _) as [items| | |]; cbn [obind]; try reflexivity.
  assert (Hsafe : safe dom rest (imin dom) win).
  { assert (Hst : forall n p win, 0 <= p -> p + 1 + Z.of_nat n <= vol (idim dom) -> lag dom w p (at_pos dom p) win -> safe dom (map (fun p => at_pos dom p) (zseq (p + 1) n)) (at_pos dom p) win).
    { induction n as [|n IH]; intros p wn Hp0 Hpn Hl; [exact I|]. rewrite zseq_S. cbn [map safe].
      destruct (lag_step dom w Hbox Lw Hw Hs p (at_pos dom p) (at_pos dom (p + 1)) wn) as (win' & H1 & H2); auto; try lia.
      - now apply bz_in_box.
      - now apply bz_in_box.
      - intros E. apply map2_add_inj in E; rewrite ?bz_length; auto. apply (bz_inj _ Hpd) in E; lia.
      - intros k a b Ha Hb. apply nth_map2 in Ha as (x & m & Ex & Em & ->). apply nth_map2 in Hb as (y & m' & Ey & Em' & ->). assert (m' = m) by congruence. subst m'. pose proof (bz_up _ Hpd p k x y Hp0 Ex Ey). lia.
      - exists win'. split; [exact H1|]. apply IH; auto; lia. }
    specialize (Hst (Z.to_nat (vol (idim dom) - 1)) 0 win). rewrite E0 in Hst. apply Hst; [lia|lia|]. split; [auto|]. split.
    - unfold win, initCentered. cbn [idim]. clear - Lw Ld. rewrite <- Ld in Lw. revert Lw. generalize (imin dom). induction w as [|k t IH]; intros [|m mn] L; cbn [length map2 map] in *; try discriminate; [reflexivity|]. f_equal. apply IH. lia.
    - intros k x c m u Hx Ec Em Eu. apply nth_map2 in Hx as (m' & u' & Em' & Eu' & ->). assert (m' = m) by congruence. assert (u' = u) by congruence. assert (c = m) by congruence. subst. exists 0, 0. lia. }
  now rewrite (safe_scan dom fm rest (imin dom) win items [] Hsafe).
Qed.
End P.

(** Domains without cells *)
Lemma vol_zero dims : In 0 dims -> vol dims = 0.
Proof. induction dims as [|d dims IH]; [intros []|]. intros [->|H]; cbn [vol]; [lia|]. rewrite IH by auto. lia. Qed.
Lemma zero_extent_lemma {V} (comp : V -> V -> bool) val dom w fm : In 0 (idim dom) -> detect_chk comp val dom w fm = Exit /\ detect comp val dom w fm = Exit.
Proof.
  intros H. assert (E : iterate_boustrophedon dom = Ret []).
  { unfold iterate_boustrophedon, iterate. rewrite size_mod, vol_zero by auto. change (to_int (0 mod 2 ^ 64)) with 0. cbn [Z.ltb Z.compare].
    assert (M : empty dom = true) by (unfold empty; apply existsb_exists; exists 0; auto). unfold it_make. rewrite M. reflexivity. }
  unfold detect_chk, detect. rewrite E. split; reflexivity.
Qed.
Lemma negative_cells_lemma {V} (comp : V -> V -> bool) val dom w fm : - 2 ^ 31 <= vol (idim dom) < 0 -> detect_chk comp val dom w fm = UB /\ detect comp val dom w fm = UB.
Proof.
  intros H. assert (E : iterate_boustrophedon dom = UB).
  { unfold iterate_boustrophedon, iterate. rewrite size_mod. replace (to_int (vol (idim dom) mod 2 ^ 64) <? 0) with true; [reflexivity|].
    symmetry. apply Z.ltb_lt. replace (vol (idim dom) mod 2 ^ 64) with (vol (idim dom) + 2 ^ 64) by (apply (Z.mod_unique _ _ (-1)); lia).
    unfold to_int. replace ((vol (idim dom) + 2 ^ 64 + 2 ^ 31) mod 2 ^ 32) with (vol (idim dom) + 2 ^ 31) by (apply (Z.mod_unique _ _ (2 ^ 32)); lia). lia. }
  unfold detect_chk, detect. rewrite E. split; reflexivity.
Qed.
