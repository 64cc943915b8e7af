(** * Peaks of the Hough accumulators. *)
From Coq Require Import List ZArith Bool Reals Lra Lia Permutation Sorting.Sorted.
From Verif Require Import Base IntervalModel IntervalSpec GridSpec IntervalProofs MinMaxHeapModel PeakModel PeakSpec PeakProofs HoughModel HoughSpec HoughProofs HoughFacts.
Import ListNotations.
Open Scope Z_scope.

(** ** A reported cell beats some value *)
Section Beats.
Context {V : Type} (comp : V -> V -> bool) (val : list Z -> V).

Lemma is_peak_beats fm h cur : is_peak comp val fm h cur = Ret true -> exists y, comp (val cur) (val y) = true.
Proof.
  unfold is_peak. destruct (match fm with None => true | Some m => comp (val cur) m end); [|discriminate].
  destruct h as [|a h]; [discriminate|]. destruct (top (a :: h)) as [t| | |]; try discriminate. cbn [obind].
  destruct (comp (val t) (val cur)); [discriminate|]. destruct (nextTop _ _) as [nt| | |]; try discriminate. cbn [obind].
  intros E. injection E as E. eauto.
Qed.

Lemma push_in h x h' : push (icmp comp val) h x = Ret h' -> forall y, In y h' -> y = x \/ In y h.
Proof.
  intros E y Hy. destruct (push_all_total comp val [x] h) as (h2 & E2 & P). cbn [push_all] in E2. rewrite E in E2. cbn [obind] in E2.
  injection E2 as <-. apply (Permutation_in _ (Permutation_sym P)) in Hy. destruct Hy as [<-|Hy]; auto.
Qed.

Lemma scan_beats dom fm cells : forall prev win items maxima mx, scan comp val dom fm cells prev win items maxima = Ret mx ->
  (forall x, In x maxima -> exists y, comp (val x) (val y) = true) -> forall x, In x mx -> exists y, comp (val x) (val y) = true.
Proof.
  induction cells as [|c r IH]; cbn [scan]; intros prev win items maxima mx E H x Hx.
  - injection E as <-. auto.
  - destruct (findIncrement prev c) as [dm im].
    destruct (stacked win dm im) as [st| | |]; try discriminate. cbn [obind] in E.
    destruct (iterate_raster _) as [l| | |]; try discriminate. cbn [obind] in E.
    destruct (push_all comp val items l) as [it1| | |]; try discriminate. cbn [obind] in E.
    destruct (translate win dm im) as [win1| | |]; try discriminate. cbn [obind] in E.
    destruct (purge comp val _ win1 it1) as [it2| | |]; try discriminate. cbn [obind] in E.
    destruct (is_peak comp val fm it2 c) as [b| | |] eqn:Eb; try discriminate. cbn [obind] in E. destruct b.
    + destruct (push _ maxima c) as [m1| | |] eqn:Em; try discriminate. cbn [obind] in E. apply (IH _ _ _ _ _ E); auto.
      intros z Hz. destruct (push_in _ _ _ Em z Hz) as [->|Hz']; auto. eapply is_peak_beats; eauto.
    + cbn [obind] in E. apply (IH _ _ _ _ _ E); auto.
Qed.

Lemma detect_beats dom iwin fm out : detect comp val dom iwin fm = Ret out -> forall x, In x out -> exists y, comp (val x) (val y) = true.
Proof.
  unfold detect. destruct (iterate_boustrophedon dom) as [cells| | |]; try discriminate. cbn [obind].
  destruct cells as [|c0 rest]; [discriminate|]. cbv zeta. destruct (iterate_raster _) as [l| | |]; try discriminate. cbn [obind].
  destruct (push_all comp val [] l) as [items| | |]; try discriminate. cbn [obind].
  destruct (scan _ _ _ _ _ _ _ _ _) as [mx| | |] eqn:Es; try discriminate. cbn [obind]. intros E x Hx.
  destruct (drain_total comp val (length mx) mx ltac:(lia)) as (out2 & E2 & P). rewrite E in E2. injection E2 as <-.
  apply (scan_beats _ _ _ _ _ _ _ _ Es); [intros z []|]. eapply Permutation_in; [symmetry; exact P|auto].
Qed.
End Beats.

Lemma gtb_beats_pos (val : list Z -> Z) x : (forall y, 0 <= val y) -> (exists y, Z.gtb (val x) (val y) = true) -> 0 < val x.
Proof. intros H (y & E). specialize (H y). apply Z.gtb_lt in E. lia. Qed.

Lemma NoDup_app_iff_local {A} (l1 l2 : list A) : NoDup l1 -> NoDup l2 -> (forall x, In x l1 -> In x l2 -> False) -> NoDup (l1 ++ l2).
Proof.
  induction 1 as [|a l Ha Hl IH]; intros H2 H; cbn [app]; auto. constructor.
  - intros X. apply in_app_or in X. destruct X as [X|X]; [contradiction|]. apply (H a); [now left|auto].
  - apply IH; auto. intros x Hx. apply H. now right.
Qed.

(** ** Boxes for the peak finder *)
Lemma box1 n : 0 < n < 2 ^ 31 -> int_box [0] [n].
Proof. intros H. split; [constructor; try lia; constructor|cbn [vol]; lia]. Qed.
Lemma box2 a b : 0 < a -> 0 < b -> a * b < 2 ^ 31 -> int_box [0; 0] [a; b].
Proof.
  intros Ha Hb H. split; [|cbn [vol]; lia]. constructor; [lia|lia|nia|]. constructor; [lia|lia|nia|]. constructor.
Qed.

Lemma rnum_bound d : wf d -> positive d -> 0 < rnum d < 2 ^ 31.
Proof. intros W (H1 & H2 & H3). destruct (wf_sizes _ W) as (_ & _ & _ & _ & H). split; [lia|]. assert (1 <= tnum d * pnum d) by nia. nia. Qed.

Lemma mapM_ret {A B} (f : A -> outcome B) l : (forall x, In x l -> exists y, f x = Ret y) -> exists ys, mapM f l = Ret ys /\ Forall2 (fun x y => f x = Ret y) l ys.
Proof.
  induction l as [|x r IH]; intros H; [exists []; split; [reflexivity|constructor]|]. destruct (H x (or_introl eq_refl)) as (y & E).
  destruct IH as (ys & Es & F). { intros z Hz. apply H. now right. }
  exists (y :: ys). cbn [mapM]. rewrite E. cbn [obind]. rewrite Es. split; [reflexivity|]. constructor; auto.
Qed.

Lemma spectrum_max_lemma d : wf d -> positive d -> windows_ok d -> exists m, findSpectrumMax d [] = Ret m /\ NoDup m /\
  forall x, In x m -> exists it ip, x = [it; ip] /\ dir_in d it ip /\ (it, ip) <> (0, 0) /\ exists y, gval (hs d) y < gval (hs d) x.
Proof.
  intros W (Ht & Hp & Hr) (Wt & Wp & Wr). destruct (wf_sizes _ W) as (_ & _ & _ & Hv & _).
  destruct (detect_safe_lemma Z.gtb (gval (hs d)) (mkI [0; 0] [tnum d; pnum d]) [twin d; pwin d] None) as (m & E & Nm & Hm).
  { now apply box2. } { reflexivity. } { repeat constructor; auto. }
  exists m. unfold findSpectrumMax. rewrite E. cbn [obind app]. split; [reflexivity|]. split; [auto|].
  intros x Hx. destruct (Hm x Hx) as (Hb & Hne & _). cbn [imin idim] in *. inversion Hb as [|? ? it ? ? xs H1 H2]; subst.
  inversion H2 as [|? ? ip ? ? ys H3 H4]; subst. inversion H4; subst. exists it, ip. split; [reflexivity|]. split; [split; lia|]. split.
  - intros X. injection X as -> ->. now apply Hne.
  - destruct (detect_beats _ _ _ _ _ _ E _ Hx) as (y & Ey). exists y. apply Z.gtb_lt in Ey. lia.
Qed.

Lemma rho_maxima_lemma d it ip : wf d -> positive d -> windows_ok d -> dir_in d it ip -> exists m, rho_maxima d it ip = Ret m /\ NoDup m /\
  forall x, In x m -> exists ir, x = [it; ip; ir] /\ 0 < ir < rnum d.
Proof.
  intros W Hpos (Wt & Wp & Wr) Hi. unfold rho_maxima.
  destruct (mapM_ret (fun ir => grid_get (ht d) [it; ip; ir]) (zrange (rnum d))) as (ys & Ey & _).
  { intros ir Hir. apply in_zrange in Hir. rewrite wf_get by (auto; split; auto). eauto. }
  rewrite Ey. cbn [obind].
  destruct (detect_safe_lemma Z.gtb (fun ix => gval (ht d) (it :: ip :: ix)) (mkI [0] [rnum d]) [rwin d] None) as (m & E & Nm & Hm).
  { apply box1. now apply rnum_bound. } { reflexivity. } { repeat constructor; auto. }
  rewrite E. cbn [obind]. eexists. split; [reflexivity|]. split.
  - apply FinFun.Injective_map_NoDup; auto. intros a b X. now injection X.
  - intros x Hx. apply in_map_iff in Hx. destruct Hx as (r & <- & Hr). destruct (Hm r Hr) as (Hb & Hne & _). cbn [imin idim] in *.
    inversion Hb as [|? ? ir ? ? xs H1 H2]; subst. inversion H2; subst. exists ir. split; [reflexivity|].
    assert (ir <> 0) by (intros ->; now apply Hne). lia.
Qed.

Lemma rows_lemma d m : wf d -> positive d -> windows_ok d -> NoDup m ->
  (forall x, In x m -> exists it ip, x = [it; ip] /\ dir_in d it ip) ->
  exists l, rows d m = Ret l /\ NoDup l /\ forall x, In x l -> exists it ip ir, x = [it; ip; ir] /\ In [it; ip] m /\ dir_in d it ip /\ 0 < ir < rnum d.
Proof.
  intros W Hp Hw. induction m as [|x r IH]; intros Nm Hm.
  - exists []. split; [reflexivity|]. split; [constructor|]. intros x [].
  - inversion Nm as [|? ? Nx Nr]; subst. destruct (Hm x (or_introl eq_refl)) as (it & ip & -> & Hi).
    destruct IH as (l & El & Nl & Hl); auto. { intros z Hz. apply Hm. now right. }
    destruct (rho_maxima_lemma d it ip W Hp Hw Hi) as (rm & Er & Nrm & Hrm). cbn [rows]. rewrite Er. cbn [obind]. rewrite El. cbn [obind].
    exists (rm ++ l). split; [reflexivity|]. split.
    + apply NoDup_app_iff_local; auto.
      intros z Hz Hz'. destruct (Hrm z Hz) as (ir & -> & _). destruct (Hl _ Hz') as (a & b & c & X & Hin & _). injection X as <- <- <-. contradiction.
    + intros z Hz. apply in_app_or in Hz. destruct Hz as [Hz|Hz].
      * destruct (Hrm z Hz) as (ir & -> & Hir). exists it, ip, ir. split; [auto|]. split; [now left|]. auto.
      * destruct (Hl z Hz) as (a & b & c & -> & Hin & K). exists a, b, c. split; [auto|]. split; [now right|]. auto.
Qed.

(** ** findPlanes *)
Lemma StronglySorted_weaken {A} (P Q : A -> A -> Prop) l : (forall a b, In a l -> In b l -> P a b -> Q a b) -> StronglySorted P l -> StronglySorted Q l.
Proof.
  intros H S. induction S as [|a l S IH F]; constructor.
  - apply IH. intros x y Hx Hy. apply H; now right.
  - rewrite Forall_forall in *. intros y Hy. apply H; [now left|now right|auto].
Qed.

Lemma findPlanes_lemma d sort hyp : preach d -> positive d -> windows_ok d -> sorts_by_votes d sort ->
  (forall x, In x hyp -> exists it ip ir, x = [it; ip; ir] /\ cell_in d it ip ir) ->
  exists found out, findPlanes sort d hyp = Ret out /\ Permutation out (hyp ++ found) /\ NoDup found /\
    (forall x, In x found -> exists it ip ir, x = [it; ip; ir] /\ cell_in d it ip ir /\ (it, ip) <> (0, 0) /\ ir <> 0) /\
    StronglySorted (fun a b => forall va vb, ht_at d a = Ret va -> ht_at d b = Ret vb -> vb <= va) out.
Proof.
  intros Hd Hp Hw Hs Hh. pose proof (preach_wf d Hd) as W. unfold findPlanes.
  destruct (spectrum_max_lemma d W Hp Hw) as (m & Em & Nm & Hm). rewrite Em. cbn [obind].
  destruct (rows_lemma d m W Hp Hw Nm) as (l & El & Nl & Hl). { intros x Hx. destruct (Hm x Hx) as (a & b & -> & Hi & _). eauto. }
  rewrite El. cbn [obind]. cbv zeta.
  assert (Hall : forall x, In x (hyp ++ l) -> exists it ip ir, x = [it; ip; ir] /\ cell_in d it ip ir).
  { intros x Hx. apply in_app_or in Hx. destruct Hx as [Hx|Hx]; [auto|]. destruct (Hl x Hx) as (a & b & c & -> & _ & Hi & Hc). exists a, b, c. split; [auto|]. split; [auto|lia]. }
  destruct (mapM_ret (grid_get (ht d)) (hyp ++ l)) as (ys & Ey & _).
  { intros x Hx. destruct (Hall x Hx) as (a & b & c & -> & Hc). rewrite wf_get by auto. eauto. }
  rewrite Ey. cbn [obind]. destruct (Hs (hyp ++ l)) as [P S].
  exists l, (sort (hyp ++ l)). split; [reflexivity|]. split; [auto|]. split; [auto|]. split.
  - intros x Hx. destruct (Hl x Hx) as (a & b & c & -> & Hin & Hi & Hc). exists a, b, c. split; [auto|]. split; [split; [auto|lia]|]. split; [|lia].
    destruct (Hm _ Hin) as (a' & b' & X & _ & Hne & _). injection X as <- <-. auto.
  - eapply StronglySorted_weaken; [|exact S]. intros x y Hx Hy H va vb Ha Hb.
    destruct (Hall x (Permutation_in _ P Hx)) as (a & b & c & -> & Hc). destruct (Hall y (Permutation_in _ P Hy)) as (a' & b' & c' & -> & Hc').
    cbn [ht_at] in Ha, Hb. rewrite getHT_in in Ha, Hb by auto. eauto.
Qed.

Lemma findPlaneParams_lemma d sort : preach d -> positive d -> windows_ok d -> sorts_by_votes d sort ->
  exists cells out, findPlanes sort d [] = Ret cells /\ findPlaneParams sort d = Ret out /\
    Forall2 (fun ix pr => exists it ip ir, ix = [it; ip; ir] /\ pr = (dir_of d it ip, (- (rmin d + rres d * IZR ir))%R)) cells out.
Proof.
  intros Hd Hp Hw Hs. destruct (findPlanes_lemma d sort [] Hd Hp Hw Hs) as (f & cells & E & P & _ & Hf & _); [intros x []|].
  exists cells. unfold findPlaneParams. rewrite E. cbn [obind app] in *.
  assert (K : forall x, In x cells -> exists it ip ir, x = [it; ip; ir] /\ cell_in d it ip ir).
  { intros x Hx. apply (Permutation_in _ P) in Hx. destruct (Hf x Hx) as (a & b & c & -> & Hc & _). eauto. }
  assert (G : forall it ip ir, cell_in d it ip ir -> getPlaneParam_ix d it ip ir = Ret (dir_of d it ip, (- (rres d * IZR ir + rmin d))%R)).
  { intros it ip ir Hc. unfold getPlaneParam_ix. rewrite cell_b by auto. destruct (normals_lemma d it ip Hd (proj1 Hc)) as [En _]. rewrite En. reflexivity. }
  destruct (mapM_ret (param_at d) cells) as (ys & Ey & F).
  { intros x Hx. destruct (K x Hx) as (a & b & c & -> & Hc). cbn [param_at]. rewrite G by auto. eauto. }
  exists ys. split; [reflexivity|]. split; [exact Ey|]. clear - F K G. induction F as [|x y l l' Hxy F IH]; constructor.
  - destruct (K x (or_introl eq_refl)) as (a & b & c & -> & Hc). cbn [param_at] in Hxy. rewrite G in Hxy by auto.
    pose proof (f_equal (fun o => match o with Ret v => v | _ => y end) Hxy) as X. cbn in X. exists a, b, c. split; [reflexivity|].
    rewrite <- X. f_equal. ring.
  - apply IH. intros z Hz. apply K. now right.
Qed.

(** ** A sorting function *)
Fixpoint vins (g : grid Z) (x : list Z) (l : list (list Z)) : list (list Z) :=
  match l with [] => [x] | y :: r => if gval g y <=? gval g x then x :: l else y :: vins g x r end.
Definition vsort (g : grid Z) (l : list (list Z)) : list (list Z) := fold_right (vins g) [] l.

Lemma vins_perm g x l : Permutation (vins g x l) (x :: l).
Proof. induction l as [|y r IH]; cbn [vins]; auto. destruct (_ <=? _); auto. rewrite IH. apply perm_swap. Qed.
Lemma vins_sorted g x l : StronglySorted (fun a b => gval g b <= gval g a) l -> StronglySorted (fun a b => gval g b <= gval g a) (vins g x l).
Proof.
  induction 1 as [|y r S IH F]; cbn [vins].
  - repeat constructor.
  - destruct (Z.leb_spec (gval g y) (gval g x)).
    + constructor; [constructor; auto|]. constructor; auto. eapply Forall_impl; [|exact F]. cbn. intros. lia.
    + constructor; auto. apply Forall_forall. intros z Hz. apply (Permutation_in _ (vins_perm g x r)) in Hz. destruct Hz as [<-|Hz]; [lia|].
      rewrite Forall_forall in F. auto.
Qed.
Lemma vsort_sorts d : sorts_by_votes d (vsort (ht d)).
Proof.
  intros l. split.
  - induction l as [|x r IH]; cbn; auto. rewrite vins_perm. constructor. auto.
  - apply StronglySorted_weaken with (P := fun a b => gval (ht d) b <= gval (ht d) a).
    + intros a b _ _ H va vb Ha Hb. now rewrite (grid_get_val _ _ _ Ha), (grid_get_val _ _ _ Hb) in H.
    + induction l as [|x r IH]; cbn; [constructor|]. now apply vins_sorted.
Qed.
