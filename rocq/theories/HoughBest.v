(** * The strongest direction and bin of the plane detector, and what its searches return together. *)
From Coq Require Import List ZArith Bool Reals Lra Lia Permutation Sorting.Sorted.
From Verif Require Import Base IntervalModel IntervalSpec GridSpec IntervalProofs MinMaxHeapModel MinMaxHeapSpec PeakModel PeakSpec PeakProofs PeakLine PeakBest
  HoughModel HoughSpec HoughProofs HoughFacts HoughFind HoughWitness.
Import ListNotations.
Open Scope Z_scope.

Lemma hs_val d it ip : wf d -> dir_in d it ip -> getHS d it ip = Ret (gval (hs d) [it; ip]).
Proof.
  intros W H. rewrite getHS_in by auto. destruct (cell_get 0 (hs d) [it; ip] (wf_hs _ W)) as (v & E).
  { unfold gcell. rewrite (wf_hsd _ W). apply in_box2. exact H. }
  unfold gval. now rewrite E.
Qed.
Lemma ht_val d it ip ir : wf d -> cell_in d it ip ir -> getHT d it ip ir = Ret (gval (ht d) [it; ip; ir]).
Proof. intros W H. rewrite getHT_in by auto. now apply wf_get. Qed.
Lemma lut_val d it ip : preach d -> dir_in d it ip -> grid_get (lut d) [it; ip] = Ret (dir_of d it ip).
Proof. intros P H. destruct (normals_lemma d it ip P H) as [E _]. unfold getNormal in E. now rewrite dir_b in E. Qed.

(** ** The strongest direction *)
Lemma best_dir_lemma d bt bp : preach d -> positive d -> windows_ok d -> best_dir d bt bp -> (bt, bp) <> (0, 0) -> dir_neighbour d bt bp ->
  exists rest, findSpectrumMax d [] = Ret ([bt; bp] :: rest).
Proof.
  intros P (Ht & Hp & Hr) (Wt & Wp & Wr) [Hi Hb] Hne (it & ip & Hd & Hdne & N1 & N2). pose proof (preach_wf d P) as W.
  destruct (wf_sizes _ W) as (_ & _ & _ & Hv & _).
  destruct (detect_best_lemma Z.gtb (gval (hs d)) (mkI [0; 0] [tnum d; pnum d]) [twin d; pwin d] None [bt; bp] [it; ip]) as (out & E); cbn [imin idim].
  - exact gtb_sw.
  - now apply box2.
  - reflexivity.
  - repeat constructor; auto.
  - cbn. auto.
  - apply in_box2. exact Hi.
  - intros X. apply Hne. congruence.
  - intros x Hx Hxb. inversion Hx as [|? ? a ? ? xs A1 A2]; subst. inversion A2 as [|? ? c ? ? ys A3 A4]; subst. inversion A4; subst.
    assert (Hac : dir_in d a c) by (split; lia). unfold better. apply Z.gtb_lt.
    apply (Hb a c (gval (hs d) [a; c]) (gval (hs d) [bt; bp]) Hac); [congruence| |]; now apply hs_val.
  - exact I.
  - apply in_box2. exact Hd.
  - congruence.
  - unfold near. cbn [combine map fst snd]. repeat constructor; lia.
  - exists out. unfold findSpectrumMax. rewrite E. reflexivity.
Qed.

(** ** Normals and parameters of what is reported *)
Lemma normal_max_lemma d : preach d -> positive d -> windows_ok d -> exists m, findSpectrumMax d [] = Ret m /\
  (forall x, In x m -> exists it ip, x = [it; ip] /\ dir_in d it ip) /\
  findNormalMax d = Ret (map (fun x => match x with [it; ip] => dir_of d it ip | _ => v30 end) m).
Proof.
  intros P Hpos Hw. destruct (spectrum_max_lemma d (preach_wf d P) Hpos Hw) as (m & Em & _ & Hm). exists m. split; [auto|].
  assert (K : forall x, In x m -> exists it ip, x = [it; ip] /\ dir_in d it ip) by (intros x Hx; destruct (Hm x Hx) as (a & b & -> & Hi & _); eauto).
  split; [auto|]. unfold findNormalMax. rewrite Em. cbn [obind]. clear Em Hm. induction m as [|x m IH]; [reflexivity|].
  cbn [mapM map]. destruct (K x (or_introl eq_refl)) as (it & ip & -> & Hi). rewrite lut_val by auto. cbn [obind]. rewrite IH by (intros y Hy; apply K; now right). reflexivity.
Qed.

Lemma parallel_params_lemma d it ip : preach d -> positive d -> windows_ok d -> dir_in d it ip -> exists rs,
  findParallelPlanes d it ip = Ret (map (fun ir => [it; ip; ir]) rs) /\ NoDup rs /\ (forall ir, In ir rs -> 0 < ir < rnum d) /\
  findParallelParams d it ip = Ret (map (fun ir => (dir_of d it ip, (- (rmin d + rres d * IZR ir))%R)) rs).
Proof.
  intros P Hpos Hw Hi. destruct (rho_maxima_lemma d it ip (preach_wf d P) Hpos Hw Hi) as (m & Em & Nm & Hm).
  assert (X : exists rs, m = map (fun ir => [it; ip; ir]) rs).
  { clear Em Nm. induction m as [|x m IH]; [exists []; reflexivity|]. destruct IH as (rs & ->); [intros y Hy; apply Hm; now right|].
    destruct (Hm x (or_introl eq_refl)) as (ir & -> & _). exists (ir :: rs). reflexivity. }
  destruct X as (rs & ->). exists rs. unfold findParallelPlanes. split; [auto|]. split; [eapply NoDup_map_inv; eauto|].
  assert (K : forall ir, In ir rs -> 0 < ir < rnum d).
  { intros ir Hir. destruct (Hm [it; ip; ir]) as (r & X & Hr); [apply in_map_iff; eauto|]. injection X as ->. auto. }
  split; [auto|]. unfold findParallelParams, findParallelPlanes. rewrite Em. cbn [obind]. clear Em Nm Hm. induction rs as [|ir rs IH]; [reflexivity|].
  cbn [mapM map param_at]. assert (Hc : cell_in d it ip ir) by (split; [auto|]; specialize (K ir (or_introl eq_refl)); lia).
  assert (G : getPlaneParam_ix d it ip ir = Ret (dir_of d it ip, (- (rmin d + rres d * IZR ir))%R)).
  { unfold getPlaneParam_ix. rewrite cell_b by auto. destruct (normals_lemma d it ip P Hi) as [En _]. rewrite En. cbn [obind]. f_equal. f_equal. ring. }
  rewrite G. cbn [obind]. rewrite IH by (intros r Hr; apply K; now right). reflexivity.
Qed.

Lemma best_normal_lemma d bt bp : preach d -> positive d -> windows_ok d -> best_dir d bt bp -> (bt, bp) <> (0, 0) -> dir_neighbour d bt bp ->
  exists cells normals, findSpectrumMax d [] = Ret ([bt; bp] :: cells) /\ findNormalMax d = Ret (dir_of d bt bp :: normals).
Proof.
  intros P Hpos Hw Hb Hne Hn. destruct (best_dir_lemma d bt bp P Hpos Hw Hb Hne Hn) as (rest & E).
  destruct (normal_max_lemma d P Hpos Hw) as (m & Em & _ & En). rewrite E in Em. injection Em as <-. exists rest. eexists. split; [auto|]. rewrite En. reflexivity.
Qed.

(** ** The strongest bin of a direction *)
Lemma row_mapM d it ip : wf d -> dir_in d it ip -> exists ys, mapM (fun ir => grid_get (ht d) [it; ip; ir]) (zrange (rnum d)) = Ret ys.
Proof.
  intros W Hi. destruct (mapM_ret (fun ir => grid_get (ht d) [it; ip; ir]) (zrange (rnum d))) as (ys & Ey & _); [|eauto].
  intros ir Hir. apply in_zrange in Hir. rewrite wf_get by (auto; split; auto). eauto.
Qed.

Lemma best_bin_lemma d it ip br : preach d -> positive d -> windows_ok d -> 0 < rwin d -> dir_in d it ip -> best_bin d it ip br -> br <> 0 ->
  exists rest prest, findParallelPlanes d it ip = Ret ([it; ip; br] :: rest) /\
    findParallelParams d it ip = Ret ((dir_of d it ip, (- (rmin d + rres d * IZR br))%R) :: prest).
Proof.
  intros P Hpos Hw Wr Hi [Hbr Hb] Hne. pose proof (preach_wf d P) as W.
  assert (X : exists rest, findParallelPlanes d it ip = Ret ([it; ip; br] :: rest)).
  { destruct (row_mapM d it ip W Hi) as (ys & Ey). unfold findParallelPlanes, rho_maxima. rewrite Ey. cbn [obind].
    destruct (detect_best_lemma Z.gtb (fun ix => gval (ht d) (it :: ip :: ix)) (mkI [0] [rnum d]) [rwin d] None [br] [br - 1]) as (out & E); cbn [imin idim].
    - exact gtb_sw.
    - apply box1. now apply rnum_bound.
    - reflexivity.
    - repeat constructor. lia.
    - exact I.
    - apply in_box1. lia.
    - congruence.
    - intros x Hx Hxb. inversion Hx as [|? ? a ? ? xs A1 A2]; subst. inversion A2; subst. unfold better. apply Z.gtb_lt.
      apply (Hb a (gval (ht d) [it; ip; a]) (gval (ht d) [it; ip; br])); [lia|congruence| |]; (apply ht_val; [auto|split; [auto|lia]]).
    - exact I.
    - apply in_box1. lia.
    - intros X. injection X as X. lia.
    - unfold near. cbn [combine map fst snd]. repeat constructor; lia.
    - rewrite E. cbn [obind map]. eauto. }
  destruct X as (rest & E). exists rest. destruct (parallel_params_lemma d it ip P Hpos Hw Hi) as (rs & Er & _ & _ & Ep). rewrite E in Er.
  destruct rs as [|r rs]; [discriminate|]. cbn [map] in Er, Ep. injection Er as -> _. eexists. split; [auto|]. exact Ep.
Qed.

(** ** findPlanes and the separate searches *)
Lemma rows_exact d m l : (forall x, In x m -> exists it ip, x = [it; ip]) -> rows d m = Ret l ->
  forall x, In x l <-> exists it ip r, In [it; ip] m /\ findParallelPlanes d it ip = Ret r /\ In x r.
Proof.
  revert l. induction m as [|c m IH]; intros l Hm E x; cbn [rows] in E.
  - injection E as <-. split; [intros []|]. intros (it & ip & r & [] & _).
  - destruct (Hm c (or_introl eq_refl)) as (a & b & ->). destruct (rho_maxima d a b) as [rm| | |] eqn:Er; try discriminate. cbn [obind] in E.
    destruct (rows d m) as [ms| | |] eqn:Em; try discriminate. cbn [obind] in E. injection E as <-. rewrite in_app_iff, (IH ms) by (auto; intros y Hy; apply Hm; now right). split.
    + intros [H|(it & ip & r & H1 & H2 & H3)]; [exists a, b, rm; split; [now left|auto]|exists it, ip, r; split; [now right|auto]].
    + intros (it & ip & r & [H1|H1] & H2 & H3); [|right; eauto 6]. injection H1 as <- <-. unfold findParallelPlanes in H2. rewrite Er in H2. injection H2 as <-. now left.
Qed.

Lemma find_union_lemma d sort : preach d -> positive d -> windows_ok d -> sorts_by_votes d sort ->
  exists dirs out, findSpectrumMax d [] = Ret dirs /\ findPlanes sort d [] = Ret out /\ NoDup out /\
    forall x, In x out <-> exists it ip r, In [it; ip] dirs /\ findParallelPlanes d it ip = Ret r /\ In x r.
Proof.
  intros P Hp Hw Hs. pose proof (preach_wf d P) as W. destruct (spectrum_max_lemma d W Hp Hw) as (m & Em & Nm & Hm).
  assert (K : forall x, In x m -> exists it ip, x = [it; ip] /\ dir_in d it ip) by (intros x Hx; destruct (Hm x Hx) as (a & b & -> & Hi & _); eauto).
  destruct (rows_lemma d m W Hp Hw Nm K) as (l & El & Nl & Hl).
  destruct (mapM_ret (grid_get (ht d)) l) as (ys & Ey & _).
  { intros x Hx. destruct (Hl x Hx) as (a & b & c & -> & _ & Hi & Hc). assert (Hcell : cell_in d a b c) by (split; [auto|lia]). rewrite wf_get by auto. eauto. }
  destruct (Hs l) as [Ps _]. exists m, (sort l). split; [auto|]. split; [unfold findPlanes; rewrite Em; cbn [obind]; rewrite El; cbn [obind app]; cbv zeta; rewrite Ey; reflexivity|].
  split; [eapply Permutation_NoDup; [symmetry; exact Ps|auto]|]. intros x.
  rewrite <- (rows_exact d m l) by (auto; intros y Hy; destruct (K y Hy) as (a & b & -> & _); eauto).
  split; intros H; [apply (Permutation_in _ Ps)|apply (Permutation_in _ (Permutation_sym Ps))]; auto.
Qed.

Lemma best_plane_lemma d sort bt bp br : preach d -> positive d -> windows_ok d -> sorts_by_votes d sort -> 0 < rwin d ->
  best_dir d bt bp -> (bt, bp) <> (0, 0) -> dir_neighbour d bt bp -> best_bin d bt bp br -> br <> 0 ->
  exists out params, findPlanes sort d [] = Ret out /\ In [bt; bp; br] out /\
    findPlaneParams sort d = Ret params /\ In (dir_of d bt bp, (- (rmin d + rres d * IZR br))%R) params.
Proof.
  intros P Hp Hw Hs Wr Hb Hne Hn Hbin Hbr. destruct (best_dir_lemma d bt bp P Hp Hw Hb Hne Hn) as (rest & E).
  destruct (best_bin_lemma d bt bp br P Hp Hw Wr (proj1 Hb) Hbin Hbr) as (rr & _ & Er & _).
  destruct (find_union_lemma d sort P Hp Hw Hs) as (dirs & out & E1 & E2 & _ & H). rewrite E in E1. injection E1 as <-.
  destruct (findPlaneParams_lemma d sort P Hp Hw Hs) as (cells & params & E3 & E4 & F). rewrite E2 in E3. injection E3 as <-.
  assert (Hin : In [bt; bp; br] out) by (apply H; exists bt, bp; eexists; split; [now left|]; split; [exact Er|now left]).
  exists out, params. split; [auto|]. split; [auto|]. split; [auto|]. clear - F Hin. induction F as [|x y l l' Hxy F IH]; [contradiction|].
  destruct Hin as [->|Hin]; [left|right; auto]. destruct Hxy as (a & b & c & X & ->). injection X as <- <- <-. reflexivity.
Qed.

(** ** Planes along a direction when votes seldom tie *)
Lemma few_ties_lemma d it ip : preach d -> positive d -> 0 < rwin d -> dir_in d it ip -> few_ties d it ip -> exists rs,
  findParallelPlanes d it ip = Ret (map (fun ir => [it; ip; ir]) rs) /\ NoDup rs /\
  StronglySorted (fun i j => forall u v, getHT d it ip i = Ret u -> getHT d it ip j = Ret v -> v <= u) rs /\
  (forall j, In j rs -> 0 < j < rnum d /\ forall i u v, 0 <= i < rnum d -> Z.abs (i - j) <= rwin d -> getHT d it ip i = Ret u -> getHT d it ip j = Ret v -> u <= v) /\
  (forall j, 0 < j < rnum d ->
     (forall i u v, 0 <= i < rnum d -> Z.abs (i - j) <= rwin d -> i <> j -> getHT d it ip i = Ret u -> getHT d it ip j = Ret v -> u < v) ->
     (forall i, 0 <= i < j - rwin d -> getHT d it ip i <> getHT d it ip j) -> In j rs).
Proof.
  intros P Hpos Wr Hi Hf. pose proof (preach_wf d P) as W. destruct (row_mapM d it ip W Hi) as (ys & Ey).
  pose proof (rnum_bound d W Hpos) as Hn.
  assert (V : forall i, 0 <= i < rnum d -> getHT d it ip i = Ret (gval (ht d) [it; ip; i])) by (intros i H; apply ht_val; [auto|split; auto]).
  destruct (line_rare_lemma Z.gtb (fun ix => gval (ht d) (it :: ip :: ix)) 0 (rnum d) (rwin d) None gtb_sw Hn ltac:(lia) ltac:(lia) Wr) as (rs & E & N & S & H1 & H2).
  { intros i j k Bi Bj Bk N1 N2 N3 [L1 L2] [L3 L4] l Bl Hl. unfold better in Hl. apply Z.gtb_lt in Hl.
    rewrite Z.gtb_ltb, Z.ltb_ge in L1, L2, L3, L4.
    pose proof (Hf i j k (gval (ht d) [it; ip; i]) ltac:(lia) ltac:(lia) ltac:(lia) N1 N2 N3) as X. rewrite !V in X by lia.
    specialize (X eq_refl ltac:(f_equal; lia) ltac:(f_equal; lia) l (gval (ht d) [it; ip; l]) ltac:(lia) (V l ltac:(lia))). lia. }
  exists rs. unfold findParallelPlanes, rho_maxima. rewrite Ey. cbn [obind]. rewrite E. cbn [obind]. rewrite map_map. split; [reflexivity|]. split; [auto|]. split; [|split].
  - eapply StronglySorted_weaken; [|exact S]. intros a b Ha Hb H u v Hu Hv. apply H1 in Ha as (Ra & _). apply H1 in Hb as (Rb & _). rewrite V in Hu, Hv by lia. injection Hu as <-. injection Hv as <-.
    unfold better in H. destruct (Z.gtb_spec (gval (ht d) [it; ip; b]) (gval (ht d) [it; ip; a])); [exfalso; apply H; reflexivity|auto].
  - intros j Hj. apply H1 in Hj as (Rj & _ & Hwm). split; [lia|]. intros i u v Bi Hab Hu Hv. rewrite V in Hu, Hv by lia. injection Hu as <-. injection Hv as <-.
    specialize (Hwm i ltac:(lia) Hab). unfold better in Hwm. destruct (Z.gtb_spec (gval (ht d) [it; ip; i]) (gval (ht d) [it; ip; j])); [exfalso; apply Hwm; reflexivity|auto].
  - intros j Bj Hbest Hbefore. apply H2; [lia|exact I| |].
    + intros i Bi Hab Hne. unfold better. apply Z.gtb_lt. apply (Hbest i); auto; try lia; apply V; lia.
    + intros i Bi [L1 L2]. rewrite Z.gtb_ltb, Z.ltb_ge in L1, L2. apply (Hbefore i ltac:(lia)). rewrite !V by lia. f_equal. lia.
Qed.

(** ** A detector with one vote, in the second bin of the fourth direction *)
Lemma cos_thirds k : 0 <= k < 8 -> k <> 3 -> (-1/2 <= cos (PI / 3 * IZR k))%R.
Proof.
  intros H N. assert (E : k = 0 \/ k = 1 \/ k = 2 \/ k = 4 \/ k = 5 \/ k = 6 \/ k = 7) by lia.
  assert (C3 : cos (PI / 3) = (1 / 2)%R) by exact cos_PI3.
  destruct E as [->|[->|[->|[->|[->|[->| ->]]]]]].
  - rewrite Rmult_0_r, cos_0. lra.
  - rewrite Rmult_1_r, C3. lra.
  - replace (PI / 3 * 2)%R with (- (PI / 3) + PI)%R by field. rewrite neg_cos, cos_neg, C3. lra.
  - replace (PI / 3 * 4)%R with (PI / 3 + PI)%R by field. rewrite neg_cos, C3. lra.
  - replace (PI / 3 * 5)%R with (- (PI / 3) + 2 * INR 1 * PI)%R by (cbn; field). rewrite cos_period, cos_neg, C3. lra.
  - replace (PI / 3 * 6)%R with (0 + 2 * INR 1 * PI)%R by (cbn; field). rewrite cos_period, cos_0. lra.
  - replace (PI / 3 * 7)%R with (PI / 3 + 2 * INR 1 * PI)%R by (cbn; field). rewrite cos_period, C3. lra.
Qed.

Lemma one_vote_lemma : exists d, preach d /\ positive d /\ windows_ok d /\ 0 < rwin d /\ best_dir d 0 3 /\ dir_neighbour d 0 3 /\ best_bin d 0 3 1 /\ few_ties d 0 3.
Proof.
  destruct (wit_detector 8 3 (-5) (PI / 3)) as (d & E & P & E1 & E2 & E3 & E4 & T & S); [lia|lia|].
  set (pts := [(4, 0, 0)%R]).
  assert (Hf : offsets_fit d pts). { apply (wit_fits d (-5) (PI / 3) 4); auto; try lra. intros p [<-|[]]. reflexivity. }
  pose proof E1 as E1'. injection E1' as F1 F2 F3. pose proof E4 as E4'. injection E4' as W1 W2 W3.
  destruct (proj2 (insert_defined_lemma d pts P)) as (d' & Ed). { right. right. split; [lia|auto]. }
  destruct (insert_votes_lemma _ _ _ P Ed) as (S' & B & C). assert (P' : preach d') by (econstructor; eauto).
  pose proof S' as (K1 & _ & _ & K4). rewrite E1 in K1. injection K1 as G1 G2 G3. rewrite E4 in K4. injection K4 as G4 G5 G6.
  assert (V : forall ip ir, cell_in d 0 ip ir -> getHT d' 0 ip ir = Ret (if (ip =? 3) && (ir =? 1) then 1 else 0)).
  { intros ip ir Hc. destruct (B 0 ip ir Hc) as (v & n & Hv & Hn & Hv'). rewrite T in Hv by auto. injection Hv as <-. rewrite Hv'. clear Hv'.
    assert (Ho : offset d 0 ip (4, 0, 0)%R = (cos (PI / 3 * IZR ip) * 4 + 5)%R). { rewrite (wit_offset d (-5) (PI / 3) 0 ip 4 E2 E3), cos_0. ring. }
    destruct Hc as [[_ Hip] Hir]. rewrite F2 in Hip. rewrite F3 in Hir.
    destruct (Z.eqb_spec ip 3) as [->|Hne]; cbn [andb].
    - replace (PI / 3 * 3)%R with PI in Ho by field. rewrite cos_PI in Ho. destruct (Z.eqb_spec ir 1) as [->|Hr].
      + assert (n = 0 + 1) as ->; [|reflexivity]. eapply counts_unique; [exact Hn|]. constructor; [|constructor]. right. split; [lia|]. unfold in_bin. rewrite Ho. lra.
      + assert (n = 0) as ->; [|reflexivity]. eapply counts_unique; [exact Hn|]. constructor; [|constructor]. rewrite Ho. intros [[_ H]|[_ [H1 H2]]]; [lra|].
        apply Hr. assert (Ha : (IZR ir <= 1)%R) by lra. assert (Hb : (0 < IZR ir)%R) by lra. apply le_IZR in Ha. apply (lt_IZR 0) in Hb. lia.
    - assert (n = 0) as ->; [|reflexivity]. eapply counts_unique; [exact Hn|]. constructor; [|constructor].
      pose proof (cos_thirds ip ltac:(lia) Hne) as H8. rewrite Ho. assert (Ho' : (3 <= cos (PI / 3 * IZR ip) * 4 + 5)%R) by lra.
      intros [[_ H]|[Hp [H1 H2]]]; [lra|]. assert (IZR ir <= 2)%R by (apply (IZR_le _ 2); lia). lra. }
  assert (HS : forall it ip, dir_in d it ip -> getHS d' it ip = Ret (if ip =? 3 then 1 else 0)).
  { intros it ip Hi. assert (Hi' := Hi). destruct Hi' as [Hit Hip]. rewrite F1 in Hit. assert (it = 0) as -> by lia.
    destruct (C 0 ip Hi) as (f & Hf' & Ef). rewrite Ef. rewrite F3 in *.
    assert (Hv : forall ir, 0 <= ir < 3 -> f ir = if (ip =? 3) && (ir =? 1) then 1 else 0).
    { intros ir Hir. assert (Hc : cell_in d 0 ip ir) by (split; [auto|lia]). pose proof (V ip ir Hc) as X. rewrite Hf' in X by lia. now injection X. }
    change (Z.to_nat 3) with 3%nat. cbn [sum_upto Z.of_nat Pos.of_succ_nat Pos.succ]. rewrite !Hv by lia.
    destruct (ip =? 3); reflexivity. }
  assert (D' : forall it ip, dir_in d' it ip -> dir_in d it ip) by (intros; apply (dir_same d'); [now apply same_sym|auto]).
  exists d'. split; [auto|]. split; [unfold positive; lia|]. split; [unfold windows_ok; lia|]. split; [lia|]. split; [|split; [|split]].
  - split; [unfold dir_in; lia|]. intros it ip u v Hi Hne Hu Hv. assert (H3 : dir_in d 0 3) by (unfold dir_in; lia). rewrite HS in Hu, Hv by auto.
    injection Hv as <-. apply D' in Hi. destruct Hi as [Hit Hip]. rewrite F1 in Hit. destruct (Z.eqb_spec ip 3) as [->|]; [exfalso; apply Hne; f_equal; lia|]. injection Hu as <-. reflexivity.
  - exists 0, 2. unfold dir_in. rewrite <- G1, <- G2, <- G4, <- G5. split; [lia|]. split; [congruence|]. cbn. lia.
  - split; [lia|]. intros ir u v Hir Hne Hu Hv. rewrite V in Hu, Hv by (unfold cell_in, dir_in; lia). injection Hv as <-. destruct (Z.eqb_spec ir 1); [contradiction|]. injection Hu as <-. reflexivity.
  - intros i j k v Hi Hj Hk N1 N2 N3 Vi Vj Vk l u Hl Hu. rewrite V in Vi, Vj, Hu by (unfold cell_in, dir_in; lia).
    injection Vi as <-. injection Hu as <-. change (3 =? 3) with true in *. cbn [andb] in *.
    destruct (Z.eqb_spec i 1) as [->|]; [|destruct (l =? 1); lia]. exfalso. destruct (Z.eqb_spec j 1); [congruence|discriminate].
Qed.
