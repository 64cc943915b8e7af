(** * Concrete detectors, documented defaults, and the line detector. *)
From Coq Require Import List ZArith Bool Reals Lra Lia Permutation Sorting.Sorted.
From Verif Require Import Base IntervalModel IntervalSpec GridSpec IntervalProofs MinMaxHeapModel PeakModel PeakSpec PeakProofs HoughModel HoughSpec HoughProofs HoughFacts HoughFind.
Import ListNotations.
Open Scope Z_scope.

Lemma sizes_small nt np nr : 0 <= nt <= 8 -> 0 <= np <= 8 -> 0 <= nr <= 8 -> sizes_ok nt np nr.
Proof. intros. assert (nt * np <= 64) by nia. assert (0 <= nt * np) by nia. assert (nt * np * nr <= 512) by nia. repeat split; lia. Qed.

(** One latitude, [np] longitudes [sp] apart, [nr] bins of size one from [r0]. *)
Lemma wit_detector np nr r0 sp : 0 <= np <= 8 -> 0 <= nr <= 8 -> exists d, plane_init plane_new 1 np nr (0, 0, r0)%R (1, sp, 1)%R = Ret d /\ preach d /\
  (tnum d, pnum d, rnum d) = (1, np, nr) /\ (tmin d, pmin d, rmin d) = (0, 0, r0)%R /\ (tres d, pres d, rres d) = (1, sp, 1)%R /\
  (twin d, pwin d, rwin d) = (1, 1, 1) /\
  (forall ip ir, cell_in d 0 ip ir -> getHT d 0 ip ir = Ret 0) /\ (forall it ip, dir_in d it ip -> getHS d it ip = Ret 0).
Proof.
  intros H1 H2. destruct (init_lemma plane_new 1 np nr (0, 0, r0)%R (1, sp, 1)%R preach_new) as (d & E & P & E1 & E2 & E3 & E4 & T & S).
  { apply sizes_small; lia. }
  exists d. repeat split; auto.
Qed.

Lemma wit_offset d r0 sp it ip x : (tmin d, pmin d, rmin d) = (0, 0, r0)%R -> (tres d, pres d, rres d) = (1, sp, 1)%R ->
  offset d it ip (x, 0, 0)%R = (cos (IZR it) * cos (sp * IZR ip) * x - r0)%R.
Proof.
  intros E2 E3. injection E2 as Ea Eb Ec. injection E3 as Ed Ee Ef. unfold offset, dir_of, direction. rewrite Ea, Eb, Ec, Ed, Ee, Ef.
  rewrite !Rplus_0_l, Rmult_1_l. field.
Qed.
Lemma coscos a b : (-1 <= cos a * cos b <= 1)%R.
Proof. pose proof (COS_bound a). pose proof (COS_bound b). split; nra. Qed.

Lemma wit_fits d r0 sp x pts : (tmin d, pmin d, rmin d) = (0, 0, r0)%R -> (tres d, pres d, rres d) = (1, sp, 1)%R ->
  (-1000 < x < 1000)%R -> (-1000 < r0 < 1000)%R -> (forall p, In p pts -> p = (x, 0, 0)%R) -> offsets_fit d pts.
Proof.
  intros E2 E3 Hx Hr Hp it ip p Hi Hin. rewrite (Hp p Hin). rewrite (wit_offset d r0 sp it ip x E2 E3).
  injection E3 as _ _ ->. split; [lra|]. pose proof (coscos (IZR it) (sp * IZR ip)). set (c := (cos _ * cos _)%R) in *. clearbody c. split; nra.
Qed.

(** ** C57, accumulation, half a bin *)
Lemma misvote_lemma : exists d p d', preach d /\ (0 < rres d)%R /\ plane_insert d [p] = Ret d' /\ cell_in d 0 0 0 /\
  getHT d 0 0 0 = Ret 0 /\ getHT d' 0 0 0 = Ret 1 /\ ~ in_bin (offset d 0 0 p) 0 /\
  exists n c, getPlaneParam_ix d 0 0 0 = Ret (n, c) /\ (rres d / 2 < Rabs (dot3 n p + c))%R.
Proof.
  destruct (wit_detector 8 1 0 1) as (d & E & P & E1 & E2 & E3 & E4 & T & S); [lia|lia|].
  assert (Hf : offsets_fit d [(-3 / 4, 0, 0)%R]). { apply (wit_fits d 0 1 (-3 / 4)); auto; try lra. intros p [<-|[]]. reflexivity. }
  pose proof E1 as E1'. injection E1' as F1 F2 F3.
  destruct (proj2 (insert_defined_lemma d [(-3 / 4, 0, 0)%R] P)) as (d' & Ed). { right. right. split; [lia|auto]. }
  assert (Hc : cell_in d 0 0 0) by (unfold cell_in, dir_in; lia).
  assert (Ho : offset d 0 0 (-3 / 4, 0, 0)%R = (-3 / 4)%R).
  { rewrite (wit_offset d 0 1 0 0 (-3 / 4) E2 E3). rewrite Rmult_0_r, cos_0. lra. }
  exists d, (-3 / 4, 0, 0)%R, d'. split; [auto|]. split; [injection E3 as _ _ ->; lra|]. split; [auto|]. split; [auto|]. split; [auto|]. split; [|split].
  - destruct (insert_votes_lemma _ _ _ P Ed) as (_ & B & _). destruct (B 0 0 0 Hc) as (v & n & Hv & Hn & Hv'). rewrite T in Hv by auto. injection Hv as <-.
    assert (n = 0 + 1); [|subst n; rewrite Hv'; reflexivity]. eapply counts_unique; [exact Hn|]. constructor; [|constructor].
    left. split; [auto|]. rewrite Ho. lra.
  - rewrite Ho. unfold in_bin. lra.
  - destruct (params_agree_lemma d 0 0 0 P Hc) as (n & c & _ & Ep & _ & Ec & _). exists n, c. split; [auto|].
    assert (En : n = dir_of d 0 0).
    { destruct (normals_lemma d 0 0 P (proj1 Hc)) as [En _]. unfold getPlaneParam_ix in Ep. rewrite cell_b in Ep by auto. rewrite En in Ep. cbn [obind] in Ep.
      pose proof (f_equal (fun o => match o with Ret (a, _) => a | _ => n end) Ep) as X. cbn in X. now rewrite <- X. }
    pose proof (offset_dot d 0 0 (-3 / 4, 0, 0)%R) as Od. rewrite Ho in Od. injection E3 as _ _ R1. injection E2 as _ _ R2. rewrite <- En, R1, R2 in Od.
    assert (Hd : dot3 n (-3 / 4, 0, 0)%R = (-3 / 4)%R) by lra. rewrite Hd, Ec, R1, R2.
    replace (-3 / 4 + - (0 + 1 * 0))%R with (- (3 / 4))%R by field. rewrite Rabs_Ropp, Rabs_pos_eq; lra.
Qed.

Lemma accumulate_lemma : exists d pts d1 d2, preach d /\ plane_insert d pts = Ret d1 /\ plane_insert_range d (fun p => p) pts = Ret d2 /\
  cell_in d 0 0 0 /\ getHT d1 0 0 0 = Ret 2 /\ getHT d2 0 0 0 = Ret 1.
Proof.
  destruct (wit_detector 8 1 0 1) as (d & E & P & E1 & E2 & E3 & E4 & T & S); [lia|lia|].
  set (pts := [(1 / 4, 0, 0)%R]).
  assert (Hfit : forall x, same_config d x -> offsets_fit x pts).
  { intros x (_ & K2 & K3 & _). apply (wit_fits x 0 1 (1 / 4)); try congruence; try lra. intros p [<-|[]]. reflexivity. }
  pose proof E1 as E1'. injection E1' as F1 F2 F3.
  assert (Hdef : forall x, preach x -> same_config d x -> exists x', plane_insert x pts = Ret x').
  { intros x Hx Hs. apply (insert_defined_lemma x pts Hx). right. right. split; [destruct Hs as (K & _); rewrite E1 in K; injection K; intros; lia|apply Hfit; auto]. }
  assert (Hc : cell_in d 0 0 0) by (unfold cell_in, dir_in; lia).
  assert (Hcnt : counts (fun p => code_bin (offset d 0 0 p) 0) pts (0 + 1)).
  { constructor; [|constructor]. left. split; [auto|]. rewrite (wit_offset d 0 1 0 0 (1 / 4) E2 E3). rewrite Rmult_0_r, cos_0. lra. }
  destruct (Hdef d P) as (d1 & Ed1); [repeat split|].
  destruct (insert_votes_lemma _ _ _ P Ed1) as (S1 & B1 & _). assert (P1 : preach d1) by (econstructor; eauto).
  destruct (Hdef d1 P1 S1) as (d2 & Ed2). destruct (insert_votes_lemma _ _ _ P1 Ed2) as (S2 & B2 & _).
  destruct (zero_lemma d1 P1) as (S0 & P0 & _).
  destruct (Hdef (plane_setZero d1) P0) as (d3 & Ed3); [apply same_trans with d1; auto|].
  destruct (insert_range_lemma d1 (fun p : vec3 => p) pts d3 P1) as (S3 & B3 & _). { unfold plane_insert_range. now rewrite map_id. }
  assert (H1 : getHT d1 0 0 0 = Ret 1).
  { destruct (B1 0 0 0 Hc) as (v & n & Hv & Hn & Hv'). rewrite T in Hv by auto. injection Hv as <-. rewrite (counts_unique _ _ _ _ Hn Hcnt) in Hv'. exact Hv'. }
  assert (Hc1 : cell_in d1 0 0 0) by (exact (cell_same d d1 0 0 0 S1 Hc)).
  assert (Hcnt1 : counts (fun p => code_bin (offset d1 0 0 p) 0) pts (0 + 1)).
  { constructor; [|constructor]. rewrite <- (offset_same d d1 _ _ _ S1). left. split; [auto|]. rewrite (wit_offset d 0 1 0 0 (1 / 4) E2 E3), Rmult_0_r, cos_0. lra. }
  exists d1, pts, d2, d3. split; [auto|]. split; [auto|]. split; [unfold plane_insert_range; now rewrite map_id|]. split; [auto|]. split.
  - destruct (B2 0 0 0 Hc1) as (v & n & Hv & Hn & Hv'). rewrite H1 in Hv. injection Hv as <-. rewrite (counts_unique _ _ _ _ Hn Hcnt1) in Hv'. exact Hv'.
  - destruct (B3 0 0 0 Hc1) as (n & Hn & Hv'). rewrite (counts_unique _ _ _ _ Hn Hcnt1) in Hv'. exact Hv'.
Qed.

(** ** insert with fewer than eight longitudes *)
Lemma insert_few_lemma d pts : preach d -> 0 < tnum d -> 0 < pnum d < 8 -> plane_insert d pts = UB.
Proof.
  intros _ Ht Hp. unfold plane_insert, vote_all. cbv zeta. rewrite Z.quot_small by lia.
  unfold for_loop, zrange. destruct (Z.to_nat (tnum d)) as [|a] eqn:Ea; [lia|]. destruct (Z.to_nat (pnum d)) as [|b] eqn:Eb; [lia|]. reflexivity.
Qed.

(** ** The best direction is missed when it is the first one *)
Lemma cos_pi8 : (cos (PI / 8) <= 95 / 100)%R.
Proof.
  pose proof PI_RGT_0 as HP. assert (H0 : (0 <= cos (PI / 8))%R) by (apply cos_ge_0; lra).
  assert (H2 : (cos (2 * (PI / 8)) = 2 * (cos (PI / 8) * cos (PI / 8)) - 1)%R) by (rewrite cos_2a_cos; ring).
  replace (2 * (PI / 8))%R with (PI / 4)%R in H2 by field. rewrite cos_PI4 in H2.
  assert (Hs : (1 / sqrt 2 <= 8 / 10)%R).
  { assert (Hq : (125 / 100 <= sqrt 2)%R). { rewrite <- (sqrt_square (125 / 100)) by lra. apply sqrt_le_1_alt. lra. }
    apply Rmult_le_reg_r with (sqrt 2); [lra|]. unfold Rdiv at 1. rewrite Rmult_assoc, Rinv_l by lra. lra. }
  nra.
Qed.

Lemma first_missed_lemma : exists d, preach d /\ positive d /\ windows_ok d /\ dir_in d 0 0 /\ getHS d 0 0 = Ret 1 /\
  (forall it ip, dir_in d it ip -> (it, ip) <> (0, 0) -> getHS d it ip = Ret 0) /\
  forall sort, sorts_by_votes d sort -> findPlanes sort d [] = Ret [].
Proof.
  destruct (wit_detector 8 4 98 (PI / 8)) as (d & E & P & E1 & E2 & E3 & E4 & T & S); [lia|lia|].
  set (pts := [(100, 0, 0)%R]).
  assert (Hf : offsets_fit d pts). { apply (wit_fits d 98 (PI / 8) 100); auto; try lra. intros p [<-|[]]. reflexivity. }
  pose proof E1 as E1'. injection E1' as F1 F2 F3. pose proof E4 as E4'. injection E4' as W1 W2 W3.
  destruct (proj2 (insert_defined_lemma d pts P)) as (d' & Ed). { right. right. split; [lia|auto]. }
  destruct (insert_votes_lemma _ _ _ P Ed) as (S' & B & C). assert (P' : preach d') by (econstructor; eauto).
  pose proof S' as (K1 & _ & _ & K4). rewrite E1 in K1. injection K1 as G1 G2 G3. rewrite E4 in K4. injection K4 as G4 G5 G6.
  assert (V : forall ip ir, cell_in d 0 ip ir -> getHT d' 0 ip ir = Ret (if (ip =? 0) && (ir =? 2) then 1 else 0)).
  { intros ip ir Hc. destruct (B 0 ip ir Hc) as (v & n & Hv & Hn & Hv'). rewrite T in Hv by auto. injection Hv as <-. rewrite Hv'. clear Hv'.
    assert (Ho : offset d 0 ip (100, 0, 0)%R = (cos (PI / 8 * IZR ip) * 100 - 98)%R). { rewrite (wit_offset d 98 (PI / 8) 0 ip 100 E2 E3), cos_0. ring. }
    destruct Hc as [[_ Hip] Hir]. rewrite F2 in Hip. rewrite F3 in Hir.
    destruct (Z.eqb_spec ip 0) as [->|Hne]; cbn [andb].
    - rewrite Rmult_0_r, cos_0 in Ho. destruct (Z.eqb_spec ir 2) as [->|Hr].
      + assert (n = 0 + 1) as ->; [|reflexivity]. eapply counts_unique; [exact Hn|]. constructor; [|constructor]. right. split; [lia|]. unfold in_bin. rewrite Ho. lra.
      + assert (n = 0) as ->; [|reflexivity]. eapply counts_unique; [exact Hn|]. constructor; [|constructor]. rewrite Ho. intros [[_ H]|[_ [H1 H2]]]; [lra|].
        apply Hr. assert (Ha : (IZR ir <= 2)%R) by lra. assert (Hb : (1 < IZR ir)%R) by lra. apply le_IZR in Ha. apply (lt_IZR 1) in Hb. lia.
    - assert (n = 0) as ->; [|reflexivity]. eapply counts_unique; [exact Hn|]. constructor; [|constructor].
      assert (Hcos : (cos (PI / 8 * IZR ip) <= cos (PI / 8))%R).
      { pose proof PI_RGT_0 as HP. assert (Ha : (1 <= IZR ip)%R) by (apply (IZR_le 1); lia). assert (Hb : (IZR ip <= 7)%R) by (apply (IZR_le _ 7); lia).
        apply cos_decr_1; nra. }
      pose proof cos_pi8 as H8. rewrite Ho. assert (Ho' : (cos (PI / 8 * IZR ip) * 100 - 98 <= -3)%R) by lra.
      intros [[_ H]|[Hp [H1 H2]]]; [lra|]. assert (0 < IZR ir)%R by (apply (IZR_lt 0); lia). lra. }
  assert (HS : forall it ip, dir_in d it ip -> getHS d' it ip = Ret (if ip =? 0 then 1 else 0)).
  { intros it ip Hi. assert (Hi' := Hi). destruct Hi' as [Hit Hip]. rewrite F1 in Hit. assert (it = 0) as -> by lia.
    destruct (C 0 ip Hi) as (f & Hf' & Ef). rewrite Ef. rewrite F3 in *. cbn [Z.to_nat Pos.to_nat Pos.iter_op sum_upto]. 
    assert (Hv : forall ir, 0 <= ir < 4 -> f ir = if (ip =? 0) && (ir =? 2) then 1 else 0).
    { intros ir Hir. assert (Hc : cell_in d 0 ip ir) by (split; [auto|lia]). pose proof (V ip ir Hc) as X. rewrite Hf' in X by lia. now injection X. }
    change (Pos.to_nat 4) with 4%nat. cbn [sum_upto Z.of_nat Pos.of_succ_nat Pos.succ]. rewrite !Hv by lia.
    destruct (ip =? 0); reflexivity. }
  assert (Pos : positive d') by (unfold positive; lia). assert (Win : windows_ok d') by (unfold windows_ok; lia).
  assert (H00 : dir_in d 0 0) by (unfold dir_in; lia).
  exists d'. split; [auto|]. split; [auto|]. split; [auto|]. split; [eapply dir_same; eauto|]. split; [apply (HS 0 0 H00)|]. split.
  - intros it ip Hi Hne. assert (Hd : dir_in d it ip) by (apply (dir_same d'); [now apply same_sym|auto]). rewrite HS by auto.
    destruct Hd as [Hit _]. rewrite F1 in Hit. destruct (Z.eqb_spec ip 0) as [->|]; [|reflexivity]. exfalso. apply Hne. f_equal. lia.
  - intros sort Hs. pose proof (preach_wf d' P') as W'. unfold findPlanes.
    destruct (spectrum_max_lemma d' W' Pos Win) as (m & Em & Nm & Hm). rewrite Em. cbn [obind].
    assert (m = []) as ->.
    { destruct m as [|x r]; [reflexivity|]. exfalso. destruct (Hm x (or_introl eq_refl)) as (it & ip & -> & Hi & Hne & y & Hy).
      assert (Hd : dir_in d it ip) by (apply (dir_same d'); [now apply same_sym|auto]).
      pose proof (HS it ip Hd) as X. rewrite getHS_in in X by auto. rewrite (grid_get_val _ _ _ X) in Hy.
      assert (Hz : ip <> 0). { intros ->. apply Hne. destruct Hd as [Hit _]. rewrite F1 in Hit. f_equal. lia. }
      apply Z.eqb_neq in Hz. rewrite Hz in Hy.
      assert (0 <= gval (hs d') y) by (apply gval_nonneg; apply (wf_hs0 _ W')).
      lia. }
    cbn [rows obind app mapM]. f_equal. destruct (Hs []) as [Pm _]. apply Permutation_sym, Permutation_nil in Pm. exact Pm.
Qed.

(** ** Documented defaults *)
Lemma defaults_lemma d nt np nr sr d' : preach d -> sizes_ok nt np nr -> plane_init_default d nt np nr sr = Ret d' ->
  (tmin d', pmin d', rmin d') = (0, 0, - IZR (nr / 2) * sr)%R /\ (tres d', pres d', rres d') = (PI / 2 / IZR nt, 2 * PI / IZR np, sr)%R.
Proof.
  intros Hd Hs E. unfold plane_init_default in E.
  destruct (init_lemma d nt np nr (0, 0, IZR (- (nr ÷ 2)) * sr)%R (5 / 10 * PI / IZR nt, 2 * PI / IZR np, sr)%R Hd Hs) as (d1 & E1 & _ & _ & E2 & E3 & _). rewrite E1 in E. injection E as <-. rewrite E2, E3. split.
  - rewrite Z.quot_div_nonneg by (destruct Hs as (_ & _ & H & _); lia). now rewrite opp_IZR.
  - replace (5 / 10 * PI)%R with (PI / 2)%R by field. reflexivity.
Qed.

Lemma defaults_differ_lemma d nt np nr sr d' : preach d -> sizes_ok nt np nr -> 0 < nt -> plane_init_default d nt np nr sr = Ret d' ->
  tmin d' <> (- PI / 2)%R /\ tres d' <> (PI / IZR nt)%R /\ (2 <= nr -> sr <> 0%R -> rmin d' <> 0%R).
Proof.
  intros Hd Hs Hn E. destruct (defaults_lemma _ _ _ _ _ _ Hd Hs E) as [E2 E3]. injection E2 as -> _ ->. injection E3 as -> _ _.
  pose proof PI_RGT_0 as HP. assert (Hnr : (0 < IZR nt)%R) by (apply (IZR_lt 0); lia). split; [lra|]. split.
  - assert (0 < PI / IZR nt)%R by (apply Rdiv_lt_0_compat; auto). replace (PI / 2 / IZR nt)%R with (PI / IZR nt / 2)%R by (field; lra). lra.
  - intros H2 Hz. assert (Hd2 : (0 < IZR (nr / 2))%R) by (apply (IZR_lt 0); apply Z.div_str_pos; lia).
    intros X. apply Rmult_integral in X. destruct X as [X|X]; lra.
Qed.

Lemma default_defined d nt np nr sr : preach d -> sizes_ok nt np nr -> exists d', plane_init_default d nt np nr sr = Ret d' /\ preach d' /\ (tnum d', pnum d', rnum d') = (nt, np, nr).
Proof.
  intros Hd Hs. unfold plane_init_default. destruct (init_lemma d nt np nr (0, 0, IZR (- (nr ÷ 2)) * sr)%R (5 / 10 * PI / IZR nt, 2 * PI / IZR np, sr)%R Hd Hs) as (d' & E & P & E1 & _). eauto.
Qed.

(** ** C56: the two overloads disagree on every cell of every default detector with at least two bins *)
Lemma params_differ_lemma d nt np nr sr d' it ip ir : preach d -> sizes_ok nt np nr -> 0 < nt -> 2 <= nr -> sr <> 0%R ->
  plane_init_default d nt np nr sr = Ret d' -> cell_in d' it ip ir ->
  exists a b, getPlaneParam_ix d' it ip ir = Ret a /\ getPlaneParam_int d' it ip ir = Ret b /\ a <> b.
Proof.
  intros Hd Hs Hn H2 Hz E Hc. destruct (defaults_differ_lemma _ _ _ _ _ _ Hd Hs Hn E) as (_ & _ & Hr). specialize (Hr H2 Hz).
  assert (P' : preach d') by (eapply preach_init; [exact Hd|exact Hs|exact E]).
  destruct (params_agree_lemma d' it ip ir P' Hc) as (n & c & c' & E1 & E2 & _ & Hiff). exists (n, c), (n, c'). split; [auto|]. split; [auto|].
  intros X. apply (f_equal snd) in X. cbn in X. apply Hr. now apply Hiff.
Qed.

(** ** Windows *)
Lemma ceil_bounds x : (IZR (ceilR x) - 1 < x <= IZR (ceilR x))%R.
Proof. unfold ceilR. destruct (base_Int_part (- x)) as [H1 H2]. rewrite opp_IZR. lra. Qed.
Lemma trunc_IZR z : truncR (IZR z) = z.
Proof.
  unfold truncR. destruct (Rle_dec 0 (IZR z)) as [H|H].
  - apply Int_part_iff. lra.
  - assert (E : Int_part (- IZR z) = - z) by (apply Int_part_iff; rewrite opp_IZR; lra). lia.
Qed.
Lemma cast_ceil_lemma a b : (0 < b)%R -> (-2147483649 < a / b <= 2147483647)%R -> exists z, cast_ceil_quot a b = Ret z /\ ((IZR z - 1) * b < a <= IZR z * b)%R.
Proof.
  intros Hb Hq. exists (ceilR (a / b)). pose proof (ceil_bounds (a / b)) as [H1 H2]. split.
  - unfold cast_ceil_quot. destruct (Req_EM_T b 0); [lra|]. rewrite cast_fits; [now rewrite trunc_IZR|].
    assert (K : ceilR (a / b) < 2147483648).
    { apply lt_IZR. assert (K' : (IZR (ceilR (a / b)) < 2147483647 + 1)%R) by lra. lra. }
    split; [lra|]. apply IZR_lt in K. exact K.
  - assert (E : (a = a / b * b)%R) by (field; lra). set (q := (a / b)%R) in *. clearbody q. subst a. split; nra.
Qed.

Lemma window_lemma d wt wp wr : preach d -> (0 < tres d)%R -> (0 < pres d)%R -> (0 < rres d)%R ->
  (0 <= wt <= 2147483647 * tres d)%R -> (0 <= wp <= 2147483647 * pres d)%R -> (0 <= wr <= 2147483647 * rres d)%R ->
  exists d', plane_setWindowR d wt wp wr = Ret d' /\ preach d' /\ windows_ok d' /\
    ((IZR (twin d') - 1) * tres d < wt <= IZR (twin d') * tres d)%R /\
    ((IZR (pwin d') - 1) * pres d < wp <= IZR (pwin d') * pres d)%R /\
    ((IZR (rwin d') - 1) * rres d < wr <= IZR (rwin d') * rres d)%R.
Proof.
  intros Hd H1 H2 H3 Ht Hp Hr.
  assert (Q : forall w r, (0 < r)%R -> (0 <= w <= 2147483647 * r)%R -> (-2147483649 < w / r <= 2147483647)%R).
  { intros w r Hr' Hw. assert (E : (w = w / r * r)%R) by (field; lra). set (q := (w / r)%R) in *. clearbody q. subst w. split; nra. }
  destruct (cast_ceil_lemma wt (tres d) H1 (Q _ _ H1 Ht)) as (a & Ea & Ba). destruct (cast_ceil_lemma wp (pres d) H2 (Q _ _ H2 Hp)) as (b & Eb & Bb).
  destruct (cast_ceil_lemma wr (rres d) H3 (Q _ _ H3 Hr)) as (c & Ec & Bc).
  unfold plane_setWindowR. rewrite Ea. cbn [obind]. rewrite Eb. cbn [obind]. rewrite Ec. cbn [obind]. eexists. split; [reflexivity|]. split; [now constructor|].
  cbn [twin pwin rwin plane_setWindow]. split; [|auto].
  assert (N : forall z w r, (0 < r)%R -> (0 <= w)%R -> (w <= IZR z * r)%R -> 0 <= z).
  { intros z w r Hr' Hw Hz. destruct (Z_lt_ge_dec z 0) as [Hlt|]; [|lia]. assert (IZR z <= -1)%R by (apply (IZR_le z (-1)); lia). nra. }
  unfold windows_ok. cbn [twin pwin rwin plane_setWindow]. split; [|split]; eapply N; try apply Ba; try apply Bb; try apply Bc; auto; lra.
Qed.

(** ** Out-of-range directions *)
Lemma parallel_out_lemma : exists d it ip, preach d /\ positive d /\ ~ dir_in d it ip /\ findParallelPlanes d it ip = UB.
Proof.
  destruct (wit_detector 8 1 0 1) as (d & E & P & E1 & _); [lia|lia|]. injection E1 as F1 F2 F3.
  exists d, 0, (-1). split; [auto|]. split; [unfold positive; lia|]. split; [unfold dir_in; lia|].
  unfold findParallelPlanes, rho_maxima. rewrite F3. change (zrange 1) with [0]. cbn [mapM]. unfold grid_get, grid_pos.
  rewrite (wf_htd _ (preach_wf _ P)). cbn [imin idim]. rewrite F1, F2, F3. reflexivity.
Qed.
Lemma parallel_in_lemma d it ip : preach d -> positive d -> windows_ok d -> dir_in d it ip -> exists m, findParallelPlanes d it ip = Ret m /\ NoDup m /\
  forall x, In x m -> exists ir, x = [it; ip; ir] /\ 0 < ir < rnum d.
Proof. intros Hd. apply rho_maxima_lemma. now apply preach_wf. Qed.

Lemma find_new_lemma sort : findPlanes sort plane_new [] = Exit.
Proof. reflexivity. Qed.

(** ** The line detector *)
Definition zeros (d : line) : Prop :=
  Forall (fun v => v = 0) (gdata (lht d)) /\ Forall (fun v => v = 0) (lhs d) /\ length (lhs d) = Z.to_nat (ltnum d) /\
  greach 0 (lht d) /\ gdom (lht d) = mkI [0; 0] [ltnum d; lrnum d] /\ 0 <= ltnum d < 2 ^ 31 /\ 0 <= lrnum d /\ ltnum d * lrnum d < 2 ^ 31.
Lemma repeat_zeros n : Forall (fun v => v = 0) (repeat 0 n).
Proof. apply Forall_forall. intros x Hx. now apply repeat_spec in Hx. Qed.

Lemma lreach_zeros d : lreach d -> zeros d.
Proof.
  induction 1 as [|d nt nr mn res Hd IH H1 H2 H3|d a b Hd IH|d Hd IH|d pts Hd IH].
  - unfold zeros. cbn. repeat split; try lia; try constructor.
  - destruct mn as [mt mr]. destruct res as [st sr]. destruct IH as (_ & _ & _ & G & _). unfold zeros. cbn [line_init lht lhs ltnum lrnum gdata grid_fill gdom].
    split; [apply repeat_zeros|]. split; [apply repeat_zeros|]. split; [apply repeat_length|]. split; [constructor; constructor; auto; apply dom_ok2; lia|].
    split; [reflexivity|]. split; [lia|]. split; lia.
  - exact IH.
  - destruct IH as (Z1 & Z2 & Z3 & Z4 & Z5 & Z6). unfold zeros. cbn [line_setZero lht lhs ltnum lrnum gdata grid_fill gdom].
    split; [apply repeat_zeros|]. split. { apply Forall_forall. intros x Hx. apply in_map_iff in Hx. destruct Hx as (y & <- & _). reflexivity. }
    rewrite map_length. split; [auto|]. split; [now constructor|]. auto.
  - exact IH.
Qed.

Lemma line_counters_lemma d it ir : lreach d -> (0 <= it < ltnum d -> line_getHS d it = Ret 0) /\
  (0 <= it < ltnum d -> 0 <= ir < lrnum d -> line_getHT d it ir = Ret 0).
Proof.
  intros Hd. destruct (lreach_zeros d Hd) as (Z1 & Z2 & Z3 & Z4 & Z5 & _). split.
  - intros Hi. unfold line_getHS. apply inr_true in Hi as Hb. rewrite Hb. unfold vread. destruct (nth_error (lhs d) (Z.to_nat it)) eqn:E.
    + apply nth_error_In in E. rewrite Forall_forall in Z2. now rewrite (Z2 _ E).
    + apply nth_error_None in E. lia.
  - intros Hi Hr. unfold line_getHT. apply inr_true in Hi as Hb. apply inr_true in Hr as Hb2. rewrite Hb, Hb2. cbn [andb].
    destruct (cell_get 0 (lht d) [it; ir] Z4) as (v & E). { unfold gcell. rewrite Z5. now apply in_box2. }
    rewrite E. unfold grid_get in E. destruct (zidx _) as [k|]; [|discriminate]. unfold vread in E. destruct (nth_error (gdata (lht d)) k) eqn:En; [|discriminate].
    injection E as <-. apply nth_error_In in En. rewrite Forall_forall in Z1. now rewrite (Z1 _ En).
Qed.

Lemma no_lines_lemma d out : lreach d -> 0 < ltnum d -> 0 <= ltwin d -> findLines d out = Ret out.
Proof.
  intros Hd Ht Hw. destruct (lreach_zeros d Hd) as (Z1 & Z2 & Z3 & Z4 & Z5 & Z6 & _). unfold findLines, line_spectrumMax.
  destruct (detect_safe_lemma Z.gtb (lhs_val d) (mkI [0] [ltnum d]) [ltwin d] None) as (m & E & _).
  { apply box1. lia. } { reflexivity. } { repeat constructor; auto. }
  rewrite E. cbn [obind app].
  assert (V : forall x, lhs_val d x = 0).
  { intros [|i [|j x]]; cbn; auto. destruct (nth_in_or_default (Z.to_nat i) (lhs d) 0) as [Hin| ->]; auto. rewrite Forall_forall in Z2. auto. }
  assert (m = []) as ->.
  { destruct m as [|x r]; [reflexivity|]. destruct (detect_beats _ _ _ _ _ _ E x (or_introl eq_refl)) as (y & Ey). rewrite !V in Ey. discriminate. }
  cbn [line_rows obind]. now rewrite app_nil_r.
Qed.
