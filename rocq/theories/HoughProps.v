(** * Property theorems for the Hough detectors (C56-C57, C121-C138, C152-C157). *)
From Coq Require Import List ZArith Reals Lra Lia Permutation Sorting.Sorted.
From Verif Require Import Base IntervalModel HoughModel HoughSpec HoughFacts HoughFind HoughWitness HoughBest.
Import ListNotations.
Open Scope Z_scope.

(** C56: false; on a detector initialised with the default ranges and at least two bins the overloads disagree on every cell. *)
Theorem C56_params_differ : forall d nt np nr sr d' it ip ir, preach d -> sizes_ok nt np nr -> 0 < nt -> 2 <= nr -> sr <> 0%R ->
  plane_init_default d nt np nr sr = Ret d' -> cell_in d' it ip ir ->
  exists a b, getPlaneParam_ix d' it ip ir = Ret a /\ getPlaneParam_int d' it ip ir = Ret b /\ a <> b.
Proof. exact params_differ_lemma. Qed.
Print Assumptions C56_params_differ.
Theorem C56_params_refuted : exists d it ip ir a b, preach d /\ cell_in d it ip ir /\
  getPlaneParam_ix d it ip ir = Ret a /\ getPlaneParam_int d it ip ir = Ret b /\ a <> b.
Proof.
  destruct (default_defined plane_new 4 8 6 (1 / 2) preach_new) as (d & E & P & En); [apply sizes_small; lia|].
  assert (Hc : cell_in d 3 7 5) by (injection En as E1 E2 E3; unfold cell_in, dir_in; lia).
  destruct (params_differ_lemma plane_new 4 8 6 (1 / 2)%R d 3 7 5 preach_new) as (a & b & Ha & Hb & Hab); auto; try lia; try lra.
  { apply sizes_small; lia. }
  exists d, 3, 7, 5, a, b. auto.
Qed.
Print Assumptions C56_params_refuted.
(** Exactly: same normal always, same constant term when rhoMin is zero and only then (missing: rhoMin other than zero). *)
Theorem C56_params_partial : forall d it ip ir, preach d -> cell_in d it ip ir ->
  exists n c c', getPlaneParam_ix d it ip ir = Ret (n, c) /\ getPlaneParam_int d it ip ir = Ret (n, c') /\
    c = (- (rmin d + rres d * IZR ir))%R /\ (c = c' <-> rmin d = 0%R).
Proof. exact params_agree_lemma. Qed.
Print Assumptions C56_params_partial.
Example C56_case : exists d, plane_init_default plane_new 4 8 6 (1 / 2) = Ret d /\ preach d /\ cell_in d 3 7 5.
Proof.
  destruct (default_defined plane_new 4 8 6 (1 / 2) preach_new) as (d & E & P & En); [apply sizes_small; lia|].
  exists d. split; [auto|]. split; [auto|]. injection En as E1 E2 E3. unfold cell_in, dir_in. lia.
Qed.

(** C57: false; the first bin takes the points of the bin below it. *)
Theorem C57_votes_refuted : exists d p d', preach d /\ (0 < rres d)%R /\ plane_insert d [p] = Ret d' /\ cell_in d 0 0 0 /\
  getHT d 0 0 0 = Ret 0 /\ getHT d' 0 0 0 = Ret 1 /\ ~ in_bin (offset d 0 0 p) 0.
Proof. destruct misvote_lemma as (d & p & d' & H1 & H2 & H3 & H4 & H5 & H6 & H7 & _). exists d, p, d'. auto 10. Qed.
Print Assumptions C57_votes_refuted.
(** What holds: the votes of the other bins (missing: the first bin). *)
Theorem C57_votes_partial : forall d pts d' it ip ir, preach d -> plane_insert d pts = Ret d' -> cell_in d it ip ir -> 0 < ir ->
  exists v n, getHT d it ip ir = Ret v /\ counts (fun p => in_bin (offset d it ip p) ir) pts n /\ getHT d' it ip ir = Ret ((v + n) mod 2 ^ 64).
Proof.
  intros d pts d' it ip ir Hd E Hc Hp. destruct (insert_votes_lemma d pts d' Hd E) as (_ & B & _). destruct (B it ip ir Hc) as (v & n & Hv & Hn & Hv').
  exists v, n. split; [auto|]. split; [|auto]. clear - Hn Hp. induction Hn as [|a l n Ha Hn IH|a l n Ha Hn IH]; constructor; auto.
  - destruct Ha as [[H _]|[_ H]]; [lia|auto].
  - intros H. apply Ha. right. auto.
Qed.
Print Assumptions C57_votes_partial.

(** C121 *)
Theorem C121_votes : forall d pts d', preach d -> plane_insert d pts = Ret d' -> same_config d d' /\
  (forall it ip ir, cell_in d it ip ir -> exists v n, getHT d it ip ir = Ret v /\
     counts (fun p => code_bin (offset d it ip p) ir) pts n /\ getHT d' it ip ir = Ret ((v + n) mod 2 ^ 64)) /\
  (forall it ip, dir_in d it ip -> exists f, (forall ir, 0 <= ir < rnum d -> getHT d' it ip ir = Ret (f ir)) /\
     getHS d' it ip = Ret (sum_upto (Z.to_nat (rnum d)) (fun ir => f ir * f ir) mod 2 ^ 64)).
Proof. exact insert_votes_lemma. Qed.
Print Assumptions C121_votes.
Example C121_case : exists d p d', preach d /\ plane_insert d [p] = Ret d' /\ cell_in d 0 0 0 /\ getHT d' 0 0 0 = Ret 1.
Proof. destruct misvote_lemma as (d & p & d' & H1 & H2 & H3 & H4 & H5 & H6 & H7 & _). exists d, p, d'. auto 10. Qed.

(** C122 *)
Theorem C122_insert_defined : forall d pts, preach d ->
  ((exists d', plane_insert d pts = Ret d') <-> tnum d = 0 \/ pnum d = 0 \/ (8 <= pnum d /\ offsets_fit d pts)).
Proof. exact insert_defined_lemma. Qed.
Print Assumptions C122_insert_defined.
Example C122_case : exists d, preach d /\ 8 <= pnum d /\ offsets_fit d [(1 / 4, 0, 0)%R].
Proof.
  destruct (wit_detector 8 1 0 1) as (d & E & P & E1 & E2 & E3 & _); [lia|lia|]. exists d. split; [auto|]. split; [injection E1; lia|].
  apply (wit_fits d 0 1 (1 / 4)); auto; try lra. intros p [<-|[]]. reflexivity.
Qed.

(** C123: false, for every detector with one to seven longitudes. *)
Theorem C123_insert_few : forall d pts, preach d -> 0 < tnum d -> 0 < pnum d < 8 -> plane_insert d pts = UB.
Proof. exact insert_few_lemma. Qed.
Print Assumptions C123_insert_few.
Theorem C123_insert_refuted : exists d, preach d /\ positive d /\ forall pts, plane_insert d pts = UB.
Proof.
  destruct (wit_detector 4 2 0 1) as (d & E & P & E1 & _); [lia|lia|]. injection E1 as F1 F2 F3. exists d. split; [auto|]. split; [unfold positive; lia|].
  intros pts. apply insert_few_lemma; auto; lia.
Qed.
Print Assumptions C123_insert_refuted.
Example C123_case : exists d, preach d /\ 0 < tnum d /\ 0 < pnum d < 8.
Proof.
  destruct (wit_detector 4 2 0 1) as (d & E & P & E1 & _); [lia|lia|]. exists d. split; [auto|]. injection E1; lia.
Qed.
(** What holds: from eight longitudes on, for points near enough (missing: fewer longitudes). *)
Theorem C123_insert_partial : forall d pts, preach d -> 8 <= pnum d -> offsets_fit d pts -> exists d', plane_insert d pts = Ret d'.
Proof. intros d pts Hd H8 Hf. apply insert_defined_lemma; auto. Qed.
Print Assumptions C123_insert_partial.

(** C124 *)
Theorem C124_insert_additive : forall d p1 p2 d1 d2 d12, preach d ->
  plane_insert d p1 = Ret d1 -> plane_insert d1 p2 = Ret d2 -> plane_insert d (p1 ++ p2) = Ret d12 ->
  same_config d2 d12 /\ (forall it ip ir, getHT d2 it ip ir = getHT d12 it ip ir) /\ (forall it ip, getHS d2 it ip = getHS d12 it ip).
Proof. exact insert_app_lemma. Qed.
Print Assumptions C124_insert_additive.

(** C125: false. *)
Theorem C125_overloads_refuted : exists d pts d1 d2, preach d /\ plane_insert d pts = Ret d1 /\ plane_insert_range d (fun p => p) pts = Ret d2 /\
  cell_in d 0 0 0 /\ getHT d1 0 0 0 = Ret 2 /\ getHT d2 0 0 0 = Ret 1.
Proof. exact accumulate_lemma. Qed.
Print Assumptions C125_overloads_refuted.
(** What holds: the iterator overload counts the given points only (missing: the vector overload, which adds to the earlier votes, C121). *)
Theorem C125_range_partial : forall (A : Type) d (conv : A -> vec3) l d', preach d -> plane_insert_range d conv l = Ret d' -> same_config d d' /\
  (forall it ip ir, cell_in d it ip ir -> exists n,
     counts (fun p => code_bin (offset d it ip (conv p)) ir) l n /\ getHT d' it ip ir = Ret (n mod 2 ^ 64)) /\
  (forall it ip, dir_in d it ip -> exists f, (forall ir, 0 <= ir < rnum d -> getHT d' it ip ir = Ret (f ir)) /\
     getHS d' it ip = Ret (sum_upto (Z.to_nat (rnum d)) (fun ir => f ir * f ir) mod 2 ^ 64)).
Proof. exact @insert_range_lemma. Qed.
Print Assumptions C125_range_partial.

(** C126 *)
Theorem C126_normals : forall d it ip, preach d -> dir_in d it ip ->
  getNormal d it ip = Ret (direction (tmin d + tres d * IZR it) (pmin d + pres d * IZR ip)) /\
  unit3 (direction (tmin d + tres d * IZR it) (pmin d + pres d * IZR ip)).
Proof. exact normals_lemma. Qed.
Print Assumptions C126_normals.

(** C127: false for every detector with at least one latitude. *)
Theorem C127_defaults_differ : forall d nt np nr sr d', preach d -> sizes_ok nt np nr -> 0 < nt -> plane_init_default d nt np nr sr = Ret d' ->
  tmin d' <> (- PI / 2)%R /\ tres d' <> (PI / IZR nt)%R /\ (2 <= nr -> sr <> 0%R -> rmin d' <> 0%R).
Proof. exact defaults_differ_lemma. Qed.
Print Assumptions C127_defaults_differ.
Theorem C127_defaults_refuted : exists nt np nr sr d, sizes_ok nt np nr /\ (0 < sr)%R /\ plane_init_default plane_new nt np nr sr = Ret d /\
  tmin d <> (- PI / 2)%R /\ tres d <> (PI / IZR nt)%R /\ rmin d <> 0%R.
Proof.
  assert (S : sizes_ok 4 8 6) by (apply sizes_small; lia).
  destruct (default_defined plane_new 4 8 6 (1 / 2) preach_new S) as (d & E & P & En).
  destruct (defaults_differ_lemma plane_new 4 8 6 (1 / 2)%R d preach_new S) as (H1 & H2 & H3); auto; try lia.
  exists 4, 8, 6, (1 / 2)%R, d. split; [auto|]. split; [lra|]. split; [auto|]. split; [auto|]. split; [auto|]. apply H3; [lia|lra].
Qed.
Print Assumptions C127_defaults_refuted.
(** What is set instead (agreeing with the documentation: phi only). *)
Theorem C127_defaults_partial : forall d nt np nr sr d', preach d -> sizes_ok nt np nr -> plane_init_default d nt np nr sr = Ret d' ->
  (tmin d', pmin d', rmin d') = (0, 0, - IZR (nr / 2) * sr)%R /\ (tres d', pres d', rres d') = (PI / 2 / IZR nt, 2 * PI / IZR np, sr)%R.
Proof. exact defaults_lemma. Qed.
Print Assumptions C127_defaults_partial.

(** C128 *)
Theorem C128_vote_distance : forall d it ip ir p v n c d', preach d -> (0 < rres d)%R -> cell_in d it ip ir ->
  plane_insert d [p] = Ret d' -> getHT d it ip ir = Ret v -> getHT d' it ip ir <> Ret v -> getPlaneParam_ix d it ip ir = Ret (n, c) ->
  (Rabs (dot3 n p + c) < rres d)%R.
Proof. exact vote_distance_lemma. Qed.
Print Assumptions C128_vote_distance.
Example C128_case : exists d p d', preach d /\ (0 < rres d)%R /\ plane_insert d [p] = Ret d' /\ cell_in d 0 0 0 /\ getHT d 0 0 0 = Ret 0 /\ getHT d' 0 0 0 <> Ret 0.
Proof.
  destruct misvote_lemma as (d & p & d' & H1 & H2 & H3 & H4 & H5 & H6 & _). exists d, p, d'. rewrite H6.
  split; [auto|]. split; [auto|]. split; [auto|]. split; [auto|]. split; [auto|]. discriminate.
Qed.

(** C129: false. *)
Theorem C129_half_bin_refuted : exists d p d' n c, preach d /\ (0 < rres d)%R /\ plane_insert d [p] = Ret d' /\ cell_in d 0 0 0 /\
  getHT d 0 0 0 = Ret 0 /\ getHT d' 0 0 0 = Ret 1 /\ getPlaneParam_ix d 0 0 0 = Ret (n, c) /\ (rres d / 2 < Rabs (dot3 n p + c))%R.
Proof. destruct misvote_lemma as (d & p & d' & H1 & H2 & H3 & H4 & H5 & H6 & _ & n & c & H7 & H8). exists d, p, d', n, c. auto 10. Qed.
Print Assumptions C129_half_bin_refuted.
(** What holds: within one bin (missing: a factor of two). *)
Theorem C129_half_bin_partial : forall d it ip ir p v n c d', preach d -> (0 < rres d)%R -> cell_in d it ip ir ->
  plane_insert d [p] = Ret d' -> getHT d it ip ir = Ret v -> getHT d' it ip ir <> Ret v -> getPlaneParam_ix d it ip ir = Ret (n, c) ->
  (Rabs (dot3 n p + c) < rres d)%R.
Proof. exact vote_distance_lemma. Qed.
Print Assumptions C129_half_bin_partial.

(** C130 *)
Theorem C130_find_planes : forall d sort hyp, preach d -> positive d -> windows_ok d -> sorts_by_votes d sort ->
  (forall x, In x hyp -> exists it ip ir, x = [it; ip; ir] /\ cell_in d it ip ir) ->
  exists found out, findPlanes sort d hyp = Ret out /\ Permutation out (hyp ++ found) /\ NoDup found /\
    (forall x, In x found -> exists it ip ir, x = [it; ip; ir] /\ cell_in d it ip ir /\ (it, ip) <> (0, 0) /\ ir <> 0) /\
    StronglySorted (fun a b => forall va vb, ht_at d a = Ret va -> ht_at d b = Ret vb -> vb <= va) out.
Proof. exact findPlanes_lemma. Qed.
Print Assumptions C130_find_planes.
Example C130_case : exists d, preach d /\ positive d /\ windows_ok d /\ sorts_by_votes d (vsort (ht d)).
Proof.
  destruct first_missed_lemma as (d & H1 & H2 & H3 & _). exists d. split; [auto|]. split; [auto|]. split; [auto|]. apply vsort_sorts.
Qed.

(** C131: false; the first direction is never reported, even when it is the only one with votes. *)
Theorem C131_best_direction_refuted : exists d, preach d /\ positive d /\ windows_ok d /\ dir_in d 0 0 /\ getHS d 0 0 = Ret 1 /\
  (forall it ip, dir_in d it ip -> (it, ip) <> (0, 0) -> getHS d it ip = Ret 0) /\
  forall sort, sorts_by_votes d sort -> findPlanes sort d [] = Ret [].
Proof. exact first_missed_lemma. Qed.
Print Assumptions C131_best_direction_refuted.

(** C132 *)
Theorem C132_plane_params : forall d sort, preach d -> positive d -> windows_ok d -> sorts_by_votes d sort ->
  exists cells out, findPlanes sort d [] = Ret cells /\ findPlaneParams sort d = Ret out /\
    Forall2 (fun ix pr => exists it ip ir, ix = [it; ip; ir] /\ pr = (dir_of d it ip, (- (rmin d + rres d * IZR ir))%R)) cells out.
Proof. exact findPlaneParams_lemma. Qed.
Print Assumptions C132_plane_params.

(** C133 *)
Theorem C133_init_resets : forall d nt np nr mn res, preach d -> sizes_ok nt np nr -> exists d', plane_init d nt np nr mn res = Ret d' /\ preach d' /\
  (tnum d', pnum d', rnum d') = (nt, np, nr) /\ (tmin d', pmin d', rmin d') = mn /\ (tres d', pres d', rres d') = res /\
  (twin d', pwin d', rwin d') = (twin d, pwin d, rwin d) /\
  (forall it ip ir, cell_in d' it ip ir -> getHT d' it ip ir = Ret 0) /\
  (forall it ip, dir_in d' it ip -> getHS d' it ip = Ret 0).
Proof. exact init_lemma. Qed.
Print Assumptions C133_init_resets.

(** C134 *)
Theorem C134_window : forall d wt wp wr, preach d -> (0 < tres d)%R -> (0 < pres d)%R -> (0 < rres d)%R ->
  (0 <= wt <= 2147483647 * tres d)%R -> (0 <= wp <= 2147483647 * pres d)%R -> (0 <= wr <= 2147483647 * rres d)%R ->
  exists d', plane_setWindowR d wt wp wr = Ret d' /\ preach d' /\ windows_ok d' /\
    ((IZR (twin d') - 1) * tres d < wt <= IZR (twin d') * tres d)%R /\
    ((IZR (pwin d') - 1) * pres d < wp <= IZR (pwin d') * pres d)%R /\
    ((IZR (rwin d') - 1) * rres d < wr <= IZR (rwin d') * rres d)%R.
Proof. exact window_lemma. Qed.
Print Assumptions C134_window.
Example C134_case : exists d, preach d /\ tres d = 1%R /\ pres d = 1%R /\ rres d = 1%R.
Proof. destruct (wit_detector 8 1 0 1) as (d & E & P & E1 & E2 & E3 & _); [lia|lia|]. exists d. injection E3 as K1 K2 K3. auto. Qed.

(** C135: false for findParallelPlanes. *)
Theorem C135_range_check_refuted : exists d it ip, preach d /\ positive d /\ ~ dir_in d it ip /\ findParallelPlanes d it ip = UB.
Proof. exact parallel_out_lemma. Qed.
Print Assumptions C135_range_check_refuted.
(** What holds: the getters (missing: findParallelPlanes). *)
Theorem C135_range_check_partial : forall d it ip ir,
  (~ cell_in d it ip ir -> getHT d it ip ir = Exit /\ getPlaneParam_ix d it ip ir = Exit /\ getPlaneParam_int d it ip ir = Exit) /\
  (~ dir_in d it ip -> getHS d it ip = Exit /\ getNormal d it ip = Exit).
Proof. exact getters_reject_lemma. Qed.
Print Assumptions C135_range_check_partial.

(** C136: false. *)
Theorem C136_empty_refuted : exists d, preach d /\ forall sort, findPlanes sort d [] = Exit.
Proof. exists plane_new. split; [constructor|exact find_new_lemma]. Qed.
Print Assumptions C136_empty_refuted.

(** C137: false, for every detector and every point set. *)
Theorem C137_line_never_votes : forall d pts it ir, lreach d ->
  (0 <= it < ltnum d -> line_getHS (line_insert d pts) it = Ret 0) /\
  (0 <= it < ltnum d -> 0 <= ir < lrnum d -> line_getHT (line_insert d pts) it ir = Ret 0).
Proof. intros d pts it ir Hd. apply line_counters_lemma. now constructor. Qed.
Print Assumptions C137_line_never_votes.
Lemma line_case : lreach (line_make 4 3 (1 / 2)) /\ 0 < ltnum (line_make 4 3 (1 / 2)) /\ 0 <= ltwin (line_make 4 3 (1 / 2)).
Proof.
  split; [|cbn; lia]. unfold line_make, line_init_default. constructor. constructor; try lia. constructor.
Qed.
(** The point (1, 0) lies on the line of direction 0 and distance bin 2, yet the cell stays at zero. *)
Theorem C137_line_votes_refuted : exists d pts it ir, lreach d /\ 0 <= it < ltnum d /\ 0 <= ir < lrnum d /\
  (forall x y, In (x, y) pts -> in_bin ((cos (ltmin d + ltres d * IZR it) * x + sin (ltmin d + ltres d * IZR it) * y - lrmin d) / lrres d)%R ir) /\
  pts <> [] /\ line_getHT (line_insert d pts) it ir = Ret 0.
Proof.
  exists (line_make 4 3 (1 / 2)), [(1, 0)%R], 0, 2. destruct line_case as (H & _). split; [auto|]. split; [cbn; lia|]. split; [cbn; lia|]. split; [|split; [discriminate|]].
  - intros x y [E|[]]. pose proof (f_equal fst E) as Ex. pose proof (f_equal snd E) as Ey. cbn [fst snd] in Ex, Ey. subst x y.
    cbn [ltmin ltres lrmin lrres line_make line_setWindow line_init_default line_init]. rewrite Rmult_0_r, Rplus_0_l, cos_0, sin_0. unfold in_bin. lra.
  - apply (line_counters_lemma _ 0 2 (lreach_insert _ _ H)); cbn; lia.
Qed.
Print Assumptions C137_line_votes_refuted.

(** C138: false, for every detector and every point set. *)
Theorem C138_no_lines : forall d pts out, lreach d -> 0 < ltnum d -> 0 <= ltwin d -> findLines (line_insert d pts) out = Ret out.
Proof. intros d pts out Hd. apply no_lines_lemma. exact Hd. Qed.
Print Assumptions C138_no_lines.
Theorem C138_lines_refuted : exists d, lreach d /\ 0 < ltnum d /\ 0 <= ltwin d /\ forall pts, findLines (line_insert d pts) [] = Ret [].
Proof.
  exists (line_make 4 3 (1 / 2)). destruct line_case as (H & H1 & H2). split; [auto|]. split; [auto|]. split; [auto|]. intros pts. now apply no_lines_lemma.
Qed.
Print Assumptions C138_lines_refuted.

(** C152 *)
Theorem C152_best_direction : forall d bt bp, preach d -> positive d -> windows_ok d -> best_dir d bt bp -> (bt, bp) <> (0, 0) -> dir_neighbour d bt bp ->
  exists cells normals, findSpectrumMax d [] = Ret ([bt; bp] :: cells) /\ findNormalMax d = Ret (dir_of d bt bp :: normals).
Proof. exact best_normal_lemma. Qed.
Print Assumptions C152_best_direction.
Example C152_case : exists d, preach d /\ positive d /\ windows_ok d /\ best_dir d 0 3 /\ dir_neighbour d 0 3.
Proof. destruct one_vote_lemma as (d & H1 & H2 & H3 & _ & H4 & H5 & _). eauto 6. Qed.

(** C153 *)
Theorem C153_best_bin : forall d it ip br, preach d -> positive d -> windows_ok d -> 0 < rwin d -> dir_in d it ip -> best_bin d it ip br -> br <> 0 ->
  exists rest prest, findParallelPlanes d it ip = Ret ([it; ip; br] :: rest) /\
    findParallelParams d it ip = Ret ((dir_of d it ip, (- (rmin d + rres d * IZR br))%R) :: prest).
Proof. exact best_bin_lemma. Qed.
Print Assumptions C153_best_bin.
Example C153_case : exists d, preach d /\ positive d /\ windows_ok d /\ 0 < rwin d /\ dir_in d 0 3 /\ best_bin d 0 3 1.
Proof. destruct one_vote_lemma as (d & H1 & H2 & H3 & H4 & [H5 _] & _ & H6 & _). eauto 8. Qed.

(** C154 *)
Theorem C154_best_plane : forall d sort bt bp br, preach d -> positive d -> windows_ok d -> sorts_by_votes d sort -> 0 < rwin d ->
  best_dir d bt bp -> (bt, bp) <> (0, 0) -> dir_neighbour d bt bp -> best_bin d bt bp br -> br <> 0 ->
  exists out params, findPlanes sort d [] = Ret out /\ In [bt; bp; br] out /\
    findPlaneParams sort d = Ret params /\ In (dir_of d bt bp, (- (rmin d + rres d * IZR br))%R) params.
Proof. exact best_plane_lemma. Qed.
Print Assumptions C154_best_plane.
Example C154_case : exists d, preach d /\ positive d /\ windows_ok d /\ sorts_by_votes d (vsort (ht d)) /\ 0 < rwin d /\ best_dir d 0 3 /\ dir_neighbour d 0 3 /\ best_bin d 0 3 1.
Proof. destruct one_vote_lemma as (d & H1 & H2 & H3 & H4 & H5 & H6 & H7 & _). exists d. pose proof (vsort_sorts d). tauto. Qed.

(** C155 *)
Theorem C155_reported_values : forall d, preach d -> positive d -> windows_ok d ->
  (exists m, findSpectrumMax d [] = Ret m /\ (forall x, In x m -> exists it ip, x = [it; ip] /\ dir_in d it ip) /\
    findNormalMax d = Ret (map (fun x => match x with [it; ip] => dir_of d it ip | _ => v30 end) m)) /\
  forall it ip, dir_in d it ip -> exists rs,
    findParallelPlanes d it ip = Ret (map (fun ir => [it; ip; ir]) rs) /\ NoDup rs /\ (forall ir, In ir rs -> 0 < ir < rnum d) /\
    findParallelParams d it ip = Ret (map (fun ir => (dir_of d it ip, (- (rmin d + rres d * IZR ir))%R)) rs).
Proof. intros d P Hp Hw. split; [now apply normal_max_lemma|]. intros it ip Hi. now apply parallel_params_lemma. Qed.
Print Assumptions C155_reported_values.
Example C155_case : exists d, preach d /\ positive d /\ windows_ok d /\ dir_in d 0 3.
Proof. destruct one_vote_lemma as (d & H1 & H2 & H3 & H4 & [H5 _] & _). eauto 6. Qed.

(** C156 *)
Theorem C156_union : forall d sort, preach d -> positive d -> windows_ok d -> sorts_by_votes d sort ->
  exists dirs out, findSpectrumMax d [] = Ret dirs /\ findPlanes sort d [] = Ret out /\ NoDup out /\
    forall x, In x out <-> exists it ip r, In [it; ip] dirs /\ findParallelPlanes d it ip = Ret r /\ In x r.
Proof. exact find_union_lemma. Qed.
Print Assumptions C156_union.
Example C156_case : exists d out, preach d /\ positive d /\ windows_ok d /\ sorts_by_votes d (vsort (ht d)) /\ findPlanes (vsort (ht d)) d [] = Ret out /\ In [0; 3; 1] out.
Proof.
  destruct one_vote_lemma as (d & H1 & H2 & H3 & H4 & H5 & H6 & H7 & _).
  destruct (best_plane_lemma d (vsort (ht d)) 0 3 1) as (out & _ & E & Hin & _); auto; try congruence; [apply vsort_sorts|]. exists d, out. pose proof (vsort_sorts d). tauto.
Qed.

(** C157 *)
Theorem C157_parallel_planes : forall d it ip, preach d -> positive d -> 0 < rwin d -> dir_in d it ip -> few_ties d it ip -> exists rs,
  findParallelPlanes d it ip = Ret (map (fun ir => [it; ip; ir]) rs) /\ NoDup rs /\
  StronglySorted (fun i j => forall u v, getHT d it ip i = Ret u -> getHT d it ip j = Ret v -> v <= u) rs /\
  (forall j, In j rs -> 0 < j < rnum d /\ forall i u v, 0 <= i < rnum d -> Z.abs (i - j) <= rwin d -> getHT d it ip i = Ret u -> getHT d it ip j = Ret v -> u <= v) /\
  (forall j, 0 < j < rnum d ->
     (forall i u v, 0 <= i < rnum d -> Z.abs (i - j) <= rwin d -> i <> j -> getHT d it ip i = Ret u -> getHT d it ip j = Ret v -> u < v) ->
     (forall i, 0 <= i < j - rwin d -> getHT d it ip i <> getHT d it ip j) -> In j rs).
Proof. exact few_ties_lemma. Qed.
Print Assumptions C157_parallel_planes.
Example C157_case : exists d, preach d /\ positive d /\ 0 < rwin d /\ dir_in d 0 3 /\ few_ties d 0 3.
Proof. destruct one_vote_lemma as (d & H1 & H2 & H3 & H4 & [H5 _] & _ & _ & H6). eauto 6. Qed.

(** C184: a new detector: sizes, peak windows of one cell, no votes. *)
Theorem C184_constructed : forall nt np nr sr, sizes_ok nt np nr -> exists d, plane_make nt np nr sr = Ret d /\ preach d /\
  (tnum d, pnum d, rnum d) = (nt, np, nr) /\ (twin d, pwin d, rwin d) = (1, 1, 1) /\
  (forall it ip ir, cell_in d it ip ir -> getHT d it ip ir = Ret 0) /\ (forall it ip, dir_in d it ip -> getHS d it ip = Ret 0).
Proof.
  intros nt np nr sr S. destruct (C133_init_resets plane_new nt np nr (0, 0, IZR (- (nr ÷ 2)) * sr)%R (5 / 10 * PI / IZR nt, 2 * PI / IZR np, sr)%R preach_new S) as (d & E & P & N & _ & _ & _ & H1 & H2).
  exists (plane_setWindow d 1 1 1). unfold plane_make, plane_init_default. rewrite E. split; [reflexivity|]. split; [now constructor|]. split; [exact N|]. split; [reflexivity|]. split; assumption.
Qed.
Print Assumptions C184_constructed.
Theorem C184_default : (twin plane_new, pwin plane_new, rwin plane_new) = (1, 1, 1) /\ (tnum plane_new, pnum plane_new, rnum plane_new) = (0, 0, 0) /\
  (ltwin line_new, lrwin line_new) = (1, 1) /\ (ltnum line_new, lrnum line_new) = (0, 0).
Proof. repeat split. Qed.
Print Assumptions C184_default.
Theorem C184_line : forall nt nr sr, 0 <= nt < 2 ^ 31 -> 0 <= nr -> nt * nr < 2 ^ 31 -> let d := line_make nt nr sr in
  lreach d /\ (ltnum d, lrnum d) = (nt, nr) /\ (ltwin d, lrwin d) = (1, 1) /\
  (forall it ir, 0 <= it < nt -> 0 <= ir < nr -> line_getHT d it ir = Ret 0) /\ (forall it, 0 <= it < nt -> line_getHS d it = Ret 0).
Proof.
  intros nt nr sr H1 H2 H3 d. assert (L : lreach d) by (unfold d, line_make, line_init_default; constructor; constructor; try assumption; constructor).
  split; [exact L|]. split; [reflexivity|]. split; [reflexivity|]. split.
  - intros it ir I J. exact (proj2 (C137_line_never_votes d [] it ir L) I J).
  - intros it I. exact (proj1 (C137_line_never_votes d [] it 0 L) I).
Qed.
Print Assumptions C184_line.
Example C184_sizes : sizes_ok 90 180 50. Proof. unfold sizes_ok. lia. Qed.
