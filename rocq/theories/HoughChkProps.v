(** * Property theorems for the searches of the Hough detectors in int arithmetic (C216-C217). *)
From Coq Require Import List ZArith Bool Reals Lia Lra.
From Verif Require Import Base IntervalModel HoughModel HoughSpec HoughProofs HoughFacts HoughFind HoughBest HoughWitness IntervalChkModel HoughChkModel HoughChkSpec HoughChkProofs HoughProps.
Import ListNotations.
Open Scope Z_scope.

(** C216 *)
Theorem C216_spectrum : forall d out, preach d -> positive d -> windows_ok d ->
  (dirs_fit d -> findSpectrumMax_chk d out = findSpectrumMax d out) /\ (~ dirs_fit d -> findSpectrumMax_chk d out = UB).
Proof. intros d out H. apply spectrum_chk_lemma. now apply preach_wf. Qed.
Print Assumptions C216_spectrum.
Theorem C216_parallel : forall d it ip, preach d -> positive d -> windows_ok d -> dir_in d it ip ->
  (bins_fit d -> findParallelPlanes_chk d it ip = findParallelPlanes d it ip) /\ (~ bins_fit d -> findParallelPlanes_chk d it ip = UB).
Proof. intros d it ip H. apply rho_chk_lemma. now apply preach_wf. Qed.
Print Assumptions C216_parallel.
Theorem C216_planes : forall d sort hyp dirs, preach d -> positive d -> windows_ok d -> findSpectrumMax d [] = Ret dirs ->
  (dirs_fit d -> bins_fit d \/ dirs = [] -> findPlanes_chk sort d hyp = findPlanes sort d hyp) /\
  (~ dirs_fit d \/ (~ bins_fit d /\ dirs <> []) -> findPlanes_chk sort d hyp = UB).
Proof. intros d sort hyp dirs H. apply planes_chk_lemma. now apply preach_wf. Qed.
Print Assumptions C216_planes.
Theorem C216_lines : forall d out, lreach d -> 0 < ltnum d -> 0 <= ltwin d ->
  (axis_fits (ltnum d) (ltwin d) -> findLines_chk d out = Ret out) /\ (~ axis_fits (ltnum d) (ltwin d) -> findLines_chk d out = UB).
Proof. exact lines_chk_lemma. Qed.
Print Assumptions C216_lines.
(** The same whatever the counters hold (insert of the line detector is empty, so no reachable detector has votes). *)
Theorem C216_lines_any : forall d out dirs, 0 < ltnum d < 2 ^ 31 -> 0 < lrnum d < 2 ^ 31 -> 0 <= ltwin d -> 0 <= lrwin d -> line_spectrumMax d [] = Ret dirs ->
  (axis_fits (ltnum d) (ltwin d) -> axis_fits (lrnum d) (lrwin d) \/ dirs = [] -> findLines_chk d out = findLines d out) /\
  (~ axis_fits (ltnum d) (ltwin d) \/ (~ axis_fits (lrnum d) (lrwin d) /\ dirs <> []) -> findLines_chk d out = UB).
Proof. exact lines_any_lemma. Qed.
Print Assumptions C216_lines_any.
Example C216_case : exists d, preach d /\ positive d /\ windows_ok d /\ dir_in d 0 3 /\ dirs_fit d /\ bins_fit d /\
  findParallelPlanes_chk (plane_setWindow d 1 1 (2 ^ 30)) 0 3 = UB /\ findSpectrumMax_chk (plane_setWindow d 1 (2 ^ 31 - 8) 1) [] = UB.
Proof.
  destruct (wit_detector 8 3 (-5) (PI / 3)) as (d & _ & P & E1 & _ & _ & E4 & _); [lia|lia|]. injection E1 as T1 T2 T3. injection E4 as W1 W2 W3. exists d. split; [auto|].
  split; [unfold positive; lia|]. split; [unfold windows_ok; lia|]. split; [unfold dir_in; lia|]. split; [unfold dirs_fit, axis_fits; lia|]. split; [unfold bins_fit, axis_fits; lia|]. split.
  - apply C216_parallel; [now constructor|unfold positive; cbn; lia|unfold windows_ok; cbn; lia|unfold dir_in; cbn; lia|]. unfold bins_fit, axis_fits. cbn [plane_setWindow rnum rwin]. lia.
  - apply C216_spectrum; [now constructor|unfold positive; cbn; lia|unfold windows_ok; cbn; lia|]. unfold dirs_fit, axis_fits. cbn [plane_setWindow tnum twin pnum pwin]. lia.
Qed.
Example C216_planes_case : exists d dirs sort, preach d /\ positive d /\ windows_ok d /\ findSpectrumMax d [] = Ret dirs /\ dirs <> [] /\ ~ bins_fit d /\ findPlanes_chk sort d [] = UB.
Proof.
  destruct one_vote_lemma as (d & H1 & H2 & H3 & H4 & H5 & H6 & H7 & _).
  destruct (best_plane_lemma d (vsort (ht d)) 0 3 1) as (out & _ & E & Hin & _); auto; try congruence; [apply vsort_sorts|].
  destruct (spectrum_max_lemma d (preach_wf d H1) H2 H3) as (m & Em & _). exists (plane_setWindow d (twin d) (pwin d) (2 ^ 30)), m, (vsort (ht d)).
  assert (Nm : m <> []). { intros ->. unfold findPlanes in E. rewrite Em in E. cbn in E. injection E as <-. destruct Hin. }
  assert (Nb : ~ bins_fit (plane_setWindow d (twin d) (pwin d) (2 ^ 30))) by (unfold bins_fit, axis_fits; cbn [plane_setWindow rnum rwin]; lia).
  assert (P : preach (plane_setWindow d (twin d) (pwin d) (2 ^ 30))) by now constructor.
  assert (W : windows_ok (plane_setWindow d (twin d) (pwin d) (2 ^ 30))) by (destruct H3 as (A & B & C); unfold windows_ok; cbn [plane_setWindow twin pwin rwin]; lia).
  repeat (split; [assumption|]). apply (C216_planes _ _ [] m P H2 W Em). right. auto.
Qed.

(** C217 *)
Theorem C217_default_windows : forall nt np nr sr, sizes_ok nt np nr -> 0 < nt < 2 ^ 31 - 1 -> 0 < np < 2 ^ 31 - 1 -> 0 < nr < 2 ^ 31 - 1 ->
  exists d, plane_make nt np nr sr = Ret d /\ forall pts d', plane_insert d pts = Ret d' ->
    (forall out, findSpectrumMax_chk d' out = findSpectrumMax d' out) /\
    (forall it ip, dir_in d' it ip -> findParallelPlanes_chk d' it ip = findParallelPlanes d' it ip) /\
    (forall sort hyp, findPlanes_chk sort d' hyp = findPlanes sort d' hyp).
Proof.
  intros nt np nr sr S Ht Hp Hr. destruct (C184_constructed nt np nr sr S) as (d & E & P & N & Wd & _). exists d. split; [exact E|]. intros pts d' Hd'.
  pose proof (preach_insert d pts d' P Hd') as P'. destruct (wf_insert d pts d' (preach_wf d P) Hd') as (W' & C1 & _ & _ & C4).
  rewrite N in C1. rewrite Wd in C4. injection C1 as T1 T2 T3. injection C4 as U1 U2 U3.
  assert (Pos : positive d') by (unfold positive; lia). assert (Wok : windows_ok d') by (unfold windows_ok; lia).
  assert (F1 : dirs_fit d') by (unfold dirs_fit, axis_fits; lia). assert (F2 : bins_fit d') by (unfold bins_fit, axis_fits; lia).
  split; [|split].
  - intros out. now apply C216_spectrum.
  - intros it ip Hi. now apply C216_parallel.
  - intros sort hyp. destruct (spectrum_max_lemma d' W' Pos Wok) as (m & Em & _). apply (C216_planes d' sort hyp m); auto.
Qed.
Print Assumptions C217_default_windows.
Example C217_case : sizes_ok 90 180 2000 /\ exists d d', plane_make 8 8 2 1 = Ret d /\ plane_insert d [(1, 0, 0)%R] = Ret d'.
Proof.
  split; [unfold sizes_ok; lia|].
  destruct (init_lemma plane_new 8 8 2 (0, 0, IZR (- (2 ÷ 2)) * 1)%R (5 / 10 * PI / IZR 8, 2 * PI / IZR 8, 1)%R preach_new) as (d & E & P & E1 & E2 & E3 & E4 & _).
  { unfold sizes_ok. lia. }
  assert (P' : preach (plane_setWindow d 1 1 1)) by now constructor.
  destruct (proj2 (insert_defined_lemma (plane_setWindow d 1 1 1) [(1, 0, 0)%R] P')) as (d' & Ed').
  { right. right. injection E1 as T1 T2 T3. injection E2 as M1 M2 M3. injection E3 as S1 S2 S3. split; [cbn [plane_setWindow pnum]; lia|].
    intros it ip p _ [<-|[]]. cbn [plane_setWindow rres]. rewrite S3. split; [lra|]. unfold offset, dir_of, direction. cbn [plane_setWindow rres rmin tmin tres pmin pres]. rewrite S3, M3.
    change (IZR (- (2 ÷ 2))) with (-1)%R. set (a := (tmin d + tres d * IZR it)%R). set (b := (pmin d + pres d * IZR ip)%R).
    pose proof (COS_bound a). pose proof (COS_bound b). assert (-1 <= cos a * cos b <= 1)%R by nra.
    replace ((cos a * cos b * 1 + cos a * sin b * 0 + sin a * 0 - -1 * 1) / 1)%R with (cos a * cos b + 1)%R by field. lra. }
  exists (plane_setWindow d 1 1 1), d'. split; [|exact Ed']. unfold plane_make, plane_init_default. rewrite E. reflexivity.
Qed.
(** A detector with three directions and two distances whose counters hold votes. *)
Example C216_lines_any_case : exists d, 0 < ltnum d < 2 ^ 31 /\ 0 < lrnum d < 2 ^ 31 /\ 0 <= ltwin d /\ 0 <= lrwin d /\
  axis_fits (ltnum d) (ltwin d) /\ axis_fits (lrnum d) (lrwin d) /\ line_spectrumMax d [] = Ret [[1]].
Proof.
  exists (mkL (grid_new 2) [0; 5; 1] [] 3 2 0 0 0 0 1 1). unfold axis_fits. cbn [ltnum lrnum ltwin lrwin].
  refine (conj _ (conj _ (conj _ (conj _ (conj _ (conj _ _)))))); try lia. vm_compute. reflexivity.
Qed.
