(** * Properties of the correspondence graph. *)
From Coq Require Import List ZArith Reals Sorted Lia Lra.
From Verif Require Import Base LabelSetModel AssocModel AssocSpec AssocProofs AssocFacts.
Import ListNotations.
Open Scope Z_scope.

(** C58: the nodes and the links built from one source and one destination set. *)
Theorem C58_edges {A B : Type} : forall sort (src : list A) ds (dst : list B) dd t m,
  conforming sort ->
  let ns := Z.of_nat (length src) in let nd := Z.of_nat (length dst) in
  exists l, build (problem sort src ds dst dd t m) = Ret l /\ Z.of_nat (length l) = ns * nd /\
    (forall s d, 0 <= s < ns -> 0 <= d < nd ->
      exists n, nth_error l (Z.to_nat (s * nd + d)) = Some n /\ isrc n = s /\ idst n = d /\ StronglySorted Z.lt (adjacents n)) /\
    (forall i j, linked l i j -> 0 <= j < ns * nd) /\
    (forall s0 d0 s1 d1, 0 <= s0 < ns -> 0 <= d0 < nd -> 0 <= s1 < ns -> 0 <= d1 < nd ->
      (linked l (s0 * nd + d0) (s1 * nd + d1) <->
       exists x y, gap ds src s0 s1 x /\ gap dd dst d0 d1 y /\ (m < x)%R /\ (Rabs (x - y) < t)%R)) /\
    (forall i j, linked l i j -> linked l j i) /\ (forall i, ~ linked l i i).
Proof. intros sort src ds dst dd t m Hc. exact (graph_lemma sort src ds dst dd t m Hc). Qed.
Print Assumptions C58_edges.

Definition absdist (a b : R) : R := Rabs (a - b).

Example C58_example : conforming rsort /\ exists l, build (problem rsort [0; 1; 3]%R absdist [5; 6]%R absdist (1 / 10) 0) = Ret l /\
  linked l 0 3 /\ ~ linked l 0 5.
Proof.
  split; [exact rsort_conforming|].
  destruct (C58_edges rsort [0; 1; 3]%R absdist [5; 6]%R absdist (1 / 10) 0 rsort_conforming) as (l & E & _ & _ & _ & H & _).
  exists l. split; [exact E|]. split.
  - apply (H 0 0 1 1); [cbn; lia|cbn; lia|cbn; lia|cbn; lia|]. exists 1%R, 1%R. unfold gap, absdist. repeat split; try lia.
    + exists 0%R, 1%R. repeat split; auto. rewrite Rabs_left; lra.
    + exists 5%R, 6%R. repeat split; auto. rewrite Rabs_left; lra.
    + lra.
    + rewrite Rabs_right; lra.
  - intros L. apply (H 0 0 2 1) in L; [|cbn; lia|cbn; lia|cbn; lia|cbn; lia].
    destruct L as (x & y & (_ & _ & _ & a & b & Ha & Hb & Hx) & (_ & _ & _ & a' & b' & Ha' & Hb' & Hy) & _ & Hxy).
    cbn in Ha, Hb, Ha', Hb'. injection Ha as <-. injection Hb as <-. injection Ha' as <-. injection Hb' as <-.
    unfold absdist in Hx, Hy. rewrite Rabs_left in Hx by lra. rewrite Rabs_left in Hy by lra. apply Rabs_def2 in Hxy. lra.
Qed.

(** C59: storing the maximal sets.  Every non-empty problem is undefined behaviour unless the recursion counter, shared by all objects of the
    process, is exhausted; then the search is skipped.  In no case is the output vector written. *)
Theorem C59_output_refuted : exists (src dst : list R) t m l s,
  build (problem rsort src absdist dst absdist t m) = Ret l /\ maximal_clique l s /\ s <> [] /\
  associate (problem rsort src absdist dst absdist t m) 0 [] = UB /\
  forall c cnt out, associate (problem rsort src absdist dst absdist t m) 199 [] = Ret (c, cnt, out) -> ~ In s out.
Proof.
  exists [0%R], [0%R], 1%R, 0%R, [mkN 0 0 []], [0].
  split; [reflexivity|]. split; [|split; [discriminate|split]].
  - split.
    + split; [intros i [<- | []]; cbn; lia|]. intros i j [<- | []] [<- | []] H. contradiction.
    + intros k Hk [Hr _]. specialize (Hr k (or_introl eq_refl)). cbn in Hr. apply Hk. left. lia.
  - apply undefined_lemma; [exact rsort_conforming|discriminate|discriminate|lia].
  - intros c cnt out H. apply never_written_lemma in H. subst out. intros [].
Qed.
Print Assumptions C59_output_refuted.

Theorem C59_associate_exact : forall c cnt out l, build c = Ret l ->
  ((l = [] \/ 199 <= cnt) -> associate c cnt out = Ret (with_nodes c l, cnt + 1, out)) /\
  (l <> [] -> cnt < 199 -> associate c cnt out = UB).
Proof. exact associate_exact_lemma. Qed.
Print Assumptions C59_associate_exact.

Theorem C59_never_written : forall c cnt out c' cnt' out', associate c cnt out = Ret (c', cnt', out') -> out' = out.
Proof. exact never_written_lemma. Qed.
Print Assumptions C59_never_written.

Example C59_example : associate (problem rsort [0%R] absdist [0%R] absdist 1 0) 199 [[7]] =
  Ret (with_nodes (problem rsort [0%R] absdist [0%R] absdist 1 0) [mkN 0 0 []], 200, [[7]]).
Proof. apply C59_associate_exact; [reflexivity|right; lia]. Qed.

(** C139: associations. *)
Theorem C139_associations_refuted : exists (src dst : list R) t m,
  src <> [] /\ dst <> [] /\ associate_hyp (problem rsort src absdist dst absdist t m) 0 = UB.
Proof.
  exists [0; 1]%R, [0; 1]%R, 1%R, 0%R. repeat split; try discriminate.
  apply (undefined_lemma rsort [0; 1]%R absdist [0; 1]%R absdist 1 0 0 [] rsort_conforming); [discriminate|discriminate|lia].
Qed.
Print Assumptions C139_associations_refuted.

Theorem C139_always_undefined {A B : Type} : forall sort (src : list A) ds (dst : list B) dd t m cnt out,
  conforming sort -> src <> [] -> dst <> [] -> cnt < 199 ->
  associate (problem sort src ds dst dd t m) cnt out = UB /\ associate_hyp (problem sort src ds dst dd t m) cnt = UB.
Proof. intros sort src ds dst dd t m cnt out. exact (undefined_lemma sort src ds dst dd t m cnt out). Qed.
Print Assumptions C139_always_undefined.

Theorem C139_always_empty : forall c cnt c' cnt' out, associate_hyp c cnt = Ret (c', cnt', out) -> out = [].
Proof. exact hyp_empty_lemma. Qed.
Print Assumptions C139_always_empty.

Example C139_example : exists c', associate_hyp (problem rsort [0%R] absdist [0%R] absdist 1 0) 199 = Ret (c', 200, []).
Proof. eexists. unfold associate_hyp. rewrite (proj1 (C59_associate_exact (problem rsort [0%R] absdist [0%R] absdist 1 0) 199 [] [mkN 0 0 []] eq_refl)) by (right; lia). reflexivity. Qed.

(** C140: a new source set replaces the old one. *)
Theorem C140_replace_source_refuted : exists (src1 src2 dst : list R) t m,
  (exists l, build (problem rsort src2 absdist dst absdist t m) = Ret l) /\
  build (setDistanceMin (setTolerance (insertDst rsort (insertSrc rsort (insertSrc rsort cga_new src1 absdist) src2 absdist) dst absdist) t) m) = Exit.
Proof.
  exists [0; 1; 3]%R, [0; 1]%R, [0; 3]%R, 1%R, 0%R. split.
  - destruct (graph_lemma rsort [0; 1]%R absdist [0; 3]%R absdist 1 0 rsort_conforming) as (l & E & _). exists l. exact E.
  - apply (stale_lemma rsort [0; 1; 3]%R [0; 1]%R absdist [0; 3]%R absdist 1 0 0 2 0 1 3 3 rsort_conforming); try lia.
    + unfold gap, absdist. repeat split; try lia. exists 0%R, 3%R. repeat split; auto. rewrite Rabs_left; lra.
    + cbn. lia.
    + unfold gap, absdist. repeat split; try lia. exists 0%R, 3%R. repeat split; auto. rewrite Rabs_left; lra.
    + lra.
    + rewrite Rabs_right; lra.
Qed.
Print Assumptions C140_replace_source_refuted.

(** The distances of the larger old set stay; any of them that matches stops the program. *)
Theorem C140_stale_distances_stop {A B : Type} : forall sort (src1 src2 : list A) ds (dst : list B) dd t m s0 s1 d0 d1 x y,
  conforming sort -> gap ds src1 s0 s1 x -> s0 < s1 -> Z.of_nat (length src2) <= s1 -> gap dd dst d0 d1 y -> (m < x)%R -> (Rabs (x - y) < t)%R ->
  build (setDistanceMin (setTolerance (insertDst sort (insertSrc sort (insertSrc sort cga_new src1 ds) src2 ds) dst dd) t) m) = Exit.
Proof. intros. eapply stale_lemma; eassumption. Qed.
Print Assumptions C140_stale_distances_stop.

(** C141: the same object associates twice with the same graph. *)
Theorem C141_repeat_refuted : exists (src dst : list R) t m c1 cnt1 out1 l1 l2,
  build (problem rsort src absdist dst absdist t m) = Ret l1 /\
  associate (problem rsort src absdist dst absdist t m) 199 [] = Ret (c1, cnt1, out1) /\ build c1 = Ret l2 /\ length l1 <> length l2.
Proof.
  exists [0%R], [0%R], 1%R, 0%R, (with_nodes (problem rsort [0%R] absdist [0%R] absdist 1 0) [mkN 0 0 []]), 200, [], [mkN 0 0 []], [mkN 0 0 []; mkN 0 0 []].
  split; [reflexivity|]. split; [apply C59_associate_exact; [reflexivity|right; lia]|]. split; [reflexivity|discriminate].
Qed.
Print Assumptions C141_repeat_refuted.

Theorem C141_nodes_appended {A B : Type} : forall sort (src : list A) ds (dst : list B) dd t m cnt out c1 cnt1 out1,
  conforming sort -> associate (problem sort src ds dst dd t m) cnt out = Ret (c1, cnt1, out1) ->
  Z.of_nat (length (nodes c1)) = Z.of_nat (length src) * Z.of_nat (length dst) /\
  exists l, build c1 = Ret l /\ Z.of_nat (length l) = 2 * (Z.of_nat (length src) * Z.of_nat (length dst)).
Proof. intros sort src ds dst dd t m cnt out c1 cnt1 out1. exact (double_lemma sort src ds dst dd t m cnt out c1 cnt1 out1). Qed.
Print Assumptions C141_nodes_appended.

(** C142: the outcome of associate depends only on the object. *)
Theorem C142_history_refuted : exists c out n1 n2, associate c n1 out = UB /\ associate c n2 out <> UB.
Proof.
  exists (problem rsort [0%R] absdist [0%R] absdist 1 0), [], 0, 199. split.
  - apply (undefined_lemma rsort [0%R] absdist [0%R] absdist 1 0 0 [] rsort_conforming); [discriminate|discriminate|lia].
  - rewrite (proj1 (C59_associate_exact (problem rsort [0%R] absdist [0%R] absdist 1 0) 199 [] [mkN 0 0 []] eq_refl)) by (right; lia). discriminate.
Qed.
Print Assumptions C142_history_refuted.

(** C185: without calls of the setters the tolerance is 1/10 and the minimal distance 0. *)
Theorem C185_defaults {A B : Type} : forall sort (src : list A) ds (dst : list B) dd,
  conforming sort ->
  let ns := Z.of_nat (length src) in let nd := Z.of_nat (length dst) in
  exists l, build (insertDst sort (insertSrc sort cga_new src ds) dst dd) = Ret l /\ Z.of_nat (length l) = ns * nd /\
    forall s0 d0 s1 d1, 0 <= s0 < ns -> 0 <= d0 < nd -> 0 <= s1 < ns -> 0 <= d1 < nd ->
      (linked l (s0 * nd + d0) (s1 * nd + d1) <->
       exists x y, gap ds src s0 s1 x /\ gap dd dst d0 d1 y /\ (0 < x)%R /\ (Rabs (x - y) < 1 / 10)%R).
Proof.
  intros sort src ds dst dd Hc. destruct (graph_lemma sort src ds dst dd (1 / 10) 0 Hc) as (l & E & N & _ & _ & H & _). exists l. split; [exact E|]. split; [exact N|exact H].
Qed.
Print Assumptions C185_defaults.
