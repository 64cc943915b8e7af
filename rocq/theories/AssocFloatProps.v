(** * Properties of the correspondence graph in float arithmetic. *)
From Coq Require Import List ZArith Reals Sorted Lia Lra.
From Verif Require Import Base LabelSetModel AssocModel AssocSpec AssocFacts SingleModel SingleProofs AssocFloatModel AssocFloatSpec AssocFloatProofs.
Import ListNotations.
Open Scope Z_scope.

(** C224: every link joins correspondences whose distances differ by less than the tolerance, as real numbers. *)
Theorem C224_links_compatible {A B : Type} : forall sort (src : list A) ds (dst : list B) dd t m, conforming sort -> float_valued dd ->
  let ns := Z.of_nat (length src) in let nd := Z.of_nat (length dst) in
  exists l, buildf (problem sort src ds dst dd t m) = Ret l /\ Z.of_nat (length l) = ns * nd /\
    (forall s d, 0 <= s < ns -> 0 <= d < nd ->
      exists n, nth_error l (Z.to_nat (s * nd + d)) = Some n /\ isrc n = s /\ idst n = d /\ StronglySorted Z.lt (adjacents n)) /\
    (forall i j, linked l i j -> 0 <= j < ns * nd) /\
    (forall s0 d0 s1 d1, 0 <= s0 < ns -> 0 <= d0 < nd -> 0 <= s1 < ns -> 0 <= d1 < nd ->
      linked l (s0 * nd + d0) (s1 * nd + d1) ->
       exists x y, gap ds src s0 s1 x /\ gap dd dst d0 d1 y /\ (m < x)%R /\ (Rabs (x - y) < t)%R) /\
    (forall i j, linked l i j -> linked l j i) /\ (forall i, ~ linked l i i).
Proof. intros sort src ds dst dd t m Hc Fd. exact (sound_lemma sort src ds dst dd t m Hc Fd). Qed.
Print Assumptions C224_links_compatible.

Example C224_example : conforming rsort /\ float_valued (const 3) /\ exists l, buildf (problem rsort pair2 (const 3) pair2 (const 3) 1 0) = Ret l /\ linked l 0 3.
Proof.
  split; [exact rsort_conforming|]. split; [intros a b; apply (int_float 3); lia|].
  destruct (problem_graph rsort pair2 (const 3) pair2 (const 3) 1 0 rsort_conforming) as (l & E & _ & _ & _ & G & _).
  exists l. split; [exact E|]. apply (G 0 0 1 1); try (cbn; lia). exists 3%R, 3%R. split; [apply const_gap|]. split; [apply const_gap|]. split; [lra|].
  apply near_complete. rewrite Rminus_eq_0, Rabs_R0, !Rabs_pos_eq by lra. unfold V. lra.
Qed.

(** C225: correspondences whose distances differ by less than the tolerance are linked. *)
Theorem C225_compatible_linked_refuted : exists (src dst : list unit) ds dd l x y,
  float_valued ds /\ float_valued dd /\ buildf (default_problem rsort src ds dst dd) = Ret l /\
  gap ds src 0 1 x /\ gap dd dst 0 1 y /\ (0 < x)%R /\ (Rabs (x - y) < single (1 / 10))%R /\ ~ linked l (0 * Z.of_nat (length dst) + 0) (1 * Z.of_nat (length dst) + 1).
Proof.
  destruct (far_lemma rsort pair2 (const 2097152) pair2 (const 2097152) rsort_conforming) as (l & E & H).
  - intros a b. apply (int_float 2097152). lia.
  - intros a b. apply (int_float 2097152). lia.
  - intros i j x G. apply const_gap_inv in G. rewrite G. lra.
  - exists pair2, pair2, (const 2097152), (const 2097152), l, 2097152%R, 2097152%R.
    split; [intros a b; apply (int_float 2097152); lia|]. split; [intros a b; apply (int_float 2097152); lia|].
    split; [exact E|]. split; [apply const_gap|]. split; [apply const_gap|]. split; [lra|].
    split; [rewrite Rminus_eq_0, Rabs_R0; pose proof tenth_near; lra|]. apply H.
Qed.
Print Assumptions C225_compatible_linked_refuted.

(** They are if the difference stays below the tolerance by the error of one rounding.  Missing: the pairs in the remaining band. *)
Theorem C225_compatible_linked_partial {A B : Type} : forall sort (src : list A) ds (dst : list B) dd t m, conforming sort ->
  exists l, buildf (problem sort src ds dst dd t m) = Ret l /\
    forall s0 d0 s1 d1 x y, gap ds src s0 s1 x -> gap dd dst d0 d1 y -> (m < x)%R ->
      (Rabs (x - y) + powerRZ 2 (-24) * (Rabs x + Rabs t) + powerRZ 2 (-48) < t)%R ->
      linked l (s0 * Z.of_nat (length dst) + d0) (s1 * Z.of_nat (length dst) + d1).
Proof. intros sort src ds dst dd t m Hc. exact (complete_lemma sort src ds dst dd t m Hc). Qed.
Print Assumptions C225_compatible_linked_partial.

Example C225_example : gap (const 3) pair2 0 1 3%R /\ (Rabs (3 - 3) + powerRZ 2 (-24) * (Rabs 3 + Rabs 1) + powerRZ 2 (-48) < 1)%R.
Proof.
  split; [apply const_gap|]. rewrite <- !(Flocq.Core.Raux.bpow_powerRZ Flocq.Core.Zaux.radix2). rewrite Rminus_eq_0, Rabs_R0, !Rabs_pos_eq by lra. cbn. lra.
Qed.

(** C226: with the default tolerance equal distances up to 1600000 are matched, and source distances from 2^21 never match anything. *)
Theorem C226_equal_distances {A B : Type} : forall sort (src : list A) ds (dst : list B) dd, conforming sort ->
  exists l, buildf (default_problem sort src ds dst dd) = Ret l /\
    forall s0 d0 s1 d1 x, gap ds src s0 s1 x -> gap dd dst d0 d1 x -> (0 < x <= 1600000)%R ->
      linked l (s0 * Z.of_nat (length dst) + d0) (s1 * Z.of_nat (length dst) + d1).
Proof. intros sort src ds dst dd Hc. exact (same_lemma sort src ds dst dd Hc). Qed.
Print Assumptions C226_equal_distances.

Theorem C226_large_distances {A B : Type} : forall sort (src : list A) ds (dst : list B) dd, conforming sort -> float_valued ds -> float_valued dd ->
  (forall i j x, gap ds src i j x -> (2097152 <= x)%R) ->
  exists l, buildf (default_problem sort src ds dst dd) = Ret l /\ forall i j, ~ linked l i j.
Proof. intros sort src ds dst dd. exact (far_lemma sort src ds dst dd). Qed.
Print Assumptions C226_large_distances.

Example C226_example : float_valued (const 2097152) /\ (exists x, gap (const 2097152) pair2 0 1 x) /\ (forall i j x, gap (const 2097152) pair2 i j x -> (2097152 <= x)%R) /\
  gap (const 1000) pair2 1 0 1000%R.
Proof.
  split; [intros a b; apply (int_float 2097152); lia|]. split; [exists 2097152%R; apply const_gap|].
  split; [intros i j x G; apply const_gap_inv in G; rewrite G; lra|]. apply AssocProofs.gap_sym, const_gap.
Qed.

(** C227: exchanging the two sets exchanges the two indices of the correspondences and keeps the links. *)
Theorem C227_exchange_refuted : exists (src dst : list unit) ds dd t l l',
  float_valued ds /\ float_valued dd /\ is_float t /\ (forall a b, (0 < ds a b)%R) /\ (forall a b, (0 < dd a b)%R) /\
  buildf (problem rsort src ds dst dd t 0) = Ret l /\ buildf (problem rsort dst dd src ds t 0) = Ret l' /\
  linked l (0 * Z.of_nat (length dst) + 0) (1 * Z.of_nat (length dst) + 1) /\ ~ linked l' (0 * Z.of_nat (length src) + 0) (1 * Z.of_nat (length src) + 1).
Proof.
  destruct (problem_graph rsort pair2 (const 16777216) pair2 (const 16777215) (7 / 4) 0 rsort_conforming) as (l & E & _ & _ & _ & G & _).
  destruct (problem_graph rsort pair2 (const 16777215) pair2 (const 16777216) (7 / 4) 0 rsort_conforming) as (l' & E' & _ & _ & _ & G' & _).
  exists pair2, pair2, (const 16777216), (const 16777215), (7 / 4)%R, l, l'.
  split; [intros a b; apply float_pow24|]. split; [intros a b; apply (int_float 16777215); lia|]. split; [apply float_7_4|].
  split; [intros a b; unfold const; lra|]. split; [intros a b; unfold const; lra|]. split; [exact E|]. split; [exact E'|]. split.
  - apply (G 0 0 1 1); try (cbn; lia). exists 16777216%R, 16777215%R. split; [apply const_gap|]. split; [apply const_gap|]. split; [lra|]. exact back_near.
  - intros L. apply (G' 0 0 1 1) in L; try (cbn; lia). destruct L as (x & y & Gx & Gy & _ & [_ N]). apply const_gap_inv in Gx, Gy. subst x y. rewrite up_round in N. lra.
Qed.
Print Assumptions C227_exchange_refuted.

(** It holds for the correspondences whose distances differ by the tolerance or more, or by less up to the error of one rounding.  Missing: the
    band between. *)
Theorem C227_exchange_partial {A B : Type} : forall sort (src : list A) ds (dst : list B) dd t, conforming sort ->
  float_valued ds -> float_valued dd -> (forall a b, (0 < ds a b)%R) -> (forall a b, (0 < dd a b)%R) ->
  let ns := Z.of_nat (length src) in let nd := Z.of_nat (length dst) in
  exists l l', buildf (problem sort src ds dst dd t 0) = Ret l /\ buildf (problem sort dst dd src ds t 0) = Ret l' /\
    forall s0 d0 s1 d1 x y, gap ds src s0 s1 x -> gap dd dst d0 d1 y ->
      ((t <= Rabs (x - y))%R \/ (Rabs (x - y) + powerRZ 2 (-24) * (Rmax x y + Rabs t) + powerRZ 2 (-48) < t)%R) ->
      (linked l (s0 * nd + d0) (s1 * nd + d1) <-> linked l' (d0 * ns + s0) (d1 * ns + s1)).
Proof. intros sort src ds dst dd t. exact (exchangef_lemma sort src ds dst dd t). Qed.
Print Assumptions C227_exchange_partial.

(** In exact arithmetic it holds for positive distances. *)
Theorem C227_exchange_exact {A B : Type} : forall sort (src : list A) ds (dst : list B) dd t, conforming sort ->
  (forall a b, (0 < ds a b)%R) -> (forall a b, (0 < dd a b)%R) ->
  let ns := Z.of_nat (length src) in let nd := Z.of_nat (length dst) in
  exists l l', build (problem sort src ds dst dd t 0) = Ret l /\ build (problem sort dst dd src ds t 0) = Ret l' /\
    forall s0 d0 s1 d1, 0 <= s0 < ns -> 0 <= d0 < nd -> 0 <= s1 < ns -> 0 <= d1 < nd ->
      (linked l (s0 * nd + d0) (s1 * nd + d1) <-> linked l' (d0 * ns + s0) (d1 * ns + s1)).
Proof. intros sort src ds dst dd t. exact (exchange_lemma sort src ds dst dd t). Qed.
Print Assumptions C227_exchange_exact.

Example C227_example : forall a b, (0 < const 3 a b)%R. Proof. intros a b. unfold const. lra. Qed.
