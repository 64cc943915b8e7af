(** * Properties of the table lookup in double arithmetic. *)
From Coq Require Import List Reals ZArith Lra Lia.
From Verif Require Import Base PnebiModel PnebiSpec DoubleModel DoubleSpec LutFloatModel LutFloatSpec LutFloatProofs.
Import ListNotations.
Open Scope R_scope.

(** C236 *)
Theorem C236_samples : forall t k x i a, is_table (nodes t) (orderMax t) -> double_table (nodes t) -> (0 <= k < Z.of_nat (orderMax t))%Z ->
  nth_error (nodes t) i = Some a -> Rabs x = fst a \/ (fst a <= Rabs x /\ length (nodes t) = S i) ->
  evalf t k x = Ret (at_ (snd a) (Z.to_nat k)).
Proof. exact nodes_lemma. Qed.
Print Assumptions C236_samples.
Theorem C236_even : forall t k x, evalf t k (- x) = evalf t k x.
Proof. exact even_lemma. Qed.
Print Assumptions C236_even.
Theorem C236_vector : forall t x y0, is_table (nodes t) (orderMax t) -> exists y, evalAllf t x y0 = Ret y /\ length y = Nat.max (length y0) (orderMax t + 1) /\
  (forall k, (k < orderMax t)%nat -> evalf t (Z.of_nat k) x = Ret (at_ y k)) /\ (forall k, (orderMax t < k)%nat -> at_ y k = at_ y0 k) /\
  (double_table (nodes t) -> forall k i a, (k <= orderMax t)%nat -> nth_error (nodes t) i = Some a ->
     (Rabs x = fst a \/ (fst a <= Rabs x /\ length (nodes t) = S i) -> at_ y k = at_ (snd a) k) /\
     (forall b, is_double x -> nth_error (nodes t) (S i) = Some b -> fst a <= Rabs x < fst b ->
        exists V, on_line (fst a) (at_ (snd a) k) (fst b) (at_ (snd b) k) (Rabs x) V /\
          Rabs (at_ y k - V) <= 12 * powerRZ 2 (-53) * size2 (at_ (snd a) k) (at_ (snd b) k) + 4 * powerRZ 2 (-106))).
Proof. exact agree_lemma. Qed.
Print Assumptions C236_vector.
Example C236_case : is_table (nodes flat) (orderMax flat) /\ double_table (nodes flat) /\ (0 <= 0 < Z.of_nat (orderMax flat))%Z /\
  nth_error (nodes flat) 1 = Some (1, [WA; WA]) /\ Rabs (-1) = fst (1, [WA; WA]).
Proof.
  refine (conj flat_table (conj flat_double (conj _ (conj eq_refl _)))); [cbn; lia|]. cbn. rewrite Rabs_left; lra.
Qed.

(** C237: false, the rounded interpolation may leave the interval of its two samples. *)
Theorem C237_between_refuted : exists t k x i a b v, is_table (nodes t) (orderMax t) /\ double_table (nodes t) /\ is_double x /\ (0 <= k < Z.of_nat (orderMax t))%Z /\
  nth_error (nodes t) i = Some a /\ nth_error (nodes t) (S i) = Some b /\ fst a <= Rabs x < fst b /\
  evalf t k x = Ret v /\ at_ (snd a) (Z.to_nat k) < v /\ at_ (snd b) (Z.to_nat k) < v.
Proof. exact outside_lemma. Qed.
Print Assumptions C237_between_refuted.
(** It does so by four units of roundoff at most. *)
Theorem C237_between_partial : forall t k x i a b, is_table (nodes t) (orderMax t) -> double_table (nodes t) -> is_double x -> (0 <= k < Z.of_nat (orderMax t))%Z ->
  nth_error (nodes t) i = Some a -> nth_error (nodes t) (S i) = Some b -> fst a <= Rabs x < fst b ->
  let p := at_ (snd a) (Z.to_nat k) in let q := at_ (snd b) (Z.to_nat k) in let d := 4 * powerRZ 2 (-53) * size2 p q + 4 * powerRZ 2 (-106) in
  exists v, evalf t k x = Ret v /\ Rmin p q - d <= v <= Rmax p q + d.
Proof.
  intros t k x i a b HT HD Dx Hk Ea Eb Hx p q d. destruct (segment_lemma t k x i a b HT HD Dx Hk Ea Eb Hx) as (v & V & E & _ & _ & B). exists v. split; [exact E|exact B].
Qed.
Print Assumptions C237_between_partial.

(** C238 *)
Theorem C238_error : forall t k x i a b, is_table (nodes t) (orderMax t) -> double_table (nodes t) -> is_double x -> (0 <= k < Z.of_nat (orderMax t))%Z ->
  nth_error (nodes t) i = Some a -> nth_error (nodes t) (S i) = Some b -> fst a <= Rabs x < fst b ->
  let p := at_ (snd a) (Z.to_nat k) in let q := at_ (snd b) (Z.to_nat k) in
  exists v V, evalf t k x = Ret v /\ on_line (fst a) p (fst b) q (Rabs x) V /\
    Rabs (v - V) <= 12 * powerRZ 2 (-53) * size2 p q + 4 * powerRZ 2 (-106).
Proof.
  intros t k x i a b HT HD Dx Hk Ea Eb Hx p q. destruct (segment_lemma t k x i a b HT HD Dx Hk Ea Eb Hx) as (v & V & E & O & B & _). exists v, V. auto.
Qed.
Print Assumptions C238_error.
Example C238_case : is_table (nodes flat) (orderMax flat) /\ double_table (nodes flat) /\ is_double (3 / 8) /\ (0 <= 0 < Z.of_nat (orderMax flat))%Z /\
  nth_error (nodes flat) 0 = Some (0, [WA; WA]) /\ nth_error (nodes flat) 1 = Some (1, [WA; WA]) /\ 0 <= Rabs (3 / 8) < 1.
Proof.
  refine (conj flat_table (conj flat_double (conj eighths (conj _ (conj eq_refl (conj eq_refl _)))))); [cbn; lia|]. rewrite Rabs_right; lra.
Qed.
