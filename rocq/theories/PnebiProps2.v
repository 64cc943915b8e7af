(** * Properties of the PNEBI table and of the orders above 0 (common/src/functions.cpp 138-346). *)
From Coq Require Import Reals Lra Lia List ZArith.
From Verif Require Import Base FunctionsModel PnebiModel PnebiSpec PnebiProofs BesselOrders PnebiTable.
Import ListNotations.
Open Scope R_scope.

(** C159: order 0 decreases with |x| *)
Theorem C159_decreasing_refuted : exists x y, 0 <= x < y /\ evaluatePnebi0Polynom x < evaluatePnebi0Polynom y.
Proof. exact jump_refuted. Qed.
Print Assumptions C159_decreasing_refuted.
Theorem C159_decreasing_partial : forall x y, Rabs x < Rabs y ->
  (Rabs y < 375 / 100 \/ 375 / 100 <= Rabs x -> evaluatePnebi0Polynom y < evaluatePnebi0Polynom x) /\
  evaluatePnebi0Polynom y < evaluatePnebi0Polynom x + 1 / 100000000.
Proof. exact decreasing_branches. Qed.
Print Assumptions C159_decreasing_partial.
Example C159_case : Rabs 1 < Rabs (-2).
Proof. rewrite Rabs_right, Rabs_left by lra. lra. Qed.

(** C160: a table of tolerance tol *)
Theorem C160_tolerance_refuted : exists n tol t x v, init n tol = Ret t /\ (1 <= n)%nat /\ 0 < tol /\ eval t 0 x = Ret v /\ 1 < Rabs (v - evaluatePnebi0Polynom x).
Proof. exact degenerate_refuted. Qed.
Print Assumptions C160_tolerance_refuted.
(** Every tolerance below 2e-6 fails in this way. *)
Theorem C160_small_tolerance : forall n tol t x v, (1 <= n)%nat -> 0 < tol < 2 / 1000000 -> (Z.of_nat (pnebi_start n) < 2 ^ 31)%Z -> init n tol = Ret t ->
  Rabs x <= 10 ^ 100 -> eval t 0 x = Ret v -> 199 / 100 <= v.
Proof. exact degenerate_lookup. Qed.
Print Assumptions C160_small_tolerance.

(** What holds: tolerances from 2e-6, arguments up to the last node. *)
Theorem C160_tolerance_partial : forall n tol t x v, (1 <= n)%nat -> 2 / 1000000 <= tol -> (Z.of_nat (pnebi_start n) < 2 ^ 31)%Z -> init n tol = Ret t ->
  (exists p, In p (nodes t) /\ Rabs x <= fst p) -> eval t 0 x = Ret v -> Rabs (v - evaluatePnebi0Polynom x) <= tol.
Proof. intros n tol t x v H1 H2 H3 H4 H5 H6. pose proof (table_accuracy n tol t x v H1 H2 H3 H4 H5 H6). lra. Qed.
Print Assumptions C160_tolerance_partial.

(** C161: tolerances from 2e-6, up to the last node *)
Theorem C161_accuracy : forall n tol t x v, (1 <= n)%nat -> 2 / 1000000 <= tol -> (Z.of_nat (pnebi_start n) < 2 ^ 31)%Z -> init n tol = Ret t ->
  (exists p, In p (nodes t) /\ Rabs x <= fst p) -> eval t 0 x = Ret v -> Rabs (v - evaluatePnebi0Polynom x) <= tol / 3.
Proof. exact table_accuracy. Qed.
Print Assumptions C161_accuracy.
Example C161_case : exists t v, init 1 1 = Ret t /\ (exists p, In p (nodes t) /\ Rabs (1 / 4) <= fst p) /\ eval t 0 (1 / 4) = Ret v.
Proof. exact table_case. Qed.

(** C162: the other orders, relative to order 0 *)
Theorem C162_orders : forall n x v y k s0 sk, 1 / 1000000 <= Rabs x -> (Z.of_nat (pnebi_start n) < 2 ^ 31)%Z -> evaluatePnebiVector n x v = Ret y -> (1 <= k <= n)%nat ->
  besselI 0 (Rabs x) s0 -> besselI k (Rabs x) sk -> 0 < at_ y 0 /\ 0 < s0 /\
  0 <= (-1) ^ k * (at_ y k / at_ y 0 - sk / s0) <=
    (Rabs x / 2) ^ (2 * pnebi_start n + 2 - k) * INR (fact (k - 1)) / (INR (fact (pnebi_start n)) * INR (fact (S (pnebi_start n)))).
Proof. exact order_ratio. Qed.
Print Assumptions C162_orders.
Example C162_case : exists y s0 s2, evaluatePnebiVector 3 (-2) [] = Ret y /\ besselI 0 (Rabs (-2)) s0 /\ besselI 2 (Rabs (-2)) s2 /\ 1 / 1000000 <= Rabs (-2).
Proof.
  destruct (pnebi_total 3 (-2) [] ltac:(reflexivity)) as (y & E & _). destruct (besselI_exists 0 (Rabs (-2))) as (s0 & B0). destruct (besselI_exists 2 (Rabs (-2))) as (s2 & B2). exists y, s0, s2. rewrite Rabs_left in * by lra. repeat split; auto. lra.
Qed.
