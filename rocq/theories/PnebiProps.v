(** * Property theorems for the PNEBI functions and their table (C49-C50, C91-C95). *)
From Coq Require Import List Reals ZArith Lra Lia.
From Verif Require Import Base FunctionsModel FunctionsSpec PnebiModel PnebiSpec PnebiProofs BesselProofs BesselLarge.
Import ListNotations.
Open Scope R_scope.

(** C49 *)
Theorem C49_recurrence : forall n x v, 1 / 1000000 <= Rabs x -> (Z.of_nat (pnebi_start n) < 2 ^ 31)%Z -> exists y w,
  evaluatePnebiVector n x v = Ret y /\ length y = Nat.max (length v) (n + 1) /\
  downward (Rabs x) (pnebi_start n) w /\ w 0%nat = evaluatePnebi0Polynom x /\ (forall k, (k <= pnebi_start n)%nat -> 0 < w k) /\
  (n <= pnebi_start n)%nat /\ forall k, (k <= n)%nat -> at_ y k = w k.
Proof. exact pnebi_large. Qed.
Print Assumptions C49_recurrence.
Example C49_case : 1 / 1000000 <= Rabs (-3) /\ (Z.of_nat (pnebi_start 5) < 2 ^ 31)%Z.
Proof. split; [rewrite Rabs_left; lra|reflexivity]. Qed.
Theorem C49_zero : forall n x v, Rabs x < 1 / 1000000 -> exists y, evaluatePnebiVector n x v = Ret y /\ length y = Nat.max (length v) (n + 1) /\
  at_ y 0 = 2 /\ forall k, (1 <= k)%nat -> at_ y k = 0.
Proof. exact pnebi_small. Qed.
Print Assumptions C49_zero.
Example C49_zero_case : Rabs 0 < 1 / 1000000.
Proof. rewrite Rabs_R0. lra. Qed.

(** C50 *)
Definition demo_lut : lut := {| nodes := [(0, [2; 0; 0]); (1, [1; 1 / 2; 0]); (3, [1 / 2; 1 / 4; 1 / 5])]; orderMax := 2 |}.
Theorem C50_lookup : forall t x y0, is_table (nodes t) (orderMax t) -> exists y, evalAll t x y0 = Ret y /\ length y = Nat.max (length y0) (orderMax t + 1) /\
  (forall k, (k <= orderMax t)%nat -> lookup_of (nodes t) k (Rabs x) (at_ y k)) /\
  (forall k, (orderMax t < k)%nat -> at_ y k = at_ y0 k) /\
  (forall k, (k < orderMax t)%nat -> eval t (Z.of_nat k) x = Ret (at_ y k)).
Proof. exact eval_lemma. Qed.
Print Assumptions C50_lookup.
Example C50_case : is_table (nodes demo_lut) (orderMax demo_lut).
Proof.
  split; [eexists _, _; reflexivity|]. split.
  - intros [|[|[|i]]] a b Ha Hb; cbn in Ha, Hb; try discriminate; injection Ha as <-; injection Hb as <-; cbn; lra.
  - intros [|[|[|i]]] a Ha; cbn in Ha; try (destruct i; discriminate); try discriminate; injection Ha as <-; reflexivity.
Qed.

(** C91 *)
Theorem C91_decreasing_refuted : exists n x y k, (1 <= k <= n)%nat /\ evaluatePnebiVector n x [] = Ret y /\ ~ at_ y k <= at_ y (k - 1).
Proof. destruct pnebi_not_decreasing as (y & E & H). exists 2%nat, 1000, y, 2%nat. split; [lia|]. split; [exact E|]. cbn [Nat.sub]. lra. Qed.
Print Assumptions C91_decreasing_refuted.
Theorem C91_decreasing_partial : forall n x v y k, 1 / 1000000 <= Rabs x -> (Z.of_nat (pnebi_start n) < 2 ^ 31)%Z -> evaluatePnebiVector n x v = Ret y ->
  (1 <= k <= n)%nat -> Rabs x <= 2 * INR k -> 0 < at_ y k <= at_ y (k - 1).
Proof. exact pnebi_decreasing. Qed.
Print Assumptions C91_decreasing_partial.
Example C91_case : exists y, evaluatePnebiVector 3 2 [] = Ret y /\ 1 / 1000000 <= Rabs 2 /\ Rabs 2 <= 2 * INR 1.
Proof. destruct (pnebi_total 3 2 []) as (y & E & _); [reflexivity|]. exists y. split; [exact E|]. rewrite Rabs_right by lra. cbn [INR]. lra. Qed.

(** C92 *)
Theorem C92_order0_accuracy : forall x s, Rabs x < 375 / 100 -> bessel0 x s ->
  Rabs (evaluatePnebi0Polynom x - 2 * exp (- Rabs x) * s) <= 2 * exp (- Rabs x) * (16 / 100000000).
Proof. exact polynom_accuracy. Qed.
Print Assumptions C92_order0_accuracy.
Example C92_case : Rabs 2 < 375 / 100 /\ exists s, bessel0 2 s.
Proof. split; [rewrite Rabs_right; lra|apply bessel_exists]. Qed.
Theorem C92_positive_even : forall x, 0 < evaluatePnebi0Polynom x /\ evaluatePnebi0Polynom (- x) = evaluatePnebi0Polynom x.
Proof. intros x. split; [apply polynom_pos|apply polynom_even]. Qed.
Print Assumptions C92_positive_even.

(** C93 *)
Theorem C93_init : forall n tol, (1 <= n)%nat -> 0 < tol -> (Z.of_nat (pnebi_start n) < 2 ^ 31)%Z -> (ceilZ (2 / tol) + 20 < 2 ^ 31)%Z ->
  exists t, init n tol = Ret t /\ orderMax t = n /\ is_table (nodes t) n /\ Z.of_nat (length (nodes t)) = (ceilZ (2 / tol) + 20)%Z /\
    Forall (fun p => evaluatePnebiVector n (fst p) [] = Ret (snd p)) (nodes t).
Proof. exact init_lemma. Qed.
Print Assumptions C93_init.
Example C93_case : (1 <= 3)%nat /\ 0 < 1 / 2 /\ (Z.of_nat (pnebi_start 3) < 2 ^ 31)%Z /\ (ceilZ (2 / (1 / 2)) + 20 < 2 ^ 31)%Z.
Proof.
  split; [lia|]. split; [lra|]. split; [reflexivity|]. replace (2 / (1 / 2)) with 4 by lra. unfold ceilZ. pose proof (base_Int_part (- (4))) as [_ B]. assert (IZR (-6) < IZR (Int_part (- (4)))) by lra. apply lt_IZR in H. lia.
Qed.

(** C94: order 0 *)
Theorem C94_init_defined_refuted : exists tol, 0 < tol /\ init 0 tol = UB.
Proof. exact init_zero_refuted. Qed.
Print Assumptions C94_init_defined_refuted.
Theorem C94_init_defined_partial : forall n tol, (1 <= n)%nat -> 0 < tol -> (Z.of_nat (pnebi_start n) < 2 ^ 31)%Z -> (ceilZ (2 / tol) + 20 < 2 ^ 31)%Z ->
  exists t, init n tol = Ret t.
Proof. intros n tol H1 H2 H3 H4. destruct (init_lemma n tol H1 H2 H3 H4) as (t & E & _). eauto. Qed.
Print Assumptions C94_init_defined_partial.

(** C95: the last order *)
Theorem C95_orders_refuted : exists n tol t, init n tol = Ret t /\ forall x, eval t (Z.of_nat n) x = Exit.
Proof. exact last_order_refuted. Qed.
Print Assumptions C95_orders_refuted.
Theorem C95_orders_partial : forall t k x, is_table (nodes t) (orderMax t) ->
  ((0 <= k < Z.of_nat (orderMax t))%Z -> exists v, eval t k x = Ret v /\ lookup_of (nodes t) (Z.to_nat k) (Rabs x) v) /\
  ((k < 0 \/ Z.of_nat (orderMax t) <= k)%Z -> eval t k x = Exit).
Proof. exact orders_lemma. Qed.
Print Assumptions C95_orders_partial.

(** C158: order 0 for large arguments *)
Theorem C158_order0_large : forall x s, 375 / 100 <= Rabs x -> bessel0 x s ->
  Rabs (evaluatePnebi0Polynom x - 2 * exp (- Rabs x) * s) <= 2 / sqrt (Rabs x) * (2 / 10000000).
Proof. exact large_accuracy. Qed.
Print Assumptions C158_order0_large.
Example C158_case : 375 / 100 <= Rabs (-10) /\ exists s, bessel0 (-10) s.
Proof. split; [rewrite Rabs_left; lra|apply bessel_exists]. Qed.
