(** * The recurrence and the interpolation, said independently. *)
From Coq Require Import List Reals.
From Verif Require Import FunctionsSpec.
Import ListNotations.
Open Scope R_scope.

(** The i-th element. *)
Definition at_ (y : list R) (i : nat) : R := nth i y 0.

(** Downward recurrence for the orders 1..m, ended by 0 at m + 1. *)
Definition downward (x : R) (m : nat) (w : nat -> R) : Prop :=
  w (S m) = 0 /\ forall k, (1 <= k <= m)%nat -> w (k - 1)%nat = w (k + 1)%nat + 2 * INR k / x * w k.

(** The point (x, v) is on the line through (x0, y0) and (x1, y1). *)
Definition on_line (x0 y0 x1 y1 x v : R) : Prop := (v - y0) * (x1 - x0) = (y1 - y0) * (x - x0).

(** A table: abscissas strictly increasing from 0, one row of n + 1 values for each. *)
Definition is_table (t : list (R * list R)) (n : nat) : Prop :=
  (exists y r, t = (0, y) :: r) /\
  (forall i a b, nth_error t i = Some a -> nth_error t (S i) = Some b -> fst a < fst b) /\
  (forall i a, nth_error t i = Some a -> length (snd a) = S n).

(** The value v of order k found in the table at X: on the segment between the neighbouring nodes, the node's value at a node, the
    last value past the last node. *)
Definition lookup_of (t : list (R * list R)) (k : nat) (X v : R) : Prop :=
  (forall i a b, nth_error t i = Some a -> nth_error t (S i) = Some b -> fst a <= X <= fst b ->
     on_line (fst a) (at_ (snd a) k) (fst b) (at_ (snd b) k) X v /\ between (at_ (snd a) k) (at_ (snd b) k) v) /\
  (forall i a, nth_error t i = Some a -> X = fst a -> v = at_ (snd a) k) /\
  (forall i a, nth_error t i = Some a -> length t = S i -> fst a <= X -> v = at_ (snd a) k).

(** The modified Bessel function of the first kind of order 0: the sum of its power series. *)
Definition bessel0 (x s : R) : Prop := infinite_sum (fun m => (x * x / 4) ^ m / (INR (fact m) * INR (fact m))) s.
(** The one of order k. *)
Definition besselI (k : nat) (x s : R) : Prop := infinite_sum (fun m => (x / 2) ^ (2 * m + k) / (INR (fact m) * INR (fact (m + k)))) s.
