(** * Series, angles and bounds, said independently. *)
From Coq Require Import List Reals.
Import ListNotations.
Open Scope R_scope.

Fixpoint rsum (f : nat -> R) (m : nat) : R := match m with O => 0 | S k => rsum f k + f k end.
Definition co (c : list R) (i : nat) : R := nth i c 0.

(** sum over i < m of c[2i] cos (i t) + c[2i+1] sin (i t). *)
Definition fourier (c : list R) (m : nat) (t : R) : R :=
  rsum (fun i => co c (2 * i) * cos (INR i * t) + co c (2 * i + 1) * sin (INR i * t)) m.
(** The series of functions.h 247, with double angles. *)
Definition fourier2 (c : list R) (m : nat) (t : R) : R :=
  rsum (fun i => co c (2 * i) * cos (INR (2 * i) * t) + co c (2 * i + 1) * sin (INR (2 * i) * t)) m.

(** Its i-th harmonic. *)
Definition harmonic2 (c : list R) (i : nat) (t : R) : R := co c (2 * i) * cos (INR (2 * i) * t) + co c (2 * i + 1) * sin (INR (2 * i) * t).

Definition between (a b t : R) : Prop := (a <= t <= b) \/ (b <= t <= a).
(** [lo] and [hi] are the extreme values of [f] between a and b. *)
Definition extremes (f : R -> R) (a b lo hi : R) : Prop :=
  (forall t, between a b t -> lo <= f t <= hi) /\ (exists t, between a b t /\ f t = lo) /\ (exists t, between a b t /\ f t = hi).

(** [y] is [x] reduced to [0, period). *)
Definition reduced (period x y : R) : Prop := 0 <= y < period /\ exists k : Z, x = y + IZR k * period.
