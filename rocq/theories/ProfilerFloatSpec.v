(** * Samples of the profiler. *)
From Coq Require Import Reals ZArith List.
From Verif Require Import DoubleSpec.
Open Scope R_scope.

(** A measured time: a double from 0 to 2^1000. *)
Definition is_time (t : R) : Prop := is_double t /\ 0 <= t <= powerRZ 2 1000.
(** The least and the greatest of a list. *)
Definition least (l : list R) (a : R) : Prop := In a l /\ forall x, In x l -> a <= x.
Definition greatest (l : list R) (a : R) : Prop := In a l /\ forall x, In x l -> x <= a.
