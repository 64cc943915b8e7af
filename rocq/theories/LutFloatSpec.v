(** * Tables of doubles. *)
From Coq Require Import List Reals.
From Verif Require Import PnebiSpec DoubleSpec.
Open Scope R_scope.

(** All abscissas and values are doubles. *)
Definition double_table (t : list (R * list R)) : Prop := forall i a, nth_error t i = Some a -> is_double (fst a) /\ Forall is_double (snd a).
(** The larger magnitude. *)
Definition size2 (a b : R) : R := Rmax (Rabs a) (Rabs b).
