(** * Library functions, said independently. *)
From Coq Require Import Reals.
Open Scope R_scope.
(** Accurate within 2^-24, exact at 0 (as C requires): every library in use is. *)
Definition accurate (f g : R -> R) : Prop := (forall x, Rabs (f x - g x) <= / 2 ^ 24) /\ f 0 = g 0.
