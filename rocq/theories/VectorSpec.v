(** * Vectors entry by entry. *)
From Coq Require Import List.
(** [r] has the length of [v], and entry [i] of [r] is [f i x] for the entry [x] of [v]. *)
Definition entrywise {A} (f : nat -> A -> A) (v r : list A) : Prop :=
  length r = length v /\ forall i x, nth_error v i = Some x -> nth_error r i = Some (f i x).
