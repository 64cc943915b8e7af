(** * When the windows of the peak finder are intervals of int. *)
From Coq Require Import List ZArith.
From Verif Require Import IntervalChkSpec.
Open Scope Z_scope.

(** The windows of half-size [w] around the cells of the box start, extend and end (one past the last cell) at int values. *)
Definition windows_fit (mn dm w : list Z) : Prop :=
  each3 (fun m d k => fits (m - k) /\ fits (2 * k + 1) /\ fits (m + d + k)) mn dm w.
