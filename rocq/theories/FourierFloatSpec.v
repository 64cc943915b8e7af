(** * Sizes of the terms of a Fourier series. *)
From Coq Require Import Reals List.
Import ListNotations.
Open Scope R_scope.

(** The sum of the magnitudes. *)
Fixpoint sum_abs (l : list R) : R := match l with [] => 0 | a :: r => Rabs a + sum_abs r end.
