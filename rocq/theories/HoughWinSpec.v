(** * Windows in bins. *)
From Coq Require Import Reals ZArith.
Open Scope R_scope.
(** [k] bins of width [res] cover [extent] up to the relative error [u] (and [u * u] bins), and no fewer bins do. *)
Definition covers_nearly (u extent res : R) (k : Z) : Prop :=
  (1 - u) * extent <= res * (IZR k + u * u) /\ res * (IZR k - 1 - u * u) < (1 + u) * extent.
