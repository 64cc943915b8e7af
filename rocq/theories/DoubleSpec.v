(** * Doubles, said independently. *)
From Coq Require Import Reals ZArith.
Open Scope R_scope.
(** A finite double: an integer of at most 53 binary digits times a power of two. *)
Definition is_double (x : R) : Prop := exists m e : Z, x = IZR m * powerRZ 2 e /\ (Z.abs m < 2 ^ 53)%Z /\ (-1074 <= e <= 971)%Z.
(** Up to the error [d], [y] is [x] reduced to the period [p]: near the interval from 0 to [p] and near [x] modulo [p]. *)
Definition nearly_reduced (d p x y : R) : Prop := - d <= y <= p + d /\ exists k : Z, Rabs (x - (y + IZR k * p)) <= d.
