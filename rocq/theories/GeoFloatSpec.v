(** * Floats and angles with a margin, said independently. *)
From Coq Require Import Reals ZArith.
Open Scope R_scope.
(** A point of the grid with step 2^[e], at most [n] steps away from the axes. *)
Definition lattice (n e : Z) (p : R * R) : Prop := exists i j : Z, p = (IZR i * powerRZ 2 e, IZR j * powerRZ 2 e) /\ (Z.abs i <= n)%Z /\ (Z.abs j <= n)%Z.
(** A point with coordinates up to [B]. *)
Definition within (B : R) (p : R * R) : Prop := Rabs (fst p) <= B /\ Rabs (snd p) <= B.
(** Turning counterclockwise from [b] by [w] one meets [x], more than [m] after [b] and more than [m] before the end;
    or turning on from the end to [b] one meets it more than [m] away from both. *)
Definition well_inside (m period b w x : R) : Prop := exists k : Z, b + m <= x + IZR k * period <= b + w - m.
Definition well_outside (m period b w x : R) : Prop := exists k : Z, b + w + m <= x + IZR k * period <= b + period - m.
