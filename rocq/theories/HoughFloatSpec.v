(** * Accuracy of the Hough transform on floats, said independently. *)
From Coq Require Import Reals.
Open Scope R_scope.

(** All coordinates up to B. *)
Definition within3 (B : R) (p : R * R * R) : Prop := let '(x, y, z) := p in Rabs x <= B /\ Rabs y <= B /\ Rabs z <= B.
(** Coordinate-wise closeness. *)
Definition close3 (e : R) (p q : R * R * R) : Prop :=
  let '(x, y, z) := p in let '(x', y', z') := q in Rabs (x - x') <= e /\ Rabs (y - y') <= e /\ Rabs (z - z') <= e.
(** The signed distance of a point along a direction, in bins from the first one. *)
Definition place (n p : R * R * R) (rhoMin rhoRes : R) : R :=
  let '(a, b, c) := n in let '(x, y, z) := p in (a * x + b * y + c * z - rhoMin) / rhoRes.
(** The rounding errors, in bins, for points up to B and a first bin up to M: 2^-19 of the lengths involved, and 2^-44 for underflow. *)
Definition blur (B M rhoRes : R) : R := ((B + M) / 2 ^ 19 + (1 + rhoRes) / 2 ^ 44) / rhoRes.
