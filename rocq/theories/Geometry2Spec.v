(** * Plane geometry, said independently. *)
From Coq Require Import Reals.
Open Scope R_scope.

Definition point : Type := R * R.
Definition vsub (a b : point) : point := (fst a - fst b, snd a - snd b).
Definition vadd (a b : point) : point := (fst a + fst b, snd a + snd b).
Definition vscale (r : R) (a : point) : point := (r * fst a, r * snd a).
Definition sqdist (a b : point) : R := Rsqr (fst a - fst b) + Rsqr (snd a - snd b).
(** Counterclockwise rotation by [phi]. *)
Definition rot (phi : R) (a : point) : point := (cos phi * fst a - sin phi * snd a, sin phi * fst a + cos phi * snd a).

(** Going from [a] to [b], [c] is on the left: turn a-b counterclockwise by less than half a turn and stretch it to get a-c. *)
Definition left_turn (a b c : point) : Prop :=
  a <> b /\ exists r phi, 0 < r /\ 0 < phi < PI /\ vsub c a = vscale r (rot phi (vsub b a)).

(** Shoelace formula. *)
Definition signed_area (a b c : point) : R :=
  ((fst a * snd b - fst b * snd a) + (fst b * snd c - fst c * snd b) + (fst c * snd a - fst a * snd c)) / 2.

(** A motion of the plane keeping distances and orientation. *)
Definition rigid (f : point -> point) : Prop :=
  (forall a b, sqdist (f a) (f b) = sqdist a b) /\ (forall a b c, signed_area (f a) (f b) (f c) = signed_area a b c).

(** Turning counterclockwise from [b] by [w], 0 <= w < period, one reaches [e]; [x] is met on the way:
    [b] included, [e] excluded or included. *)
Definition arc_width (period b e w : R) : Prop := 0 <= w < period /\ exists j : Z, e = b + w + IZR j * period.
Definition on_arc (period b w x : R) : Prop := exists k : Z, b <= x + IZR k * period < b + w.
Definition on_arc_closed (period b w x : R) : Prop := exists k : Z, b <= x + IZR k * period <= b + w.

(** Turning the vector [b] counterclockwise by [a] and stretching it gives [p]. *)
Definition at_turn (b : point) (a : R) (p : point) : Prop := 0 <= a < 2 * PI /\ exists r, 0 < r /\ p = vscale r (rot a b).
