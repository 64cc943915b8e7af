(** * The ellipsoid, said independently. *)
From Coq Require Import Reals.
Open Scope R_scope.
Definition p3 : Type := R * R * R.
Definition add3 (p q : p3) : p3 := let '(a, b, c) := p in let '(d, e, f) := q in (a + d, b + e, c + f).
Definition scale3 (r : R) (p : p3) : p3 := let '(a, b, c) := p in (r * a, r * b, r * c).
Definition sqnorm3 (p : p3) : R := let '(a, b, c) := p in a * a + b * b + c * c.
(** Rotation about the polar axis by [d] degrees. *)
Definition spin (d : R) (p : p3) : p3 :=
  let '(a, b, c) := p in let t := d / 180 * PI in (cos t * a - sin t * b, sin t * a + cos t * b, c).
(** Upward direction at the given latitude and longitude in degrees. *)
Definition up (lat lon : R) : p3 :=
  let u := lat / 180 * PI in let v := lon / 180 * PI in (cos u * cos v, cos u * sin v, sin u).
(** Left side of the equation of the ellipsoid with the semi-axes [a], [a], [b]; it is 1 on the surface. *)
Definition ellipsoid (a b : R) (p : p3) : R := let '(x, y, z) := p in (x * x + y * y) / (a * a) + z * z / (b * b).
(** WGS84: semi-major axis, square of the eccentricity, and the point of the surface at the given degrees. *)
Definition wgs84_a : R := 6378137.
Definition wgs84_e2 : R := 669437999014 / 100000000000000.
Definition wgs84 (lat lon : R) : p3 :=
  let u := lat / 180 * PI in let v := lon / 180 * PI in
  let N := wgs84_a / sqrt (1 - wgs84_e2 * (sin u * sin u)) in
  (N * cos u * cos v, N * cos u * sin v, (1 - wgs84_e2) * N * sin u).
(** The point [f t] moves at the speed [v] when [t] passes [x]: metres per degree when [t] is in degrees. *)
Definition is_speed (f : R -> p3) (x v : R) : Prop :=
  exists a b c, derivable_pt_lim (fun t => fst (fst (f t))) x a /\ derivable_pt_lim (fun t => snd (fst (f t))) x b /\
    derivable_pt_lim (fun t => snd (f t)) x c /\ v = sqrt (sqnorm3 (a, b, c)).
