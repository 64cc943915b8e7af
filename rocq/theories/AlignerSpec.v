(** * Space geometry, said independently. *)
From Coq Require Import List Reals.
Import ListNotations.
Open Scope R_scope.
Notation pt := (R * R * R)%type.
Definition dist2 (p q : pt) : R := let '(a, b, c) := p in let '(d, e, f) := q in Rsqr (a - d) + Rsqr (b - e) + Rsqr (c - f).
(** Six times the signed volume of the tetrahedron p q r s. *)
Definition volume6 (p q r s : pt) : R :=
  let '(p0, p1, p2) := p in let '(q0, q1, q2) := q in let '(r0, r1, r2) := r in let '(s0, s1, s2) := s in
  let a := q0 - p0 in let b := q1 - p1 in let c := q2 - p2 in
  let d := r0 - p0 in let e := r1 - p1 in let f := r2 - p2 in
  let g := s0 - p0 in let h := s1 - p1 in let i := s2 - p2 in
  a * (e * i - f * h) - b * (d * i - f * g) + c * (d * h - e * g).
(** Distances and handedness are kept. *)
Definition rigid3 (f : pt -> pt) : Prop :=
  (forall p q, dist2 (f p) (f q) = dist2 p q) /\ (forall p q r s, volume6 (f p) (f q) (f r) (f s) = volume6 p q r s).
(** Value of the plane's equation at a point. *)
Definition value (c : pt * R) (p : pt) : R := let '(a, b, e, d) := c in let '(x, y, z) := p in a * x + b * y + e * z + d.
Definition normal_norm (c : pt * R) : R := let '(a, b, e, d) := c in sqrt (a * a + b * b + e * e).
Definition on_plane (c : pt * R) (p : pt) : Prop := value c p = 0.
(** Distance of a point from the plane. *)
Definition distance (c : pt * R) (p : pt) : R := Rabs (value c p) / normal_norm c.
Definition height (p : pt) : R := snd p.
Definition times (k : R) (c : pt * R) : pt * R := let '(a, b, e, d) := c in (k * a, k * b, k * e, k * d).
Fixpoint sum3 (l : list pt) : pt :=
  match l with [] => (0, 0, 0) | p :: t => let '(a, b, c) := p in let '(d, e, f) := sum3 t in (a + d, b + e, c + f) end.
(** Mean of a list of points. *)
Definition mean3 (l : list pt) : pt := let '(a, b, c) := sum3 l in let n := INR (length l) in (a / n, b / n, c / n).
(** The equation's value at the point is below [tol] in absolute value. *)
Definition near_raw (c : pt * R) (tol : R) (p : pt) : bool := if Rlt_dec (Rabs (value c p)) tol then true else false.
Definition shift (p v : pt) : pt := let '(a, b, c) := p in let '(d, e, f) := v in (a + d, b + e, c + f).
