(** * Boxes, said independently. *)
From Coq Require Import List Reals Permutation Arith.
Import ListNotations.
Open Scope R_scope.
(** Squared Euclidean distance. *)
Fixpoint sqd (a b : list R) : R := match a, b with x :: s, y :: t => (x - y) * (x - y) + sqd s t | _, _ => 0 end.
(** Points of the box centred at the origin with the given sides, and of its surface. *)
Definition in_box (dims p : list R) : Prop := length p = length dims /\ forall i, (i < length dims)%nat -> - (nth i dims 0 / 2) <= nth i p 0 <= nth i dims 0 / 2.
Definition on_surface (dims p : list R) : Prop :=
  in_box dims p /\ exists i, (i < length dims)%nat /\ (nth i p 0 = - (nth i dims 0 / 2) \/ nth i p 0 = nth i dims 0 / 2).
(** A conforming sort of the indices by side. *)
Definition sorts_indices (sorter : list R -> list nat) : Prop := forall dims,
  Permutation (sorter dims) (seq 0 (length dims)) /\
  forall i j, (i < j < length dims)%nat -> nth (nth i (sorter dims) 0%nat) dims 0 <= nth (nth j (sorter dims) 0%nat) dims 0.

(** Plane and space: points, matrices by rows, rigid motions. *)
Definition sq2 (a b : R * R) : R := (fst a - fst b) * (fst a - fst b) + (snd a - snd b) * (snd a - snd b).
Definition sq3 (a b : R * R * R) : R := let '(x, y, z) := a in let '(u, v, w) := b in (x - u) * (x - u) + (y - v) * (y - v) + (z - w) * (z - w).
Definition act2 (t : ((R * R) * (R * R)) * (R * R)) (p : R * R) : R * R :=
  let '(((a, b), (c, d)), (e, f)) := t in let '(x, y) := p in (a * x + b * y + e, c * x + d * y + f).
Definition act3 (t : ((R * R * R) * (R * R * R) * (R * R * R)) * (R * R * R)) (p : R * R * R) : R * R * R :=
  let '(((a, b, c), (d, e, f), (g, h, i)), (u, v, w)) := t in let '(x, y, z) := p in
  (a * x + b * y + c * z + u, d * x + e * y + f * z + v, g * x + h * y + i * z + w).
Definition orthogonal2 (m : (R * R) * (R * R)) : Prop := let '((a, b), (c, d)) := m in
  a * a + b * b = 1 /\ c * c + d * d = 1 /\ a * c + b * d = 0.
Definition orthogonal3 (m : (R * R * R) * (R * R * R) * (R * R * R)) : Prop := let '((a, b, c), (d, e, f), (g, h, i)) := m in
  a * a + b * b + c * c = 1 /\ d * d + e * e + f * f = 1 /\ g * g + h * h + i * i = 1 /\
  a * d + b * e + c * f = 0 /\ a * g + b * h + c * i = 0 /\ d * g + e * h + f * i = 0.
Definition rotation2 (m : (R * R) * (R * R)) : Prop := orthogonal2 m /\ let '((a, b), (c, d)) := m in a * d - b * c = 1.
Definition rotation3 (m : (R * R * R) * (R * R * R) * (R * R * R)) : Prop := orthogonal3 m /\
  let '((a, b, c), (d, e, f), (g, h, i)) := m in a * (e * i - f * h) - b * (d * i - f * g) + c * (d * h - e * g) = 1.
Definition l2 (p : R * R) : list R := [fst p; snd p].
Definition l3 (p : R * R * R) : list R := [fst (fst p); snd (fst p); snd p].
(** [m] is a point of the surface nearest to [q]. *)
Definition nearest (dims q m : list R) : Prop := on_surface dims m /\ forall s, on_surface dims s -> sqd m q <= sqd s q.
(** [l] matches every point of the cloud to a nearest surface point of the box moved by [t]. *)
Definition matched2 (dims : R * R) t (cloud : list (R * R)) (l : list ((R * R) * (R * R))) : Prop :=
  map snd l = cloud /\ Forall (fun mc => exists q, act2 t q = snd mc /\ nearest (l2 dims) (l2 q) (l2 (fst mc))) l.
Definition matched3 (dims : R * R * R) t (cloud : list (R * R * R)) (l : list ((R * R * R) * (R * R * R))) : Prop :=
  map snd l = cloud /\ Forall (fun mc => exists q, act3 t q = snd mc /\ nearest (l3 dims) (l3 q) (l3 (fst mc))) l.
(** Sum of the squared distances of matched points when the box is moved by [t]. *)
Fixpoint cost2 t (l : list ((R * R) * (R * R))) : R := match l with [] => 0 | (m, c) :: r => sq2 c (act2 t m) + cost2 t r end.
Fixpoint cost3 t (l : list ((R * R * R) * (R * R * R))) : R := match l with [] => 0 | (m, c) :: r => sq3 c (act3 t m) + cost3 t r end.
(** Sum of the squared distances of the cloud to the surface of the box moved by the rigid motion [t]. *)
Definition error2 (dims : R * R) t (cloud : list (R * R)) (e : R) : Prop := exists l, matched2 dims t cloud l /\ e = cost2 t l.
Definition error3 (dims : R * R * R) t (cloud : list (R * R * R)) (e : R) : Prop := exists l, matched3 dims t cloud l /\ e = cost3 t l.
(** Sums of coordinates. *)
Fixpoint total2 (l : list (R * R)) : R * R := match l with [] => (0, 0) | (x, y) :: r => let '(u, v) := total2 r in (x + u, y + v) end.
Fixpoint total3 (l : list (R * R * R)) : R * R * R := match l with [] => (0, 0, 0) | (x, y, z) :: r => let '(u, v, w) := total3 r in (x + u, y + v, z + w) end.
Definition centroid2 (l : list (R * R)) : R * R := let '(u, v) := total2 l in (u / INR (length l), v / INR (length l)).
Definition centroid3 (l : list (R * R * R)) : R * R * R := let '(u, v, w) := total3 l in (u / INR (length l), v / INR (length l), w / INR (length l)).
(** What a singular value decomposition S = U diag(s) V' is. *)
Definition svd2_ok (S U : (R * R) * (R * R)) (s : R * R) (V : (R * R) * (R * R)) : Prop :=
  orthogonal2 U /\ orthogonal2 V /\ 0 <= snd s <= fst s /\
  let '((a, b), (c, d)) := U in let '((e, f), (g, h)) := V in let '(p, q) := s in
  S = ((p * a * e + q * b * f, p * a * g + q * b * h), (p * c * e + q * d * f, p * c * g + q * d * h)).
Definition svd3_ok (S U : (R * R * R) * (R * R * R) * (R * R * R)) (s : R * R * R) (V : (R * R * R) * (R * R * R) * (R * R * R)) : Prop :=
  orthogonal3 U /\ orthogonal3 V /\ (let '(p, q, r) := s in 0 <= r /\ r <= q /\ q <= p) /\
  let '((a, b, c), (d, e, f), (g, h, i)) := U in let '((j, k, l), (m, n, o), (t, u, v)) := V in let '(p, q, r) := s in
  S = ((p * a * j + q * b * k + r * c * l, p * a * m + q * b * n + r * c * o, p * a * t + q * b * u + r * c * v),
       (p * d * j + q * e * k + r * f * l, p * d * m + q * e * n + r * f * o, p * d * t + q * e * u + r * f * v),
       (p * g * j + q * h * k + r * i * l, p * g * m + q * h * n + r * i * o, p * g * t + q * h * u + r * i * v)).
Definition conforming2 (svd : (R * R) * (R * R) -> ((R * R) * (R * R)) * (R * R) * ((R * R) * (R * R))) : Prop :=
  forall S, let '(U, s, V) := svd S in svd2_ok S U s V.
Definition conforming3 (svd : (R * R * R) * (R * R * R) * (R * R * R) -> ((R * R * R) * (R * R * R) * (R * R * R)) * (R * R * R) * ((R * R * R) * (R * R * R) * (R * R * R))) : Prop :=
  forall S, let '(U, s, V) := svd S in svd3_ok S U s V.
(** Cross covariance (not normalised) of the matched points, and its determinant. *)
Fixpoint sum_over {A} (f : A -> R) (l : list A) : R := match l with [] => 0 | p :: t => f p + sum_over f t end.
Definition spread (f g : R * R * R -> R) (l : list ((R * R * R) * (R * R * R))) : R :=
  sum_over (fun mc => (f (fst mc) - f (centroid3 (map fst l))) * (g (snd mc) - g (centroid3 (map snd l)))) l.
Definition co (i : nat) (p : R * R * R) : R := match i with 0%nat => fst (fst p) | 1%nat => snd (fst p) | _ => snd p end.
Definition spread_det l : R :=
  let s i j := spread (co i) (co j) l in
  s 0%nat 0%nat * (s 1%nat 1%nat * s 2%nat 2%nat - s 1%nat 2%nat * s 2%nat 1%nat)
  - s 0%nat 1%nat * (s 1%nat 0%nat * s 2%nat 2%nat - s 1%nat 2%nat * s 2%nat 0%nat)
  + s 0%nat 2%nat * (s 1%nat 0%nat * s 2%nat 1%nat - s 1%nat 1%nat * s 2%nat 0%nat).
