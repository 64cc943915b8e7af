(** * What the Hough detectors should do, independently of the model's loops. *)
From Coq Require Import List ZArith Bool Reals Permutation Sorting.Sorted.
From Verif Require Import Base IntervalModel IntervalSpec HoughModel.
Import ListNotations.
Open Scope Z_scope.

(** Sizes for which every cell number is an int. *)
Definition sizes_ok (nt np nr : Z) : Prop := 0 <= nt /\ 0 <= np /\ 0 <= nr /\ nt * np < 2 ^ 31 /\ nt * np * nr < 2 ^ 31.

(** Plane detectors reachable through the public interface. *)
Inductive preach : plane -> Prop :=
| preach_new : preach plane_new
| preach_init d nt np nr mn res d' : preach d -> sizes_ok nt np nr -> plane_init d nt np nr mn res = Ret d' -> preach d'
| preach_window d a b c : preach d -> preach (plane_setWindow d a b c)
| preach_zero d : preach d -> preach (plane_setZero d)
| preach_insert d pts d' : preach d -> plane_insert d pts = Ret d' -> preach d'.

(** A direction and a cell of the accumulator. *)
Definition dir_in (d : plane) (it ip : Z) : Prop := 0 <= it < tnum d /\ 0 <= ip < pnum d.
Definition cell_in (d : plane) (it ip ir : Z) : Prop := dir_in d it ip /\ 0 <= ir < rnum d.

(** The direction with the documented formula x cos theta cos phi + y cos theta sin phi + z sin theta. *)
Definition direction (theta phi : R) : vec3 := (cos theta * cos phi, cos theta * sin phi, sin theta)%R.
Definition dir_of (d : plane) (it ip : Z) : vec3 :=
  direction (tmin d + tres d * IZR it) (pmin d + pres d * IZR ip).
Definition unit3 (v : vec3) : Prop := let '(x, y, z) := v in (x * x + y * y + z * z = 1)%R.

(** Signed distance of a point along a direction, in bins from the first one. *)
Definition offset (d : plane) (it ip : Z) (p : vec3) : R :=
  let '(a, b, c) := dir_of d it ip in let '(x, y, z) := p in ((a * x + b * y + c * z - rmin d) / rres d)%R.

(** The bin [ir] contains the offset. *)
Definition in_bin (x : R) (ir : Z) : Prop := (IZR ir <= x < IZR ir + 1)%R.
(** What the code takes as bin [ir]: the first bin also takes the offsets of the bin below it. *)
Definition code_bin (x : R) (ir : Z) : Prop := (ir = 0 /\ (-1 < x < 1)%R) \/ (0 < ir /\ in_bin x ir).

(** Number of elements with a property. *)
Inductive counts {A} (P : A -> Prop) : list A -> Z -> Prop :=
| counts_nil : counts P [] 0
| counts_yes a l n : P a -> counts P l n -> counts P (a :: l) (n + 1)
| counts_no a l n : ~ P a -> counts P l n -> counts P (a :: l) n.

(** Every offset of a point is a number whose integer part is an int. *)
Definition offsets_fit (d : plane) (pts : list vec3) : Prop :=
  forall it ip p, dir_in d it ip -> In p pts -> rres d <> 0%R /\ (- 2147483649 < offset d it ip p < 2147483648)%R.

Fixpoint sum_upto (n : nat) (f : Z -> Z) : Z := match n with O => 0 | S k => sum_upto k f + f (Z.of_nat k) end.

(** Same configuration (everything but the counters). *)
Definition same_config (d d' : plane) : Prop :=
  (tnum d, pnum d, rnum d) = (tnum d', pnum d', rnum d') /\
  (tmin d, pmin d, rmin d) = (tmin d', pmin d', rmin d') /\ (tres d, pres d, rres d) = (tres d', pres d', rres d') /\
  (twin d, pwin d, rwin d) = (twin d', pwin d', rwin d').

(** Votes of a cell given by its indices. *)
Definition ht_at (d : plane) (ix : list Z) : outcome Z := match ix with [a; b; c] => getHT d a b c | _ => UB end.

(** At least one bin in each direction; windows of non-negative size. *)
Definition positive (d : plane) : Prop := 0 < tnum d /\ 0 < pnum d /\ 0 < rnum d.
Definition windows_ok (d : plane) : Prop := 0 <= twin d /\ 0 <= pwin d /\ 0 <= rwin d.

(** A sorting function: the outcome of std::sort for "more votes first". *)
Definition sorts_by_votes (d : plane) (sort : list (list Z) -> list (list Z)) : Prop :=
  forall l, Permutation (sort l) l /\ StronglySorted (fun a b => forall va vb, grid_get (ht d) a = Ret va -> grid_get (ht d) b = Ret vb -> vb <= va) (sort l).

(** Line detectors reachable through the public interface. *)
Inductive lreach : line -> Prop :=
| lreach_new : lreach line_new
| lreach_init d nt nr mn res : lreach d -> 0 <= nt < 2 ^ 31 -> 0 <= nr -> nt * nr < 2 ^ 31 -> lreach (line_init d nt nr mn res)
| lreach_window d a b : lreach d -> lreach (line_setWindow d a b)
| lreach_zero d : lreach d -> lreach (line_setZero d)
| lreach_insert d pts : lreach d -> lreach (line_insert d pts).

(** The direction whose spectrum is strictly the largest, and the bin of a direction with strictly the most votes. *)
Definition best_dir (d : plane) (bt bp : Z) : Prop :=
  dir_in d bt bp /\ forall it ip u v, dir_in d it ip -> (it, ip) <> (bt, bp) -> getHS d it ip = Ret u -> getHS d bt bp = Ret v -> u < v.
Definition best_bin (d : plane) (it ip br : Z) : Prop :=
  0 <= br < rnum d /\ forall ir u v, 0 <= ir < rnum d -> ir <> br -> getHT d it ip ir = Ret u -> getHT d it ip br = Ret v -> u < v.
(** Some other direction lies in the window of this one. *)
Definition dir_neighbour (d : plane) (bt bp : Z) : Prop :=
  exists it ip, dir_in d it ip /\ (it, ip) <> (bt, bp) /\ Z.abs (it - bt) <= twin d /\ Z.abs (ip - bp) <= pwin d.

(** Along a direction, only the lowest number of votes may occur in three bins or more. *)
Definition few_ties (d : plane) (it ip : Z) : Prop :=
  forall i j k v, 0 <= i < rnum d -> 0 <= j < rnum d -> 0 <= k < rnum d -> i <> j -> j <> k -> i <> k ->
  getHT d it ip i = Ret v -> getHT d it ip j = Ret v -> getHT d it ip k = Ret v ->
  forall l u, 0 <= l < rnum d -> getHT d it ip l = Ret u -> v <= u.
