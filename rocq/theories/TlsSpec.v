(** * Weighted means and costs of sets of measurements. *)
From Coq Require Import List ZArith QArith Qabs Sorting.Sorted Permutation.
Import ListNotations.
Open Scope Q_scope.

(** A set of measurements is a duplicate-free list of indices. *)
Definition total (f : nat -> Q) (S : list nat) : Q := fold_right (fun i acc => f i + acc) 0 S.

Section Spec.
Variables values ranges : list Q.
Definition val (i : nat) : Q := nth i values 0.
Definition rng (i : nat) : Q := nth i ranges 0.
Definition subset (S : list nat) : Prop := NoDup S /\ forall i, In i S -> (i < length values)%nat.

(** The sets that may be active when the sweep stands at [x]: all intervals containing x in their interior,
    and none not containing x. *)
Definition covering (x : Q) (S : list nat) : Prop := subset S /\
  (forall i, (i < length values)%nat -> Qabs (val i - x) < rng i -> In i S) /\ (forall i, In i S -> Qabs (val i - x) <= rng i).
(** The intervals containing [x], no end point of an interval being equal to x. *)
Definition covers_exactly (x : Q) (S : list nat) : Prop := subset S /\
  (forall i, (i < length values)%nat -> ~ x == val i - rng i /\ ~ x == val i + rng i) /\
  (forall i, (i < length values)%nat -> (In i S <-> Qabs (val i - x) < rng i)).

(** The inverse square of the range, limited to 1e12. *)
Definition wt (i : nat) : Q := if Qlt_le_dec (Qabs (rng i)) (1 # 1000000) then 1000000000000 # 1 else / (rng i * rng i).
Definition wmean (S : list nat) : Q := total (fun i => wt i * val i) S / total wt S.
(** Squared residuals of the members around [h] plus the ranges of the others. *)
Definition cost (S : list nat) (h : Q) : Q :=
  total (fun i => (val i - h) * (val i - h)) S + (total rng (seq 0 (length values)) - total rng S).

Definition positive_ranges : Prop := length ranges = length values /\ (forall i, (i < length values)%nat -> 0 < rng i).
End Spec.

(** What std::sort guarantees: a permutation, ordered by the first components. *)
Definition sorts (sort : list (Q * Z) -> list (Q * Z)) : Prop :=
  forall l, Permutation l (sort l) /\ StronglySorted (fun a b => fst a <= fst b) (sort l).
