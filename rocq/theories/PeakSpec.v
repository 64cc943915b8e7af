(** * What a peak is. *)
From Coq Require Import List ZArith.
Import ListNotations.
Open Scope Z_scope.

Section Peak.
Context {V : Type}.
Variable comp : V -> V -> bool.
Variable val : list Z -> V.

(** Cell [x] is strictly better than cell [y]. *)
Definition better (x y : list Z) : Prop := comp (val x) (val y) = true.
(** The threshold filter lets the cell through. *)
Definition passes (filterMin : option V) (x : list Z) : Prop :=
  match filterMin with None => True | Some m => comp (val x) m = true end.
(** Any two cells of [a, a+n) have different values. *)
Definition distinct_values (a n : Z) : Prop :=
  forall i j, a <= i < a + n -> a <= j < a + n -> i <> j -> better [i] [j] \/ better [j] [i].
(** Cell [j] is strictly better than every other cell of its window. *)
Definition window_best (a n w j : Z) : Prop :=
  forall i, a <= i < a + n -> Z.abs (i - j) <= w -> i <> j -> better [j] [i].

(** Neither cell is better. *)
Definition level (x y : list Z) : Prop := comp (val x) (val y) = false /\ comp (val y) (val x) = false.
(** Only the worst value of [a, a+n) may occur in three cells or more. *)
Definition rare_ties (a n : Z) : Prop :=
  forall i j k, a <= i < a + n -> a <= j < a + n -> a <= k < a + n -> i <> j -> j <> k -> i <> k -> level [i] [j] -> level [j] [k] ->
  forall l, a <= l < a + n -> ~ better [i] [l].
(** No cell of the window of [j] is better. *)
Definition window_max (a n w j : Z) : Prop := forall i, a <= i < a + n -> Z.abs (i - j) <= w -> ~ better [i] [j].

(** The same in any dimension: [x] is strictly better than every other cell of the box within [w] of it. *)
Definition near (w x y : list Z) : Prop := Forall2 (fun wk d => Z.abs d <= wk) w (map (fun p => fst p - snd p) (combine x y)).
Definition window_best_nd (inbox : list Z -> Prop) (w x : list Z) : Prop :=
  forall y, inbox y -> near w x y -> y <> x -> better x y.
End Peak.
