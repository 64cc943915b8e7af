(** * Broken-down times: ranges of the fields (C11 7.27.1, years of four digits) and their order. *)
From Coq Require Import NArith.
From Verif Require Import StampModel.
Open Scope N_scope.

Definition valid (t : tm) : Prop :=
  1000 <= year t <= 9999 /\ 1 <= mon t <= 12 /\ 1 <= mday t <= 31 /\ hour t <= 23 /\ min t <= 59 /\ sec t <= 60.
(** [a] is on an earlier day, or on the same day at an earlier time. *)
Definition earlier_day (a b : tm) : Prop := year a < year b \/ year a = year b /\ (mon a < mon b \/ mon a = mon b /\ mday a < mday b).
Definition same_day (a b : tm) : Prop := year a = year b /\ mon a = mon b /\ mday a = mday b.
Definition earlier (a b : tm) : Prop :=
  earlier_day a b \/ same_day a b /\ (hour a < hour b \/ hour a = hour b /\ (min a < min b \/ min a = min b /\ sec a < sec b)).
