(** * Ranges of int, coordinate by coordinate. *)
From Coq Require Import List ZArith.
Import ListNotations.
Open Scope Z_scope.

(** A value of type int. *)
Definition fits (x : Z) : Prop := - 2 ^ 31 <= x < 2 ^ 31.

(** [P] holds of the pairs (or the quadruples) of entries at the same position. *)
Definition each2 (P : Z -> Z -> Prop) (a b : list Z) : Prop :=
  forall k x y, nth_error a k = Some x -> nth_error b k = Some y -> P x y.
Definition each3 (P : Z -> Z -> Z -> Prop) (a b c : list Z) : Prop :=
  forall k x y z, nth_error a k = Some x -> nth_error b k = Some y -> nth_error c k = Some z -> P x y z.
Definition each4 (P : Z -> Z -> Z -> Z -> Prop) (a b c d : list Z) : Prop :=
  forall k x y z t, nth_error a k = Some x -> nth_error b k = Some y -> nth_error c k = Some z -> nth_error d k = Some t -> P x y z t.

(** The ends of both ranges are int values, and the ranges are not so far apart that the (negative) extent of the
    common part is not. *)
Definition meet_fits (m d n e : Z) : Prop := fits (m + d) /\ fits (n + e) /\ - 2 ^ 31 <= Z.min (m + d) (n + e) - 1 - Z.max m n.

(** Going through the coordinates in order, those before some [k] place [x] within the range, and at [k] the end of the range has
    to be computed and is no int value. *)
Definition overflow_decides (mn dm x : list Z) : Prop :=
  exists k m d i, nth_error mn k = Some m /\ nth_error dm k = Some d /\ nth_error x k = Some i /\ m <= i /\ ~ fits (m + d) /\
    forall j m' d' i', (j < k)%nat -> nth_error mn j = Some m' -> nth_error dm j = Some d' -> nth_error x j = Some i' -> m' <= i' < m' + d' /\ fits (m' + d').
