(** * When the peak windows of a Hough detector stay within int. *)
From Coq Require Import ZArith.
From Verif Require Import HoughModel.
Open Scope Z_scope.

(** An axis of [n] cells and a window of [w] cells on either side: the window has an int extent, and the window around the last cell
    ends (one past its last cell) at an int. *)
Definition axis_fits (n w : Z) : Prop := 2 * w + 1 < 2 ^ 31 /\ n + w < 2 ^ 31.
Definition dirs_fit (d : plane) : Prop := axis_fits (tnum d) (twin d) /\ axis_fits (pnum d) (pwin d).
Definition bins_fit (d : plane) : Prop := axis_fits (rnum d) (rwin d).
