(** * Properties of the functions on float, and of angles turned back into directions. *)
From Coq Require Import Reals Lra.
From Verif Require Import DoubleModel SingleModel SingleProofs.
Open Scope R_scope.

(** C174: fastAtanf on -1..1 and fastAtan2f everywhere but at the origin are within 20/1000000 radians of the angle, with every operation
    rounded; fastAtan2f has the sign of the ordinate. *)
Theorem C174_atanf : forall x, -1 <= x <= 1 -> Rabs (fastAtanf x - atan x) <= 20 / 1000000.
Proof. intros x H. apply Rle_trans with (19 / 1000000); [exact (fastAtanf_error x H)|lra]. Qed.
Print Assumptions C174_atanf.
Theorem C174_atan2f : forall x y, x <> 0 \/ y <> 0 -> exists p, - PI < p <= PI /\
  x = sqrt (x * x + y * y) * cos p /\ y = sqrt (x * x + y * y) * sin p /\ Rabs (fastAtan2f x y - p) <= 20 / 1000000.
Proof. exact fastAtan2f_polar. Qed.
Print Assumptions C174_atan2f.
Theorem C174_sign : forall x y, x <> 0 \/ y <> 0 -> (0 <= y -> 0 <= fastAtan2f x y) /\ (y < 0 -> fastAtan2f x y <= 0).
Proof. intros x y N. exact (proj2 (fastAtan2f_range x y N)). Qed.
Print Assumptions C174_sign.
Example C174_points : -1 <= -1 / 2 <= 1 /\ (0 <> 0 \/ -3 <> 0). Proof. split; [lra|right; lra]. Qed.

(** C175: fastAtan2f is between -M_PI and M_PI. False: the angle of (-1, 0) is the float above pi. *)
Theorem C175_range_refuted : exists x y, M_PI < fastAtan2f x y /\ PI < fastAtan2f x y.
Proof. exact fastAtan2f_beyond. Qed.
Print Assumptions C175_range_refuted.
(** What is missing: the excess of the float nearest to pi, 13176795 / 2^22, over pi. *)
Theorem C175_range_partial : forall x y, x <> 0 \/ y <> 0 -> - (13176795 / 2 ^ 22) <= fastAtan2f x y <= 13176795 / 2 ^ 22.
Proof. intros x y N. replace (2 ^ 22) with 4194304 by lra. exact (proj1 (fastAtan2f_range x y N)). Qed.
Print Assumptions C175_range_partial.
Example C175_point : -1 <> 0 \/ 0 <> 0. Proof. left. lra. Qed.

(** C176: fastCosSinf, with every operation rounded and for both readings of its call of floor, is within 0.0012 + (|x| + 16) / 2^20 of
    the cosine and the sine, and bounded by 1. *)
Theorem C176_cos_sinf : forall wide x, Rabs x <= 2 ^ 18 -> let (c, s) := fastCosSinf wide x in
  Rabs (c - cos x) <= 12 / 10000 + (Rabs x + 16) / 2 ^ 20 /\ Rabs (s - sin x) <= 12 / 10000 + (Rabs x + 16) / 2 ^ 20.
Proof. exact fastCosSinf_error. Qed.
Print Assumptions C176_cos_sinf.
Theorem C176_bounded : forall wide x, Rabs x <= 2 ^ 22 -> let (c, s) := fastCosSinf wide x in -1 <= c <= 1 /\ -1 <= s <= 1.
Proof. exact fastCosSinf_bounded. Qed.
Print Assumptions C176_bounded.
Example C176_thousand : Rabs (-1000) <= 2 ^ 18 /\ Rabs (-1000) <= 2 ^ 22. Proof. split; apply Rabs_le; lra. Qed.

(** C177: turning a vector into an angle with fastAtan2 and back with fastCosSin gives its direction up to 0.0013, in double and in float. *)
Theorem C177_round_trip : forall x y, x <> 0 \/ y <> 0 -> let r := sqrt (x * x + y * y) in let (c, s) := fastCosSin (fastAtan2 x y) in
  Rabs (r * c - x) <= 13 / 10000 * r /\ Rabs (r * s - y) <= 13 / 10000 * r.
Proof. exact round_trip. Qed.
Print Assumptions C177_round_trip.
Theorem C177_round_tripf : forall wide x y, x <> 0 \/ y <> 0 -> let r := sqrt (x * x + y * y) in let (c, s) := fastCosSinf wide (fastAtan2f x y) in
  Rabs (r * c - x) <= 13 / 10000 * r /\ Rabs (r * s - y) <= 13 / 10000 * r.
Proof. exact round_tripf. Qed.
Print Assumptions C177_round_tripf.
Example C177_point : -3 <> 0 \/ 4 <> 0. Proof. left. lra. Qed.
