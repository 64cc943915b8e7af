(** * Properties of the angle functions in double arithmetic. *)
From Coq Require Import Reals ZArith Lra.
From Verif Require Import DoubleModel DoubleSpec DoubleProofs DoubleTrig.
Open Scope R_scope.

(** C168: a reduced angle is at least 0 and below the period, and reducing it again changes nothing. False: small negative angles
    give the period itself, which a second call turns into 0, and an angle just below a multiple of the period gives a negative number. *)
Theorem C168_range_refuted : exists x y z w, (is_double x /\ normalize360 x < 0) /\ (is_double y /\ normalize360 y = K_2PI) /\
  (is_double z /\ normalize180 z < 0) /\ (is_double w /\ normalize180 w = M_PI).
Proof. exact range_refuted. Qed.
Print Assumptions C168_range_refuted.
Theorem C168_twice_refuted : exists x, is_double x /\ normalize360 (normalize360 x) <> normalize360 x.
Proof. exact twice_refuted. Qed.
Print Assumptions C168_twice_refuted.
(** What is missing: the bounds 0 and the period themselves, which are exceeded by the rounding errors. *)
Theorem C168_range_partial : forall x, - (5 * (Rabs x + 8) / 2 ^ 53) <= normalize360 x <= 628318530718 / 100000000000 + 5 * (Rabs x + 8) / 2 ^ 53 /\
  - (5 * (Rabs x + 8) / 2 ^ 53) <= normalize180 x <= PI + 5 * (Rabs x + 8) / 2 ^ 53.
Proof. exact range_partial. Qed.
Print Assumptions C168_range_partial.

(** C169: the result is congruent to the argument, up to a few units in the last place of the argument, and a double already reduced
    is returned unchanged. *)
Theorem C169_congruent : forall x, nearly_reduced (5 * (Rabs x + 8) / 2 ^ 53) (628318530718 / 100000000000) x (normalize360 x) /\
  nearly_reduced (5 * (Rabs x + 8) / 2 ^ 53) PI x (normalize180 x).
Proof. intros x. split; [exact (normalize360_error x)|exact (normalize180_error x)]. Qed.
Print Assumptions C169_congruent.
Theorem C169_unchanged : forall x, is_double x -> (0 <= x < K_2PI -> normalize360 x = x) /\ (0 <= x < M_PI -> normalize180 x = x).
Proof. intros x D. split; [exact (normalize360_id x D)|exact (normalize180_id x D)]. Qed.
Print Assumptions C169_unchanged.
Example C169_three : is_double 3 /\ 0 <= 3 < K_2PI /\ 0 <= 3 < M_PI.
Proof. split; [exists 3%Z, 0%Z; cbn; repeat split; lra || reflexivity || discriminate|]. pose proof K_range. pose proof M_PI_near. lra. Qed.

(** C170: fastCosSin is as accurate as the exact parabola, up to the rounding of the angle. *)
Theorem C170_cos_sin : forall x, Rabs x <= 2 ^ 47 ->
  let (c, s) := fastCosSin x in Rabs (c - cos x) <= 12 / 10000 + (Rabs x + 16) / 2 ^ 49 /\ Rabs (s - sin x) <= 12 / 10000 + (Rabs x + 16) / 2 ^ 49.
Proof. exact fastCosSin_double_pow. Qed.
Print Assumptions C170_cos_sin.
Example C170_million : Rabs (-1000000) <= 2 ^ 47. Proof. apply Rabs_le. lra. Qed.

(** C171: both results of fastCosSin are at most 1 in magnitude. False for large angles. *)
Theorem C171_bounded_refuted : exists x, is_double x /\ 20 < snd (fastCosSin x).
Proof. exists far. exact fastCosSin_far. Qed.
Print Assumptions C171_bounded_refuted.
(** What is missing: the angles above 2^51, where half a turn is lost in the rounding. *)
Theorem C171_bounded_partial : forall x, Rabs x <= 2 ^ 51 -> let (c, s) := fastCosSin x in -1 <= c <= 1 /\ -1 <= s <= 1.
Proof. exact fastCosSin_bounded. Qed.
Print Assumptions C171_bounded_partial.
Example C171_million : Rabs (-1000000) <= 2 ^ 51. Proof. apply Rabs_le. lra. Qed.

(** C173: fastCosSin is bounded by 1 for angles up to 2^51. *)
Theorem C173_bounded : forall x, Rabs x <= 2 ^ 51 -> let (c, s) := fastCosSin x in -1 <= c <= 1 /\ -1 <= s <= 1.
Proof. exact fastCosSin_bounded. Qed.
Print Assumptions C173_bounded.
Example C173_quarter : Rabs (M_PI / 2) <= 2 ^ 51. Proof. pose proof M_PI_near. apply Rabs_le. lra. Qed.

(** C172: fastAtan on -1..1 and fastAtan2 everywhere but at the origin are within 16/1000000 radians of the angle, also when every
    operation is rounded; fastAtan2 is between -M_PI and M_PI and has the sign of the ordinate. *)
Theorem C172_atan : forall x, -1 <= x <= 1 -> Rabs (fastAtan x - atan x) <= 16 / 1000000.
Proof. exact fastAtan_double. Qed.
Print Assumptions C172_atan.
Theorem C172_atan2 : forall x y, x <> 0 \/ y <> 0 -> exists p, - PI < p <= PI /\
  x = sqrt (x * x + y * y) * cos p /\ y = sqrt (x * x + y * y) * sin p /\ Rabs (fastAtan2 x y - p) <= 16 / 1000000.
Proof. exact fastAtan2_double_polar. Qed.
Print Assumptions C172_atan2.
Theorem C172_sign : forall x y, x <> 0 \/ y <> 0 -> - M_PI <= fastAtan2 x y <= M_PI /\ (0 <= y -> 0 <= fastAtan2 x y) /\ (y < 0 -> fastAtan2 x y <= 0).
Proof. exact fastAtan2_double_sign. Qed.
Print Assumptions C172_sign.
Example C172_points : -1 <= -1 / 2 <= 1 /\ (0 <> 0 \/ -3 <> 0). Proof. split; [lra|right; lra]. Qed.
