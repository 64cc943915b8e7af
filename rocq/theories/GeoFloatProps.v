(** * The plane geometry in float arithmetic: the properties. *)
From Coq Require Import Reals ZArith Lra Lia.
From Verif Require Import PiBounds DoubleModel DoubleSpec DoubleProofs DoubleTrig SingleModel SingleProofs Geometry2Model Geometry2Spec Geometry2Proofs GeoFloatModel GeoFloatSpec GeoFloatProofs.
Open Scope R_scope.

(** C178: the sign of ccw, computed with floats, tells a left turn from a right turn.  It does not: here the points turn right. *)
Theorem C178_turn_refuted : exists a b c, 0 < ccwf a b c /\ left_turn a c b.
Proof. exists (16777216, 16777216), (-2, -1), (-1, 0). exact ccwf_flip. Qed.
Print Assumptions C178_turn_refuted.
(** What is missing: differences of coordinates that floats cannot represent, and turns of which the computed value is 0. *)
Theorem C178_turn_partial : (forall a b c, single (fst b - fst a) = fst b - fst a -> single (snd b - snd a) = snd b - snd a -> single (fst c - fst a) = fst c - fst a -> single (snd c - snd a) = snd c - snd a ->
    (0 < ccwf a b c -> left_turn a b c) /\ (left_turn a b c -> 0 <= ccwf a b c)) /\
  (forall a b c, ccwf a c b = - ccwf a b c).
Proof. split; [exact ccwf_monotone|exact ccwf_swap]. Qed.
Print Assumptions C178_turn_partial.
Example C178_exact : single (5000 - -1) = 5000 - -1.
Proof. replace (5000 - -1) with 5001 by lra. apply single_whole. lia. Qed.

(** C179: for points on a grid of step 2^e, at most 2048 steps from the axes, ccw and the cone test on floats are exact. *)
Theorem C179_lattice_ccw : forall e a b c, (-74 <= e)%Z -> lattice 2048 e a -> lattice 2048 e b -> lattice 2048 e c -> ccwf a b c = ccw a b c /\ (0 < ccwf a b c <-> left_turn a b c).
Proof. intros e a b c E A B C. pose proof (ccw_lattice e a b c E A B C) as H. split; [exact H|]. rewrite H. apply ccw_left. Qed.
Print Assumptions C179_lattice_ccw.
Theorem C179_lattice_cone : forall e x y b f, (-74 <= e)%Z -> lattice 2048 e (x, y) -> lattice 2048 e b -> lattice 2048 e f -> insideConef x y b f = insideCone x y b f.
Proof. exact cone_lattice. Qed.
Print Assumptions C179_lattice_cone.
Example C179_point : lattice 2048 (-1) (3 / 2, -1024).
Proof. exists 3%Z, (-2048)%Z. split; [|split; lia]. f_equal; change (powerRZ 2 (-1)) with (/ (2 * 1)); lra. Qed.

(** C180: for coordinates up to B the float ccw is within 36 / 2^24 * (B + 1)^2 of the determinant, and its sign is right whenever the
    determinant is larger than that. *)
Theorem C180_ccw_error : forall B a b c, within B a -> within B b -> within B c -> Rabs (ccwf a b c - ccw a b c) <= 36 / 2 ^ 24 * ((B + 1) * (B + 1)).
Proof. intros B a b c HA HB HC. replace (36 / 2 ^ 24) with (36 * V) by (unfold V; lra). now apply ccwf_error. Qed.
Print Assumptions C180_ccw_error.
Theorem C180_ccw_sure : forall B a b c, within B a -> within B b -> within B c -> 36 / 2 ^ 24 * ((B + 1) * (B + 1)) < Rabs (ccw a b c) ->
  (0 < ccwf a b c <-> left_turn a b c) /\ (ccwf a b c < 0 <-> left_turn a c b).
Proof. intros B a b c HA HB HC H. apply (ccwf_sure B); auto. replace (36 * V) with (36 / 2 ^ 24) by (unfold V; lra). exact H. Qed.
Print Assumptions C180_ccw_sure.
Example C180_triangle : within 1 (0, 0) /\ within 1 (1, / 3) /\ within 1 (- / 3, 1) /\ 36 / 2 ^ 24 * ((1 + 1) * (1 + 1)) < Rabs (ccw (0, 0) (1, / 3) (- / 3, 1)).
Proof. unfold within, ccw. cbn [fst snd]. repeat split; try (apply Rabs_le; lra). rewrite Rabs_right; lra. Qed.

(** C181: normalizeAngle2Pi, in float arithmetic, returns an angle of [0, 2 pi).  It may return the float nearest to 2 pi, which is larger. *)
Theorem C181_range_refuted : exists x, forall wide, normalizeAngle2Pif wide x = K_2PIf /\ 2 * PI < normalizeAngle2Pif wide x.
Proof. exists (- powerRZ 2 (-60)). intros wide. rewrite normalize_full. split; [reflexivity|]. unfold K_2PIf. pose proof PI_digits. lra. Qed.
Print Assumptions C181_range_refuted.
(** What is missing: the rounding errors, as in C182. *)
Theorem C181_range_partial : forall wide x, - (6 / 2 ^ 24 * (Rabs x + 8)) <= normalizeAngle2Pif wide x <= 2 * PI + 6 / 2 ^ 24 * (Rabs x + 8).
Proof. intros wide x. destruct (normalize_turns wide x) as [H _]. unfold V in H. lra. Qed.
Print Assumptions C181_range_partial.

(** C182: normalizeAngle2Pi on floats returns its argument up to whole turns, within 6 / 2^24 * (|x| + 8), for both readings of its call of
    floor. *)
Theorem C182_normalize_error : forall wide x, nearly_reduced (6 / 2 ^ 24 * (Rabs x + 8)) (2 * PI) x (normalizeAngle2Pif wide x).
Proof. intros wide x. replace (6 / 2 ^ 24) with (6 * V) by (unfold V; lra). apply normalize_turns. Qed.
Print Assumptions C182_normalize_error.

(** C183: for angles up to B, insideAngleInterval and insideAngleIntervalEq on floats answer right for every angle that is at least
    m = 2^-18 * (B + 4) away from the two ends of the arc. *)
Theorem C183_inside : forall wide B b e w x m, Rabs x <= B -> Rabs b <= B -> Rabs e <= B -> m = / 2 ^ 18 * (B + 4) -> arc_width (2 * PI) b e w -> m <= w <= 2 * PI - m ->
  (well_inside m (2 * PI) b w x -> insideAngleIntervalf wide x b e = true /\ insideAngleIntervalEqf wide x b e = true) /\
  (well_outside m (2 * PI) b w x -> insideAngleIntervalf wide x b e = false /\ insideAngleIntervalEqf wide x b e = false).
Proof. intros wide B b e w x m HX HB HE Hm. apply (inside_margin wide B); auto. rewrite Hm. unfold V. lra. Qed.
Print Assumptions C183_inside.
(** The arc from 3 to -3 through pi. *)
Example C183_arc : let m := / 2 ^ 18 * (7 + 4) in arc_width (2 * PI) 3 (-3) (2 * PI - 6) /\ m <= 2 * PI - 6 <= 2 * PI - m /\ well_inside m (2 * PI) 3 (2 * PI - 6) (-31 / 10) /\ well_outside m (2 * PI) 3 (2 * PI - 6) 7.
Proof.
  pose proof PI_digits. cbv zeta. repeat split; try lra.
  - exists (-1)%Z. lra.
  - exists 1%Z. lra.
  - exists 0%Z. lra.
Qed.

(** C197: on floats the end of an arc is never inside it for insideAngleInterval and always for insideAngleIntervalEq. *)
Theorem C197_end : forall wide b e, insideAngleIntervalf wide e b e = false /\ insideAngleIntervalEqf wide e b e = true.
Proof.
  intros wide b e. unfold insideAngleIntervalf, insideAngleIntervalEqf, ltb, leb. set (a := normalizeAngle2Pif wide (single (e - b))).
  split; [destruct (Rlt_dec a a); [lra|reflexivity]|destruct (Rle_dec a a); [reflexivity|lra]].
Qed.
Print Assumptions C197_end.
