(** * Property theorems for the plane geometry (C61, C96-C101). *)
From Coq Require Import Reals Lra.
From Verif Require Import FunctionsModel FunctionsSpec PiBounds Geometry2Model Geometry2Spec Geometry2Proofs.
Open Scope R_scope.

(** C61 *)
Theorem C61_ccw : (forall a b c, 0 < ccw a b c <-> left_turn a b c) /\
  (forall a b c, ccw b a c = - ccw a b c /\ ccw a c b = - ccw a b c /\ ccw c b a = - ccw a b c) /\
  (forall a b c, ccw b c a = ccw a b c) /\
  (forall x y th a b c, let f := apply2 (poseToIsometry2 x y th) in ccw (f a) (f b) (f c) = ccw a b c).
Proof.
  split; [exact ccw_left|]. split; [exact ccw_swap|]. split; [exact ccw_cycle|].
  intros x y th a b c. apply ccw_rigid, pose_rigid.
Qed.
Print Assumptions C61_ccw.
Example C61_case : left_turn (1, 1) (2, 1) (2, 5) /\ ~ left_turn (1, 1) (2, 5) (2, 1).
Proof. rewrite <- !ccw_left. unfold ccw. cbn. lra. Qed.

(** C96: twice the area. *)
Theorem C96_area_refuted : exists a b c, ccw a b c <> signed_area a b c.
Proof. exists (0, 0), (1, 0), (0, 1). unfold ccw, signed_area. cbn. lra. Qed.
Print Assumptions C96_area_refuted.
Theorem C96_area_partial : forall a b c, ccw a b c = 2 * signed_area a b c.
Proof. exact ccw_area. Qed.
Print Assumptions C96_area_partial.

(** C97 *)
Theorem C97_intervals : forall b e w x, arc_width K_2PIf b e w ->
  (insideAngleInterval x b e = true <-> on_arc K_2PIf b w x) /\
  (insideAngleIntervalPair x (b, e) = true <-> on_arc K_2PIf b w x) /\
  (insideAngleIntervalEq x b e = true <-> on_arc_closed K_2PIf b w x) /\
  0 < K_2PIf - 2 * PI < 2 / 10000000.
Proof.
  intros b e w x H. destruct (interval_lemma b e w x H) as [H1 H2]. split; [exact H1|]. split; [exact H1|]. split; [exact H2|].
  unfold K_2PIf. pose proof PI_bounds. lra.
Qed.
Print Assumptions C97_intervals.
Example C97_case : arc_width K_2PIf 6 1 (1 - 6 + K_2PIf) /\ on_arc K_2PIf 6 (1 - 6 + K_2PIf) (1 / 2).
Proof. unfold K_2PIf. split; [split; [lra|exists (-1)%Z; lra]|exists 1%Z; lra]. Qed.

(** C98: with the period 2 pi the claim fails; without wrap-around it does not depend on the period. *)
Theorem C98_turns_refuted : exists b e w x, arc_width (2 * PI) b e w /\ on_arc (2 * PI) b w x /\ insideAngleInterval x b e = false.
Proof. exists 0, 1, 1, (2 * PI). exact full_turn_missed. Qed.
Print Assumptions C98_turns_refuted.
Theorem C98_turns_partial : forall b e x, 0 <= x - b < 2 * PI -> 0 <= e - b < 2 * PI ->
  (insideAngleInterval x b e = true <-> b <= x < e) /\ (insideAngleIntervalEq x b e = true <-> b <= x <= e).
Proof.
  intros b e x H1 H2. pose proof PI_bounds. destruct (no_wrap b e x) as [-> ->]; [unfold K_2PIf; lra|unfold K_2PIf; lra|].
  rewrite ltb_iff, leb_iff. lra.
Qed.
Print Assumptions C98_turns_partial.
Example C98_case : 0 <= 2 - 1 < 2 * PI /\ 0 <= 4 - 1 < 2 * PI.
Proof. pose proof PI_bounds. lra. Qed.

(** C99: a cone wider than half a turn contains its sides. *)
Theorem C99_cone_refuted : exists b e p psi phi, b <> (0, 0) /\ at_turn b psi e /\ at_turn b phi p /\
  insideCone (fst p) (snd p) b e = true /\ ~ 0 < phi < psi.
Proof.
  exists (1, 0), (0, -1), (1, 0), (3 * (PI / 2)), 0. pose proof PI_bounds.
  assert (Hb : (1, 0) <> (0, 0)) by (intros E; injection E; lra).
  split; [exact Hb|]. split; [exact at_turn_3|]. split; [apply at_turn_0|]. split; [|lra].
  apply (cone_lemma _ _ _ (3 * (PI / 2)) 0 Hb at_turn_3 (at_turn_0 _)). right. lra.
Qed.
Print Assumptions C99_cone_refuted.
Theorem C99_cone_partial : forall b e p psi phi, b <> (0, 0) -> at_turn b psi e -> at_turn b phi p -> psi <= PI ->
  (insideCone (fst p) (snd p) b e = true <-> 0 < phi < psi).
Proof. intros b e p psi phi Hb He Hp H. rewrite (cone_lemma b e p psi phi Hb He Hp). intuition lra. Qed.
Print Assumptions C99_cone_partial.

(** C100 *)
Theorem C100_cone_exact :
  (forall b e p psi phi, b <> (0, 0) -> at_turn b psi e -> at_turn b phi p ->
    (insideCone (fst p) (snd p) b e = true <-> (psi <= PI /\ 0 < phi < psi) \/ (PI < psi /\ 0 <= phi <= psi))) /\
  (forall b e psi, b <> (0, 0) -> at_turn b psi e -> (insideCone 0 0 b e = true <-> PI < psi)) /\
  (forall b p, b <> (0, 0) -> p <> (0, 0) -> exists a, at_turn b a p).
Proof.
  split; [|split; [exact cone_origin|exact turn_exists]].
  intros b e p psi phi Hb He Hp. rewrite (cone_lemma b e p psi phi Hb He Hp). destruct Hp as [Hp _]. intuition lra.
Qed.
Print Assumptions C100_cone_exact.
Example C100_case : (1, 0) <> (0, 0) /\ at_turn (1, 0) (3 * (PI / 2)) (0, -1) /\ at_turn (1, 0) (PI / 2) (0, 1) /\ PI / 2 <= PI.
Proof. pose proof PI_bounds. split; [intros E; injection E; lra|]. split; [exact at_turn_3|]. split; [exact at_turn_1|lra]. Qed.

(** C101 *)
Theorem C101_pose : forall x y th, (forall p, apply2 (poseToIsometry2 x y th) p = vadd (rot th p) (x, y)) /\
  poseToIsometry2v (x, y, th) = poseToIsometry2 x y th /\ rigid (apply2 (poseToIsometry2 x y th)).
Proof. intros x y th. split; [exact (apply_pose x y th)|]. split; [reflexivity|apply pose_rigid]. Qed.
Print Assumptions C101_pose.
Example C101_case : apply2 (poseToIsometry2 5 6 (PI / 2)) (1, 0) = (5, 7).
Proof. rewrite apply_pose. unfold vadd, rot. rewrite cos_PI2, sin_PI2. cbn. f_equal; lra. Qed.
