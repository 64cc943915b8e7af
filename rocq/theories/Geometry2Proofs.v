(** * Proofs about the plane geometry. *)
From Coq Require Import Reals Bool Lra Lia ZArith Psatz.
From Verif Require Import FunctionsModel FunctionsSpec FunctionsProofs PiBounds Geometry2Model Geometry2Spec.
Open Scope R_scope.

Lemma ltb_iff a b : ltb a b = true <-> a < b.
Proof. unfold ltb. destruct (Rlt_dec a b); split; intros; try lra; try discriminate; reflexivity. Qed.
Lemma leb_iff a b : leb a b = true <-> a <= b.
Proof. unfold leb. destruct (Rle_dec a b); split; intros; try lra; try discriminate; reflexivity. Qed.

(** ** Poses *)
Lemma apply_pose x y th p : apply2 (poseToIsometry2 x y th) p = vadd (rot th p) (x, y).
Proof. destruct p as [a b]. unfold apply2, poseToIsometry2, pretranslate2, prerotate2, identity2, vadd, rot. cbn. f_equal; ring. Qed.
Lemma cs1 t : cos t * cos t + sin t * sin t = 1.
Proof. pose proof (sin2_cos2 t) as H. unfold Rsqr in H. lra. Qed.
Lemma pose_rigid x y th : rigid (apply2 (poseToIsometry2 x y th)).
Proof.
  pose proof (cs1 th) as H. split; intros; rewrite !apply_pose; unfold sqdist, signed_area, vadd, rot, Rsqr; cbn [fst snd].
  - replace ((fst a - fst b) * (fst a - fst b) + (snd a - snd b) * (snd a - snd b)) with
      ((cos th * cos th + sin th * sin th) * ((fst a - fst b) * (fst a - fst b) + (snd a - snd b) * (snd a - snd b))) by (rewrite H; ring). ring.
  - set (X := fst a * snd b - fst b * snd a + (fst b * snd c - fst c * snd b) + (fst c * snd a - fst a * snd c)).
    replace (X / 2) with ((cos th * cos th + sin th * sin th) * X / 2) by (rewrite H; field). unfold X. field.
Qed.

(** ** Orientation *)
Lemma ccw_area a b c : ccw a b c = 2 * signed_area a b c.
Proof. unfold ccw, signed_area. field. Qed.
Lemma ccw_swap a b c : ccw b a c = - ccw a b c /\ ccw a c b = - ccw a b c /\ ccw c b a = - ccw a b c.
Proof. unfold ccw. repeat split; ring. Qed.
Lemma ccw_cycle a b c : ccw b c a = ccw a b c.
Proof. unfold ccw. ring. Qed.
Lemma ccw_rigid f a b c : rigid f -> ccw (f a) (f b) (f c) = ccw a b c.
Proof. intros [_ H]. rewrite !ccw_area, H. reflexivity. Qed.

Lemma sq_pos u v : u <> 0 \/ v <> 0 -> 0 < u * u + v * v.
Proof. intros [H|H]; nra. Qed.

(** Polar form of [p] with respect to [b]. *)
Lemma polar_wrt (b p : point) : b <> (0, 0) -> p <> (0, 0) -> exists r phi, 0 < r /\ p = vscale r (rot phi b) /\
  sin phi * r * (fst b * fst b + snd b * snd b) = fst b * snd p - snd b * fst p /\
  cos phi * r * (fst b * fst b + snd b * snd b) = fst b * fst p + snd b * snd p.
Proof.
  destruct b as [bx bY], p as [px py]. intros Hb Hp. cbn [fst snd].
  assert (Nb : 0 < bx * bx + bY * bY).
  { apply sq_pos. destruct (Req_dec bx 0); [|left; assumption]. destruct (Req_dec bY 0); [|right; assumption]. exfalso. apply Hb. subst. reflexivity. }
  assert (Np : 0 < px * px + py * py).
  { apply sq_pos. destruct (Req_dec px 0); [|left; assumption]. destruct (Req_dec py 0); [|right; assumption]. exfalso. apply Hp. subst. reflexivity. }
  set (N := bx * bx + bY * bY) in *. set (u := (bx * px + bY * py) / N). set (v := (bx * py - bY * px) / N).
  pose proof (polar u v) as [Hu Hv]. exists (sqrt (u * u + v * v)), (atan2 v u).
  assert (E : u * u + v * v = (px * px + py * py) / N) by (unfold u, v, N; field; fold N; lra).
  assert (Hr : 0 < sqrt (u * u + v * v)) by (apply sqrt_lt_R0; rewrite E; apply Rdiv_lt_0_compat; assumption).
  set (r := sqrt (u * u + v * v)) in *. set (phi := atan2 v u) in *. repeat split; [assumption| | |].
  - unfold vscale, rot. cbn [fst snd]. f_equal.
    + replace (r * (cos phi * bx - sin phi * bY)) with (r * cos phi * bx - r * sin phi * bY) by ring. rewrite Hu, Hv. unfold u, v, N. field. fold N; lra.
    + replace (r * (sin phi * bx + cos phi * bY)) with (r * sin phi * bx + r * cos phi * bY) by ring. rewrite Hu, Hv. unfold u, v, N. field. fold N; lra.
  - replace (sin phi * r * N) with (r * sin phi * N) by ring. rewrite Hv. unfold v. field. lra.
  - replace (cos phi * r * N) with (r * cos phi * N) by ring. rewrite Hu. unfold u. field. lra.
Qed.

Lemma sin_shift x k : sin (x + IZR k * (2 * PI)) = sin x.
Proof.
  rewrite !sin_cos. replace (PI / 2 + (x + IZR k * (2 * PI))) with (PI / 2 + x + IZR k * (2 * PI)) by ring. rewrite cos_shift. reflexivity.
Qed.
Lemma rot_shift a k b : rot (a + IZR k * (2 * PI)) b = rot a b.
Proof. unfold rot. rewrite cos_shift, sin_shift. reflexivity. Qed.
Lemma turn_exists b p : b <> (0, 0) -> p <> (0, 0) -> exists a, at_turn b a p.
Proof.
  intros Hb Hp. destruct (polar_wrt b p Hb Hp) as (r & phi & Hr & E & _). pose proof PI_bounds.
  destruct (floor_reduce (2 * PI) phi ltac:(lra)) as [H0 [k Hk]]. set (a := phi - 2 * PI * floorR (phi / (2 * PI))) in *.
  exists a. split; [exact H0|]. exists r. split; [exact Hr|]. rewrite E. f_equal. rewrite Hk. apply rot_shift.
Qed.

Lemma sin_pos_iff a : 0 <= a < 2 * PI -> (0 < sin a <-> 0 < a < PI).
Proof.
  intros H. split; intros Hs.
  - destruct (Rle_lt_dec a 0); [replace a with 0 in Hs by lra; rewrite sin_0 in Hs; lra|]. split; [assumption|].
    destruct (Rle_lt_dec PI a); [|assumption]. pose proof (sin_le_0 a ltac:(lra) ltac:(lra)). lra.
  - apply sin_gt_0; lra.
Qed.
Lemma sin_neg_iff a : 0 <= a < 2 * PI -> (sin a < 0 <-> PI < a).
Proof.
  intros H. pose proof PI_bounds. split; intros Hs.
  - destruct (Rle_lt_dec a PI); [|assumption]. pose proof (sin_ge_0 a ltac:(lra) ltac:(lra)). lra.
  - apply sin_lt_0; lra.
Qed.

Lemma ccw_left a b c : 0 < ccw a b c <-> left_turn a b c.
Proof.
  split.
  - intros H. assert (Hab : a <> b) by (intros ->; unfold ccw in H; lra). split; [exact Hab|].
    assert (Hb : vsub b a <> (0, 0)). { unfold vsub. intros E. injection E as E1 E2. apply Hab. destruct a, b; cbn in *. f_equal; lra. }
    assert (Hc : vsub c a <> (0, 0)). { unfold vsub. intros E. injection E as E1 E2. unfold ccw in H. rewrite E1, E2 in H. lra. }
    destruct (turn_exists _ _ Hb Hc) as (phi & Hphi & r & Hr & E). exists r, phi. split; [exact Hr|]. split; [|exact E].
    apply sin_pos_iff; [exact Hphi|]. unfold ccw in H. fold (vsub b a) in *.
    assert (E1 : fst c - fst a = fst (vsub c a)) by reflexivity. assert (E2 : snd c - snd a = snd (vsub c a)) by reflexivity.
    rewrite E1, E2, E in H. unfold vscale, rot, vsub in H. cbn [fst snd] in H.
    set (u := fst b - fst a) in *. set (v := snd b - snd a) in *.
    assert (K : r * sin phi * (u * u + v * v) > 0) by nra. assert (0 <= u * u + v * v) by nra.
    destruct (Rle_lt_dec (sin phi) 0) as [L|L]; [|exact L]. exfalso.
    assert (0 <= r * (u * u + v * v)) by (apply Rmult_le_pos; lra). nra.
  - intros [Hab (r & phi & Hr & Hphi & E)]. unfold vsub, vscale, rot in E. cbn [fst snd] in E. injection E as E1 E2. unfold ccw. rewrite E1, E2.
    set (u := fst b - fst a). set (v := snd b - snd a).
    replace (u * (r * (sin phi * u + cos phi * v)) - v * (r * (cos phi * u - sin phi * v))) with (r * sin phi * (u * u + v * v)) by ring.
    apply Rmult_lt_0_compat; [apply Rmult_lt_0_compat; [exact Hr|apply sin_gt_0; lra]|].
    apply sq_pos. destruct (Req_dec u 0); [|left; assumption]. destruct (Req_dec v 0); [|right; assumption]. exfalso. apply Hab.
    unfold u, v in *. destruct a, b; cbn in *. f_equal; lra.
Qed.

(** ** Angle intervals *)
Lemma Kf_pos : 0 < K_2PIf.
Proof. unfold K_2PIf. lra. Qed.
Lemma normalize2Pi_reduced x : reduced K_2PIf x (normalizeAngle2Pi x).
Proof. apply floor_reduce, Kf_pos. Qed.
Lemma interval_lemma b e w x : arc_width K_2PIf b e w -> (insideAngleInterval x b e = true <-> on_arc K_2PIf b w x) /\
  (insideAngleIntervalEq x b e = true <-> on_arc_closed K_2PIf b w x).
Proof.
  intros [Hw [j Hj]]. pose proof Kf_pos as HP.
  assert (E : normalizeAngle2Pi (e - b) = w).
  { apply (reduced_unique K_2PIf (e - b)); [exact HP|apply normalize2Pi_reduced|]. split; [lra|]. exists j. lra. }
  destruct (normalize2Pi_reduced (x - b)) as [Hn [k Hk]]. set (n := normalizeAngle2Pi (x - b)) in *.
  assert (U : forall i, b <= x + IZR i * K_2PIf -> x + IZR i * K_2PIf <= b + w -> x + IZR i * K_2PIf = b + n).
  { intros i H1 H2. assert (R1 : reduced K_2PIf (x - b) (x + IZR i * K_2PIf - b)). { split; [lra|]. exists (- i)%Z. rewrite opp_IZR. lra. }
    pose proof (reduced_unique _ _ _ _ HP (normalize2Pi_reduced (x - b)) R1). fold n in H. lra. }
  unfold insideAngleInterval, insideAngleIntervalEq. fold n. rewrite ltb_iff, leb_iff, E. split; split.
  - intros H. exists (- k)%Z. rewrite opp_IZR. lra.
  - intros [i Hi]. rewrite (U i) in Hi by lra. lra.
  - intros H. exists (- k)%Z. rewrite opp_IZR. lra.
  - intros [i Hi]. rewrite (U i) in Hi by lra. lra.
Qed.
Lemma arc_width_exists P b e : 0 < P -> exists w, arc_width P b e w.
Proof. intros HP. destruct (floor_reduce P (e - b) HP) as [H [k Hk]]. eexists. split; [exact H|]. exists k. lra. Qed.

(** ** Cones *)
Lemma cone_lemma b e p psi phi : b <> (0, 0) -> at_turn b psi e -> at_turn b phi p ->
  (insideCone (fst p) (snd p) b e = true <-> (psi <= PI /\ 0 < phi < psi) \/ (PI < psi /\ phi <= psi)).
Proof.
  intros Hb [Hpsi (s & Hs & Ee)] [Hphi (r & Hr & Ep)]. pose proof PI_bounds as HPI.
  set (N := fst b * fst b + snd b * snd b).
  assert (HN : 0 < N). { apply sq_pos. destruct b as [u v]. cbn. destruct (Req_dec u 0); [|left; assumption]. destruct (Req_dec v 0); [|right; assumption]. exfalso. apply Hb. subst. reflexivity. }
  assert (D : fst b * snd e - fst e * snd b = s * N * sin psi). { rewrite Ee. unfold vscale, rot, N. cbn. ring. }
  assert (B : fst b * snd p - snd b * fst p = r * N * sin phi). { rewrite Ep. unfold vscale, rot, N. cbn. ring. }
  assert (EE : - fst e * snd p + snd e * fst p = r * s * N * sin (psi - phi)). { rewrite Ee, Ep, sin_minus. unfold vscale, rot, N. cbn. ring. }
  unfold insideCone. rewrite D, B, EE. set (q := r * s * N). set (q1 := r * N). set (q2 := s * N).
  assert (Hq : 0 < q) by (unfold q; repeat apply Rmult_lt_0_compat; assumption).
  assert (Hq1 : 0 < q1) by (unfold q1; apply Rmult_lt_0_compat; assumption).
  assert (Hq2 : 0 < q2) by (unfold q2; apply Rmult_lt_0_compat; assumption).
  assert (S : forall c t, 0 < c -> (0 < c * t <-> 0 < t)) by (intros; split; intros; nra).
  assert (S2 : forall c t, 0 < c -> (c * t < 0 <-> t < 0)) by (intros; split; intros; nra).
  assert (S3 : forall c t, 0 < c -> (0 < - (c * t) <-> t < 0)) by (intros; split; intros; nra).
  destruct (ltb (q2 * sin psi) 0) eqn:L.
  - apply ltb_iff in L. rewrite S2 in L by assumption. apply sin_neg_iff in L; [|exact Hpsi].
    rewrite negb_true_iff, <- not_true_iff_false, andb_true_iff, !ltb_iff, !S3 by assumption.
    rewrite (sin_neg_iff phi) by exact Hphi. split.
    + intros H. right. split; [exact L|]. destruct (Rle_lt_dec phi psi); [assumption|]. exfalso. apply H. split; [|lra].
      apply sin_lt_0_var; lra.
    + intros [[? ?]|[_ H]]; [lra|]. intros [H1 H2]. pose proof (sin_ge_0 (psi - phi) ltac:(lra) ltac:(lra)). lra.
  - assert (L' : ~ q2 * sin psi < 0) by (rewrite <- ltb_iff, L; discriminate). rewrite S2 in L' by assumption. rewrite sin_neg_iff in L' by exact Hpsi.
    rewrite andb_true_iff, !ltb_iff, !S by assumption. rewrite (sin_pos_iff phi) by exact Hphi. split.
    + intros [H1 H2]. left. split; [lra|]. split; [lra|]. destruct (Rle_lt_dec psi phi); [|assumption]. exfalso.
      replace (psi - phi) with (- (phi - psi)) in H1 by ring. rewrite sin_neg in H1. pose proof (sin_ge_0 (phi - psi) ltac:(lra) ltac:(lra)). lra.
    + intros [[H1 H2]|[? ?]]; [|lra]. split; [apply sin_gt_0; lra|lra].
Qed.
Lemma cone_origin b e psi : b <> (0, 0) -> at_turn b psi e -> (insideCone 0 0 b e = true <-> PI < psi).
Proof.
  intros Hb [Hpsi (s & Hs & Ee)].
  assert (HN : 0 < fst b * fst b + snd b * snd b). { apply sq_pos. destruct b as [u v]. cbn. destruct (Req_dec u 0); [|left; assumption]. destruct (Req_dec v 0); [|right; assumption]. exfalso. apply Hb. subst. reflexivity. }
  assert (D : fst b * snd e - fst e * snd b = s * (fst b * fst b + snd b * snd b) * sin psi). { rewrite Ee. unfold vscale, rot. cbn. ring. }
  rewrite <- sin_neg_iff by exact Hpsi. unfold insideCone. rewrite D. set (q := s * (fst b * fst b + snd b * snd b)).
  assert (Hq : 0 < q) by (unfold q; apply Rmult_lt_0_compat; assumption).
  destruct (ltb (q * sin psi) 0) eqn:L.
  - apply ltb_iff in L. rewrite negb_true_iff, <- not_true_iff_false, andb_true_iff, !ltb_iff. split; intros; [nra|]. lra.
  - assert (L' : ~ q * sin psi < 0) by (rewrite <- ltb_iff, L; discriminate). rewrite andb_true_iff, !ltb_iff. split; intros; [lra|]. exfalso. apply L'. nra.
Qed.
Lemma no_wrap b e x : 0 <= x - b < K_2PIf -> 0 <= e - b < K_2PIf -> insideAngleInterval x b e = ltb x e /\ insideAngleIntervalEq x b e = leb x e.
Proof.
  intros H1 H2. assert (N : forall y, 0 <= y < K_2PIf -> normalizeAngle2Pi y = y).
  { intros y Hy. apply (reduced_unique K_2PIf y); [apply Kf_pos|apply normalize2Pi_reduced|]. split; [exact Hy|]. exists 0%Z. lra. }
  unfold insideAngleInterval, insideAngleIntervalEq. rewrite !N by assumption. unfold ltb, leb.
  split; [destruct (Rlt_dec (x - b) (e - b)), (Rlt_dec x e)|destruct (Rle_dec (x - b) (e - b)), (Rle_dec x e)]; try reflexivity; lra.
Qed.
Lemma full_turn_missed : arc_width (2 * PI) 0 1 1 /\ on_arc (2 * PI) 0 1 (2 * PI) /\ insideAngleInterval (2 * PI) 0 1 = false.
Proof.
  pose proof PI_bounds. assert (HK : 2 * PI < K_2PIf) by (unfold K_2PIf; lra). split; [|split].
  - split; [lra|]. exists 0%Z. lra.
  - exists (-1)%Z. lra.
  - destruct (no_wrap 0 1 (2 * PI)) as [-> _]; [lra|unfold K_2PIf; lra|]. unfold ltb. destruct (Rlt_dec (2 * PI) 1); [lra|reflexivity].
Qed.
Lemma at_turn_0 b : at_turn b 0 b.
Proof.
  pose proof PI_bounds. split; [lra|]. exists 1. split; [lra|]. unfold vscale, rot. rewrite cos_0, sin_0. destruct b; cbn. f_equal; ring.
Qed.
Lemma at_turn_3 : at_turn (1, 0) (3 * (PI / 2)) (0, -1).
Proof.
  pose proof PI_bounds. split; [lra|]. exists 1. split; [lra|]. unfold vscale, rot. rewrite cos_3PI2, sin_3PI2. cbn. f_equal; ring.
Qed.
Lemma at_turn_1 : at_turn (1, 0) (PI / 2) (0, 1).
Proof.
  pose proof PI_bounds. split; [lra|]. exists 1. split; [lra|]. unfold vscale, rot. rewrite cos_PI2, sin_PI2. cbn. f_equal; ring.
Qed.
