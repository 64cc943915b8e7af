(** * Proofs about the plane aligner. *)
From Coq Require Import List Reals Lra Lia Psatz Bool Arith.
From Verif Require Import AlignerModel AlignerSpec.
Import ListNotations.
Open Scope R_scope.

Ltac vec := unfold dot, cross, add, sub, scale, neg, X, Y, Z in *; cbn [fst snd] in *.
Lemma vec_eq (a b : vec3) : X a = X b -> Y a = Y b -> Z a = Z b -> a = b.
Proof. destruct a as [[? ?] ?], b as [[? ?] ?]. vec. intros -> -> ->. reflexivity. Qed.
Lemma triple_eq {A} (a b c a' b' c' : A) : a = a' -> b = b' -> c = c' -> (a, b, c) = (a', b', c').
Proof. intros -> -> ->. reflexivity. Qed.
Lemma dot_self_nonneg a : 0 <= dot a a.
Proof. vec. nra. Qed.
Lemma dot_self_pos a : a <> (0, 0, 0) -> 0 < dot a a.
Proof.
  destruct a as [[x y] z]. intros H. vec. destruct (Req_dec x 0) as [->|]; [|nra]. destruct (Req_dec y 0) as [->|]; [|nra].
  destruct (Req_dec z 0) as [->|]; [|nra]. exfalso. apply H. reflexivity.
Qed.
Lemma normalize_unit a : 0 < dot a a -> dot (normalize a) (normalize a) = 1 /\ normalize a = scale (/ sqrt (dot a a)) a.
Proof.
  intros H. unfold normalize. destruct (Rlt_dec 0 (dot a a)); [|contradiction]. split; [|reflexivity].
  set (N := dot a a) in *. assert (HS : 0 < sqrt N) by (apply sqrt_lt_R0; exact H).
  assert (E : forall k, dot (scale k a) (scale k a) = k * k * N) by (intros k; unfold N; vec; ring).
  rewrite E. rewrite <- (sqrt_sqrt N) at 3 by lra. field. lra.
Qed.

(** ** The frame *)
Lemma chooseX_ok az : dot az az = 1 -> let e := chooseX (maxCoeff az) in dot e e = 1 /\ Rsqr (dot e az) < 1.
Proof.
  destruct az as [[x y] z]. unfold maxCoeff. intros H.
  assert (A : forall u v, Rabs u < Rabs v -> u * u < v * v). { intros u v L. apply Rsqr_lt_abs_1 in L. exact L. }
  assert (B : forall u v, ~ Rabs u < Rabs v -> v * v <= u * u). { intros u v L. apply Rsqr_le_abs_1. lra. }
  unfold Rsqr. vec.
  destruct (Rlt_dec (Rabs x) (Rabs y)) as [L|L]; [apply A in L|apply B in L].
  - destruct (Rlt_dec (Rabs y) (Rabs z)) as [M|M]; [apply A in M|apply B in M]; cbn [chooseX]; vec; split; nra.
  - destruct (Rlt_dec (Rabs x) (Rabs z)) as [M|M]; [apply A in M|apply B in M]; cbn [chooseX]; vec; split; nra.
Qed.
Lemma axes_ok pl : fst pl <> (0, 0, 0) -> let '(ax, ay, az) := axes pl in
  dot ax ax = 1 /\ dot az az = 1 /\ dot ax az = 0 /\ ay = cross az ax /\ az = scale (/ sqrt (dot (fst pl) (fst pl))) (fst pl).
Proof.
  intros H. unfold axes. apply dot_self_pos in H. destruct (normalize_unit _ H) as [H1 H2].
  set (az := normalize (fst pl)) in *. destruct (chooseX_ok az H1) as [E1 E2]. set (e := chooseX (maxCoeff az)) in *.
  set (w := sub e (scale (dot e az) az)).
  assert (W : dot w w = 1 - Rsqr (dot e az)).
  { replace (dot w w) with (dot e e - 2 * (dot e az * dot e az) + (dot e az * dot e az) * dot az az) by (unfold w; vec; ring). rewrite E1, H1. unfold Rsqr. ring. }
  assert (WZ : dot w az = 0). { replace (dot w az) with (dot e az - dot e az * dot az az) by (unfold w; vec; ring). rewrite H1. ring. }
  destruct (normalize_unit w) as [N1 N2]; [lra|]. split; [exact N1|]. split; [exact H1|]. split; [|split; [reflexivity|exact H2]].
  change (dot (normalize w) az = 0). rewrite N2. replace (dot (scale (/ sqrt (dot w w)) w) az) with (/ sqrt (dot w w) * dot w az) by (vec; ring). rewrite WZ. ring.
Qed.

(** Orthonormal right-handed triple: the inverse of the matrix of columns is the matrix of rows. *)
Section Frame.
Variables ax az : vec3.
Hypothesis Hx : dot ax ax = 1.
Hypothesis Hz : dot az az = 1.
Hypothesis Hxz : dot ax az = 0.
Let ay := cross az ax.
Lemma ay_unit : dot ay ay = 1.
Proof. replace (dot ay ay) with (dot az az * dot ax ax - dot ax az * dot ax az) by (unfold ay; vec; ring). rewrite Hx, Hz, Hxz. ring. Qed.
Lemma ay_x : dot ax ay = 0.
Proof. unfold ay. vec. ring. Qed.
Lemma ay_z : dot ay az = 0.
Proof. unfold ay. vec. ring. Qed.
Lemma cross_yz : cross ay az = ax.
Proof.
  assert (E : cross ay az = sub (scale (dot az az) ax) (scale (dot ax az) az)) by (unfold ay; apply vec_eq; vec; ring).
  rewrite E, Hz, Hxz. apply vec_eq; vec; ring.
Qed.
Lemma cross_xy : cross ax ay = az.
Proof.
  assert (E : cross ax ay = sub (scale (dot ax ax) az) (scale (dot ax az) ax)) by (unfold ay; apply vec_eq; vec; ring).
  rewrite E, Hx, Hxz. apply vec_eq; vec; ring.
Qed.
Lemma det_columns : det3 (of_columns ax ay az) = 1.
Proof.
  replace (det3 (of_columns ax ay az)) with (dot ax (cross ay az)) by (unfold det3, of_columns; vec; ring). rewrite cross_yz. exact Hx.
Qed.
Lemma inverse_columns : inverse (of_columns ax ay az) = (ax, ay, az).
Proof.
  assert (E : forall a b c, inverse (of_columns a b c) = (scale (/ det3 (of_columns a b c)) (cross b c), scale (/ det3 (of_columns a b c)) (cross c a), scale (/ det3 (of_columns a b c)) (cross a b))).
  { intros a b c. cbv beta iota zeta delta [inverse of_columns]. set (k := / det3 _). apply triple_eq; apply vec_eq; vec; ring. }
  rewrite E, det_columns, cross_yz, cross_xy. fold ay. replace (/ 1) with 1 by field.
  apply triple_eq; apply vec_eq; vec; ring.
Qed.
(** Parseval. *)
Lemma rows_dot u v : dot ax u * dot ax v + dot ay u * dot ay v + dot az u * dot az v = dot u v.
Proof.
  assert (D : forall w, w = add (add (scale (dot ax w) ax) (scale (dot ay w) ay)) (scale (dot az w) az)).
  { intros w.
    assert (E1 : scale (dot ax (cross ay az)) w = add (add (scale (dot ax w) (cross ay az)) (scale (dot ay w) (cross az ax))) (scale (dot az w) (cross ax ay)))
      by (apply vec_eq; vec; ring).
    rewrite cross_yz, cross_xy, Hx in E1. fold ay in E1. rewrite <- E1. apply vec_eq; vec; ring. }
  rewrite (D u) at 4.
  replace (dot (add (add (scale (dot ax u) ax) (scale (dot ay u) ay)) (scale (dot az u) az)) v) with
    (dot ax u * dot ax v + dot ay u * dot ay v + dot az u * dot az v) by (vec; ring). reflexivity.
Qed.
Lemma rows_rigid t : rigid3 (apply3 ((ax, ay, az), t)).
Proof.
  split.
  - intros p q. assert (E : forall p q : vec3, dist2 p q = dot (sub p q) (sub p q)) by (intros [[? ?] ?] [[? ?] ?]; unfold dist2, Rsqr; vec; ring).
    rewrite !E. rewrite <- (rows_dot (sub p q) (sub p q)). unfold apply3, mulv. vec. ring.
  - intros p q r s.
    assert (E : forall p q r s : vec3, volume6 p q r s = dot (sub q p) (cross (sub r p) (sub s p))).
    { intros [[? ?] ?] [[? ?] ?] [[? ?] ?] [[? ?] ?]. unfold volume6. vec. ring. }
    rewrite !E. set (u := sub q p). set (v := sub r p). set (w := sub s p).
    assert (S : forall a b, sub (apply3 (ax, ay, az, t) a) (apply3 (ax, ay, az, t) b) = (dot ax (sub a b), dot ay (sub a b), dot az (sub a b))).
    { intros a b. apply vec_eq; unfold apply3, mulv; vec; ring. }
    rewrite !S. fold u v w.
    replace (dot (dot ax u, dot ay u, dot az u) (cross (dot ax v, dot ay v, dot az v) (dot ax w, dot ay w, dot az w)))
      with (det3 (of_columns ax ay az) * dot u (cross v w)) by (unfold det3, of_columns; vec; ring).
    rewrite det_columns. ring.
Qed.
End Frame.

(** ** The transform *)
Lemma identity_prerotate a b c t : prerotate3 (a, b, c) (pretranslate3 t identity3) = ((a, b, c), (dot a t, dot b t, dot c t)).
Proof.
  unfold prerotate3, pretranslate3, identity3, mulm, mulv, transpose, of_columns. cbn [fst snd].
  destruct a as [[? ?] ?], b as [[? ?] ?], c as [[? ?] ?], t as [[? ?] ?]. vec. f_equal; [apply triple_eq; apply triple_eq; ring|apply triple_eq; ring].
Qed.
Lemma inlier_loop_ok pl tol cloud : forall c n, exists l,
  l = filter (fun p => if Rlt_dec (Rabs (X p * X (fst pl) + Y p * Y (fst pl) + Z p * Z (fst pl) + snd pl)) tol then true else false) cloud /\
  inlier_loop pl tol cloud c n = (add c (sum3 l), (n + length l)%nat).
Proof.
  induction cloud as [|p t IH]; intros c n; cbn [inlier_loop filter]; eexists; split; try reflexivity.
  - cbn [sum3 length]. rewrite Nat.add_0_r. f_equal. apply vec_eq; vec; ring.
  - destruct (Rlt_dec _ tol).
    + destruct (IH (add c p) (S n)) as (l & -> & ->). cbn [sum3 length]. f_equal; [|lia].
      destruct p as [[? ?] ?]. destruct (sum3 _) as [[? ?] ?]. apply vec_eq; vec; ring.
    + destruct (IH c n) as (l & -> & ->). reflexivity.
Qed.
(** The centre used by [compute]. *)
Definition center (pl : plane) (tol : R) (cloud : list vec3) : vec3 :=
  let '(ax, ay, az) := axes pl in
  let '(c, num) := inlier_loop pl tol cloud (0, 0, 0) 0 in
  if Nat.ltb 0 num then scale (/ INR num) (sub c (scale (dot c az) az)) else c.
Lemma compute_ok pl tol cloud : fst pl <> (0, 0, 0) -> let '(ax, ay, az) := axes pl in
  compute pl tol cloud = ((ax, ay, az), neg (dot ax (center pl tol cloud), dot ay (center pl tol cloud), dot az (center pl tol cloud))).
Proof.
  intros H. pose proof (axes_ok pl H) as A. unfold compute, center. destruct (axes pl) as [[ax ay] az]. destruct A as (Hx & Hz & Hxz & -> & _).
  destruct (inlier_loop pl tol cloud (0, 0, 0) 0) as [c num]. set (c' := if Nat.ltb 0 num then _ else _).
  rewrite inverse_columns by assumption. rewrite identity_prerotate. apply (f_equal (pair (ax, cross az ax, az))). apply vec_eq; vec; ring.
Qed.
Lemma center_z pl tol cloud : fst pl <> (0, 0, 0) -> dot (snd (axes pl)) (center pl tol cloud) = 0.
Proof.
  intros H. pose proof (axes_ok pl H) as A. unfold center. destruct (axes pl) as [[ax ay] az]. destruct A as (Hx & Hz & Hxz & -> & _).
  destruct (inlier_loop_ok pl tol cloud (0, 0, 0) 0) as (l & _ & ->). cbn [snd].
  destruct (Nat.ltb 0 (0 + length l)) eqn:E.
  - set (c := add (0, 0, 0) (sum3 l)). set (k := / INR (0 + length l)).
    replace (dot az (scale k (sub c (scale (dot c az) az)))) with (k * (dot c az - dot c az * dot az az)) by (vec; ring). rewrite Hz. ring.
  - apply Nat.ltb_ge in E. destruct l; [|cbn in E; lia]. cbn. vec. ring.
Qed.
Lemma compute_rigid pl tol cloud : fst pl <> (0, 0, 0) -> rigid3 (apply3 (compute pl tol cloud)).
Proof.
  intros H. pose proof (axes_ok pl H) as A. pose proof (compute_ok pl tol cloud H) as C. destruct (axes pl) as [[ax ay] az].
  destruct A as (Hx & Hz & Hxz & -> & _). rewrite C. apply rows_rigid; assumption.
Qed.
Lemma sqrt_norm (pl : plane) : sqrt (dot (fst pl) (fst pl)) = normal_norm pl.
Proof. destruct pl as [[[? ?] ?] ?]. reflexivity. Qed.
Lemma norm_pos pl : fst pl <> (0, 0, 0) -> 0 < normal_norm pl.
Proof. intros H. rewrite <- sqrt_norm. apply sqrt_lt_R0, dot_self_pos, H. Qed.
Lemma compute_height pl tol cloud p : fst pl <> (0, 0, 0) -> height (apply3 (compute pl tol cloud) p) = (value pl p - snd pl) / normal_norm pl.
Proof.
  intros H. pose proof (axes_ok pl H) as A. pose proof (compute_ok pl tol cloud H) as C. pose proof (center_z pl tol cloud H) as D.
  destruct (axes pl) as [[ax ay] az]. destruct A as (Hx & Hz & Hxz & -> & E). rewrite C. cbn [snd] in D. unfold height, apply3, mulv.
  set (c := center pl tol cloud) in *. cbn [fst snd add neg X Y Z]. rewrite D, E, sqrt_norm. pose proof (norm_pos pl H).
  destruct pl as [[[a b] e] d], p as [[x y] z]. unfold value. vec. unfold normal_norm in *. field. lra.
Qed.
Lemma compute_axis pl tol cloud : fst pl <> (0, 0, 0) -> snd (fst (compute pl tol cloud)) = scale (/ normal_norm pl) (fst pl).
Proof.
  intros H. pose proof (axes_ok pl H) as A. pose proof (compute_ok pl tol cloud H) as C. destruct (axes pl) as [[ax ay] az].
  destruct A as (Hx & Hz & Hxz & -> & E). rewrite C. cbn [fst snd]. rewrite E, sqrt_norm. reflexivity.
Qed.
(** ** Orientation of the coefficients *)
Lemma setPlaneCoeffs_ok c : 0 <= snd (setPlaneCoeffs c) /\ (snd c <> 0 -> 0 < snd (setPlaneCoeffs c)) /\
  (forall p, on_plane (setPlaneCoeffs c) p <-> on_plane c p) /\ (fst c <> (0, 0, 0) -> fst (setPlaneCoeffs c) <> (0, 0, 0)) /\
  normal_norm (setPlaneCoeffs c) = normal_norm c /\ snd (setPlaneCoeffs c) = Rabs (snd c).
Proof.
  destruct c as [[[a b] e] d]. unfold setPlaneCoeffs, on_plane. cbn [fst snd].
  destruct (Rlt_dec 0 d) as [L|L]; cbn [fst snd]; (repeat split); try lra; try tauto.
  - rewrite Rabs_right; lra.
  - destruct p as [[x y] z]. unfold value, neg. vec. lra.
  - destruct p as [[x y] z]. unfold value, neg. vec. lra.
  - intros H E. apply H. unfold neg in E. vec. injection E as E1 E2 E3. f_equal; [f_equal|]; lra.
  - unfold normal_norm, neg. vec. f_equal. ring.
  - rewrite Rabs_left1; lra.
Qed.
(** ** Centre *)
Lemma inliers_ok pl tol cloud : inlier_loop pl tol cloud (0, 0, 0) 0 = (sum3 (filter (near_raw pl tol) cloud), length (filter (near_raw pl tol) cloud)).
Proof.
  destruct (inlier_loop_ok pl tol cloud (0, 0, 0) 0) as (l & -> & ->).
  assert (E : forall l : list vec3, filter (fun p => if Rlt_dec (Rabs (X p * X (fst pl) + Y p * Y (fst pl) + Z p * Z (fst pl) + snd pl)) tol then true else false) l = filter (near_raw pl tol) l).
  { induction l as [|p t IH]; [reflexivity|]. cbn [filter]. rewrite IH.
    replace (X p * X (fst pl) + Y p * Y (fst pl) + Z p * Z (fst pl) + snd pl) with (value pl p); [reflexivity|].
    destruct pl as [[[? ?] ?] ?], p as [[? ?] ?]. unfold value. vec. ring. }
  rewrite E. cbn [Nat.add]. f_equal. apply vec_eq; vec; ring.
Qed.
Lemma mean_scale (l : list vec3) : mean3 l = scale (/ INR (length l)) (sum3 l).
Proof. unfold mean3. destruct (sum3 l) as [[a b] e]. apply triple_eq; unfold X, Y, Z, Rdiv; cbn [fst snd]; apply Rmult_comm. Qed.
Lemma center_mean pl tol cloud : fst pl <> (0, 0, 0) -> filter (near_raw pl tol) cloud <> [] ->
  let m := apply3 (compute pl tol cloud) (mean3 (filter (near_raw pl tol) cloud)) in X m = 0 /\ Y m = 0.
Proof.
  intros H NE. pose proof (axes_ok pl H) as A. pose proof (compute_ok pl tol cloud H) as C. unfold center in C. rewrite inliers_ok in C.
  destruct (axes pl) as [[ax ay] az]. destruct A as (Hx & Hz & Hxz & -> & E). rewrite C. clear C.
  set (l := filter (near_raw pl tol) cloud) in *. destruct (Nat.ltb 0 (length l)) eqn:L; [|apply Nat.ltb_ge in L; destruct l; [contradiction|cbn in L; lia]].
  assert (HL : 0 < INR (length l)) by (apply lt_0_INR; apply Nat.ltb_lt in L; exact L).
  rewrite mean_scale. set (S := sum3 l). set (n := INR (length l)) in *. clearbody S n.
  set (c := scale (/ n) (sub S (scale (dot S az) az))).
  assert (EX : dot ax c = dot ax (scale (/ n) S)).
  { replace (dot ax c) with (dot ax (scale (/ n) S) - / n * dot S az * dot ax az) by (unfold c; vec; ring). rewrite Hxz. ring. }
  assert (EY : dot (cross az ax) c = dot (cross az ax) (scale (/ n) S)).
  { replace (dot (cross az ax) c) with (dot (cross az ax) (scale (/ n) S) - / n * dot S az * dot (cross az ax) az) by (unfold c; vec; ring).
    replace (dot (cross az ax) az) with 0 by (vec; ring). ring. }
  cbv beta iota zeta delta [apply3 mulv add neg X Y Z fst snd]. fold c. rewrite EX, EY. split; ring.
Qed.
Lemma no_center pl tol cloud p : fst pl <> (0, 0, 0) -> filter (near_raw pl tol) cloud = [] ->
  let m := apply3 (compute pl tol cloud) p in X m * X m + Y m * Y m + Z m * Z m = dot p p.
Proof.
  intros H NE. pose proof (axes_ok pl H) as A. pose proof (compute_ok pl tol cloud H) as C. unfold center in C. rewrite inliers_ok, NE in C.
  destruct (axes pl) as [[ax ay] az]. destruct A as (Hx & Hz & Hxz & -> & E). rewrite C. clear C. cbn [length Nat.ltb Nat.leb sum3].
  rewrite <- (rows_dot ax az Hx Hz Hxz p p). unfold apply3, mulv. vec. ring.
Qed.

(** ** Scaling the coefficients *)
Lemma times_set k c : 0 < k -> setPlaneCoeffs (times k c) = times k (setPlaneCoeffs c).
Proof.
  intros Hk. destruct c as [[[a b] e] d]. unfold setPlaneCoeffs, times. cbn [fst snd].
  destruct (Rlt_dec 0 (k * d)), (Rlt_dec 0 d); try reflexivity; try (exfalso; nra).
  unfold neg. vec. f_equal; [apply triple_eq; ring|ring].
Qed.
Lemma normalize_scale k a : 0 < k -> normalize (scale k a) = normalize a.
Proof.
  intros Hk. unfold normalize. assert (E : dot (scale k a) (scale k a) = k * k * dot a a) by (vec; ring). rewrite E.
  destruct (Rlt_dec 0 (dot a a)) as [L|L].
  - destruct (Rlt_dec 0 (k * k * dot a a)) as [M|M]; [|exfalso; apply M; repeat apply Rmult_lt_0_compat; assumption].
    rewrite sqrt_mult by nra. rewrite sqrt_square by lra. pose proof (sqrt_lt_R0 _ L). set (q := sqrt (dot a a)) in *.
    apply vec_eq; unfold scale, X, Y, Z; cbn [fst snd]; field; lra.
  - pose proof (dot_self_nonneg a). assert (Z0 : dot a a = 0) by lra. rewrite Z0, Rmult_0_r. destruct (Rlt_dec 0 0); [lra|].
    destruct a as [[x y] z]. unfold dot, X, Y, Z in Z0. cbn [fst snd] in Z0. assert (x = 0 /\ y = 0 /\ z = 0) as (-> & -> & ->) by (repeat split; nra).
    apply vec_eq; vec; ring.
Qed.
Lemma linear_scale k c tol cloud : 0 < k -> fst (align (times k c) tol cloud) = fst (align c tol cloud).
Proof.
  intros Hk. unfold align. rewrite times_set by assumption. generalize (setPlaneCoeffs c) as pl. intros pl.
  assert (E : axes (times k pl) = axes pl).
  { destruct pl as [[[a b] e] d]. unfold axes, times. cbn [fst]. change (k * a, k * b, k * e) with (scale k (a, b, e)).
    rewrite normalize_scale by assumption. reflexivity. }
  unfold compute. rewrite E. destruct (axes pl) as [[ax ay] az]. destruct (inlier_loop (times k pl) tol cloud (0, 0, 0) 0), (inlier_loop pl tol cloud (0, 0, 0) 0).
  reflexivity.
Qed.
Lemma scaling_matters : exists c k tol cloud, 0 < k /\ fst c <> (0, 0, 0) /\ align (times k c) tol cloud <> align c tol cloud.
Proof.
  set (c := ((0, 0, 1), 1) : plane). set (p := (5, 0, - (3 / 2)) : vec3). exists c, (1 / 100), (2 / 100), [p].
  assert (N0 : fst c <> (0, 0, 0)) by (cbn; intros E; injection E; lra). split; [lra|]. split; [exact N0|]. intros E.
  assert (E1 : setPlaneCoeffs c = c) by (unfold setPlaneCoeffs, c; cbn [fst snd]; destruct (Rlt_dec 0 1); [reflexivity|lra]).
  unfold align in E. rewrite times_set, E1 in E by lra.
  assert (F1 : filter (near_raw c (2 / 100)) [p] = []).
  { cbn [filter]. unfold near_raw, value, c, p. destruct (Rlt_dec _ _) as [L|L]; [|reflexivity]. exfalso.
    replace (0 * 5 + 0 * 0 + 1 * - (3 / 2) + 1) with (- (1 / 2)) in L by field. rewrite Rabs_left in L; lra. }
  assert (F2 : filter (near_raw (times (1 / 100) c) (2 / 100)) [p] = [p]).
  { cbn [filter]. unfold near_raw, value, times, c, p. destruct (Rlt_dec _ _) as [L|L]; [reflexivity|]. exfalso. apply L.
    match goal with |- Rabs ?v < _ => replace v with (- (1 / 200)) by field end. rewrite Rabs_left; lra. }
  pose proof (no_center c (2 / 100) [p] p N0 F1) as Q.
  assert (N1 : fst (times (1 / 100) c) <> (0, 0, 0)) by (cbn; intros K; injection K; lra).
  pose proof (center_mean (times (1 / 100) c) (2 / 100) [p] N1) as M. rewrite F2 in M. specialize (M ltac:(discriminate)).
  pose proof (compute_height c (2 / 100) [p] p N0) as HH.
  assert (PM : mean3 [p] = p) by (unfold mean3, p; cbn; apply triple_eq; field). rewrite PM, E in M. destruct M as [M1 M2].
  cbv zeta in Q. rewrite M1, M2 in Q. unfold height in HH. unfold Z in Q. rewrite HH in Q. unfold value, normal_norm, c, p in Q. cbn [fst snd] in Q.
  replace (0 * 0 + 0 * 0 + 1 * 1) with 1 in Q by ring. rewrite sqrt_1 in Q. vec. lra.
Qed.
Lemma far_matters : exists (c : plane) (tol : R) (cloud : list vec3) (p : vec3), fst c <> (0, 0, 0) /\ tol <= distance c p /\ align c tol (p :: cloud) <> align c tol cloud.
Proof.
  set (c := ((0, 0, 1 / 100), 1 / 100) : plane). set (p := (5, 0, - (3 / 2)) : vec3). exists c, (2 / 100), [], p.
  assert (N0 : fst c <> (0, 0, 0)) by (cbn; intros E; injection E; lra). split; [exact N0|].
  assert (NN : normal_norm c = 1 / 100). { unfold normal_norm, c. replace (0 * 0 + 0 * 0 + 1 / 100 * (1 / 100)) with (1 / 100 * (1 / 100)) by ring. apply sqrt_square. lra. }
  assert (V : value c p = - (1 / 200)) by (unfold value, c, p; field).
  split. { unfold distance. rewrite NN, V, Rabs_left by lra. lra. }
  intros E. assert (E1 : setPlaneCoeffs c = c) by (unfold setPlaneCoeffs, c; cbn [fst snd]; destruct (Rlt_dec 0 (1 / 100)); [reflexivity|lra]).
  unfold align in E. rewrite E1 in E.
  assert (F2 : filter (near_raw c (2 / 100)) [p] = [p]).
  { cbn [filter]. unfold near_raw. rewrite V, Rabs_left by lra. destruct (Rlt_dec _ _); [reflexivity|lra]. }
  pose proof (no_center c (2 / 100) [] p N0 eq_refl) as Q. pose proof (center_mean c (2 / 100) [p] N0) as M. rewrite F2 in M. specialize (M ltac:(discriminate)).
  pose proof (compute_height c (2 / 100) [] p N0) as HH.
  assert (PM : mean3 [p] = p) by (unfold mean3, p; cbn; apply triple_eq; field). rewrite PM, E in M. destruct M as [M1 M2].
  cbv zeta in Q. rewrite M1, M2 in Q. unfold height in HH. unfold Z in Q. rewrite HH, V, NN in Q. unfold p, c in Q. vec. lra.
Qed.
Lemma far_ignored (c : plane) (tol : R) (cloud : list vec3) (p : vec3) : normal_norm c = 1 -> tol <= distance c p -> align c tol (p :: cloud) = align c tol cloud.
Proof.
  intros N D. unfold align, compute. destruct (axes (setPlaneCoeffs c)) as [[ax ay] az]. rewrite !inliers_ok. cbn [filter].
  replace (near_raw (setPlaneCoeffs c) tol p) with false; [reflexivity|]. symmetry. unfold near_raw.
  replace (Rabs (value (setPlaneCoeffs c) p)) with (distance c p); [destruct (Rlt_dec _ _); [lra|reflexivity]|].
  unfold distance. rewrite N. unfold Rdiv. rewrite Rinv_1, Rmult_1_r. destruct c as [[[a b] e] d], p as [[x y] z]. unfold setPlaneCoeffs. cbn [fst snd].
  destruct (Rlt_dec 0 d); [reflexivity|]. unfold value, neg. vec. rewrite <- Rabs_Ropp. f_equal. ring.
Qed.
Lemma value_set (c : plane) p : Rabs (value (setPlaneCoeffs c) p) = Rabs (value c p).
Proof.
  destruct c as [[[a b] e] d], p as [[x y] z]. unfold setPlaneCoeffs. cbn [fst snd].
  destruct (Rlt_dec 0 d); [reflexivity|]. unfold value, neg. vec. rewrite <- Rabs_Ropp. f_equal. ring.
Qed.
Lemma near_set (c : plane) tol l : filter (near_raw (setPlaneCoeffs c) tol) l = filter (near_raw c tol) l.
Proof. induction l as [|p t IH]; [reflexivity|]. cbn [filter]. rewrite IH. unfold near_raw. rewrite value_set. reflexivity. Qed.
Lemma center_lemma (c : plane) tol cloud : fst c <> (0, 0, 0) ->
  let inliers := filter (near_raw c tol) cloud in
  (inliers <> [] -> let m := apply3 (align c tol cloud) (mean3 inliers) in fst (fst m) = 0 /\ snd (fst m) = 0) /\
  (inliers = [] -> apply3 (align c tol cloud) (0, 0, 0) = (0, 0, 0)).
Proof.
  intros H inliers. destruct (setPlaneCoeffs_ok c) as (_ & _ & _ & N & _). specialize (N H). unfold align. split.
  - intros NE. unfold inliers in *. rewrite <- near_set in *. apply center_mean; assumption.
  - intros E. unfold inliers in E. rewrite <- near_set in E. pose proof (no_center _ tol cloud (0, 0, 0) N E) as Q. cbv zeta in Q.
    set (m := apply3 _ _) in *. replace (dot (0, 0, 0) (0, 0, 0)) with 0 in Q by (vec; ring). clearbody m. destruct m as [[x y] z]. unfold X, Y, Z in Q. cbn [fst snd] in Q.
    apply triple_eq; nra.
Qed.
(** ** Heights and the x axis *)
Lemma value_sign (c : plane) p : value (setPlaneCoeffs c) p = if Rlt_dec 0 (snd c) then value c p else - value c p.
Proof.
  destruct c as [[[a b] e] d], p as [[x y] z]. unfold setPlaneCoeffs. cbn [fst snd]. destruct (Rlt_dec 0 d); [reflexivity|]. unfold value, neg. vec. ring.
Qed.
Lemma frame_lemma (c : plane) tol cloud : fst c <> (0, 0, 0) ->
  let t := align c tol cloud in
  rigid3 (apply3 t) /\
  (forall p, height (apply3 t p) = ((if Rlt_dec 0 (snd c) then value c p else - value c p) - Rabs (snd c)) / normal_norm c) /\
  (forall p, on_plane c p -> height (apply3 t p) = - (Rabs (snd c) / normal_norm c)).
Proof.
  intros H t. destruct (setPlaneCoeffs_ok c) as (_ & _ & P & N & M & A). specialize (N H).
  assert (HH : forall p, height (apply3 t p) = ((if Rlt_dec 0 (snd c) then value c p else - value c p) - Rabs (snd c)) / normal_norm c).
  { intros p. unfold t, align. rewrite compute_height by exact N. rewrite value_sign, A, M. reflexivity. }
  split; [apply compute_rigid, N|]. split; [exact HH|].
  intros p Hp. rewrite HH. unfold on_plane in Hp. rewrite Hp. destruct (Rlt_dec 0 (snd c)); unfold Rdiv; ring.
Qed.
Lemma value_origin (c : plane) : value c (0, 0, 0) = snd c.
Proof. destruct c as [[[a b] e] d]. unfold value. cbn [snd]. ring. Qed.
Lemma sensor_side (c : plane) tol cloud p : fst c <> (0, 0, 0) -> on_plane c p ->
  let t := align c tol cloud in
  height (apply3 t (0, 0, 0)) - height (apply3 t p) = distance c (0, 0, 0) /\ height (apply3 t (0, 0, 0)) = 0.
Proof.
  intros H Hp t. destruct (frame_lemma c tol cloud H) as (_ & A & B). fold t in A, B. pose proof (norm_pos c H) as NP.
  assert (Z0 : height (apply3 t (0, 0, 0)) = 0).
  { rewrite A, value_origin. destruct (Rlt_dec 0 (snd c)); [rewrite Rabs_right by lra|rewrite Rabs_left1 by lra]; field; lra. }
  split; [|exact Z0]. rewrite Z0, (B p Hp). unfold distance. rewrite value_origin. ring.
Qed.
Lemma zero_height (c : plane) tol cloud p q : fst c <> (0, 0, 0) -> on_plane c p ->
  (height (apply3 (align c tol cloud) p) = 0 <-> snd c = 0) /\
  (on_plane c q -> height (apply3 (align c tol cloud) p) = height (apply3 (align c tol cloud) q)).
Proof.
  intros H Hp. destruct (frame_lemma c tol cloud H) as (_ & _ & B). pose proof (norm_pos c H) as NP. split.
  - rewrite (B p Hp). split.
    + intros E. destruct (Req_dec (snd c) 0) as [E0|E0]; [exact E0|]. apply Rabs_pos_lt in E0.
      assert (0 < Rabs (snd c) / normal_norm c) by (apply Rdiv_lt_0_compat; assumption). lra.
    + intros ->. rewrite Rabs_R0. unfold Rdiv. ring.
  - intros Hq. rewrite (B p Hp), (B q Hq). reflexivity.
Qed.
Definition steep (a : vec3) : Prop := Rabs (X a) < Rabs (Z a) /\ Rabs (Y a) < Rabs (Z a).
Lemma chooseX_case a : (steep a -> chooseX (maxCoeff a) = (1, 0, 0)) /\ (~ steep a -> chooseX (maxCoeff a) = (0, 0, 1)).
Proof.
  unfold steep, maxCoeff. destruct (Rlt_dec (Rabs (X a)) (Rabs (Y a))) as [L|L].
  - destruct (Rlt_dec (Rabs (Y a)) (Rabs (Z a))) as [M|M]; cbn [chooseX]; split; intros S; try reflexivity; exfalso; [apply S|]; lra.
  - destruct (Rlt_dec (Rabs (X a)) (Rabs (Z a))) as [M|M]; cbn [chooseX]; split; intros S; try reflexivity; exfalso; [apply S|]; lra.
Qed.
Lemma steep_scale k a : k <> 0 -> (steep (scale k a) <-> steep a).
Proof.
  intros K. unfold steep. destruct a as [[x y] z]. vec. rewrite !Rabs_mult. apply Rabs_pos_lt in K. split; intros [A B]; split; nra.
Qed.
Lemma steep_set (c : plane) : steep (fst (setPlaneCoeffs c)) <-> steep (fst c).
Proof. unfold setPlaneCoeffs. destruct (Rlt_dec 0 (snd c)); [reflexivity|]. cbn [fst]. unfold steep, neg. destruct (fst c) as [[x y] z]. vec. rewrite !Rabs_Ropp. reflexivity. Qed.
Lemma chooseX_half az : dot az az = 1 -> Rsqr (dot (chooseX (maxCoeff az)) az) <= 1 / 2.
Proof.
  destruct az as [[x y] z]. unfold maxCoeff. intros H.
  assert (A : forall u v, Rabs u < Rabs v -> u * u < v * v). { intros u v L. apply Rsqr_lt_abs_1 in L. exact L. }
  assert (B : forall u v, ~ Rabs u < Rabs v -> v * v <= u * u). { intros u v L. apply Rsqr_le_abs_1. lra. }
  unfold Rsqr. vec. pose proof (Rle_0_sqr x) as X0. pose proof (Rle_0_sqr y) as Y0. unfold Rsqr in X0, Y0.
  destruct (Rlt_dec (Rabs x) (Rabs y)) as [L|L]; [apply A in L|apply B in L].
  - destruct (Rlt_dec (Rabs y) (Rabs z)) as [M|M]; [apply A in M|apply B in M]; cbn [chooseX]; vec; lra.
  - destruct (Rlt_dec (Rabs x) (Rabs z)) as [M|M]; [apply A in M|apply B in M]; cbn [chooseX]; vec; lra.
Qed.
Lemma axes_x pl : fst pl <> (0, 0, 0) -> let '(ax, ay, az) := axes pl in let e := chooseX (maxCoeff az) in
  exists a, 0 < a /\ 1 / 2 <= a * a /\ dot ax e = a /\ dot ay e = 0.
Proof.
  intros H. unfold axes. apply dot_self_pos in H. destruct (normalize_unit _ H) as [H1 _]. set (az := normalize (fst pl)) in *.
  destruct (chooseX_ok az H1) as [E1 _]. pose proof (chooseX_half az H1) as E2. set (e := chooseX (maxCoeff az)) in *. clearbody az e. unfold Rsqr in E2.
  set (w := sub e (scale (dot e az) az)).
  assert (W : dot w w = 1 - dot e az * dot e az).
  { replace (dot w w) with (dot e e - 2 * (dot e az * dot e az) + (dot e az * dot e az) * dot az az) by (unfold w; vec; ring). rewrite E1, H1. ring. }
  assert (WE : dot w e = dot w w). { rewrite W. replace (dot w e) with (dot e e - dot e az * dot e az) by (unfold w; vec; ring). rewrite E1. reflexivity. }
  assert (W0 : 0 < dot w w) by lra. destruct (normalize_unit w W0) as [_ N]. rewrite N.
  assert (Q : 0 < sqrt (dot w w)) by (apply sqrt_lt_R0; exact W0). assert (QQ : sqrt (dot w w) * sqrt (dot w w) = dot w w) by (apply sqrt_sqrt; lra).
  exists (sqrt (dot w w)). split; [exact Q|]. split; [rewrite QQ; lra|]. split.
  - replace (dot (scale (/ sqrt (dot w w)) w) e) with (/ sqrt (dot w w) * dot w e) by (vec; ring). rewrite WE. set (q := sqrt (dot w w)) in *. rewrite <- QQ. field. lra.
  - replace (dot (cross az (scale (/ sqrt (dot w w)) w)) e) with (/ sqrt (dot w w) * dot (cross az w) e) by (vec; ring).
    replace (dot (cross az w) e) with 0 by (unfold w; vec; ring). ring.
Qed.
Lemma apply_shift (m : mat3) (tr : vec3) p e : apply3 (m, tr) (shift p e) = shift (apply3 (m, tr) p) (mulv m e).
Proof.
  destruct m as [[[[? ?] ?] [[? ?] ?]] [[? ?] ?]], tr as [[? ?] ?], p as [[? ?] ?], e as [[? ?] ?]. unfold apply3, mulv, shift. vec. apply triple_eq; ring.
Qed.
Lemma x_axis (c : plane) tol cloud p : fst c <> (0, 0, 0) ->
  let t := align c tol cloud in let '(nx, ny, nz) := fst c in
  let steep := Rabs nx < Rabs nz /\ Rabs ny < Rabs nz in
  exists a h, 0 < a /\ 1 / 2 <= a * a /\
    (steep -> apply3 t (shift p (1, 0, 0)) = shift (apply3 t p) (a, 0, h)) /\
    (~ steep -> apply3 t (shift p (0, 0, 1)) = shift (apply3 t p) (a, 0, h)).
Proof.
  intros H t. destruct (fst c) as [[nx ny] nz] eqn:EC. intros st. rewrite <- EC in H.
  assert (ST : st <-> steep (fst c)) by (rewrite EC; unfold steep; vec; reflexivity). clearbody st. clear EC nx ny nz.
  destruct (setPlaneCoeffs_ok c) as (_ & _ & _ & N & M & _). specialize (N H). rewrite <- steep_set in ST. unfold t, align.
  set (pl := setPlaneCoeffs c) in *. clearbody pl. pose proof (axes_ok pl N) as A. pose proof (axes_x pl N) as X. pose proof (compute_ok pl tol cloud N) as C.
  destruct (axes pl) as [[ax ay] az]. destruct A as (_ & _ & _ & _ & E). cbv zeta in X. destruct X as (a & A0 & A1 & A2 & A3). rewrite C.
  exists a, (dot az (chooseX (maxCoeff az))). split; [exact A0|]. split; [exact A1|].
  assert (SA : steep az <-> steep (fst pl)).
  { rewrite E. apply steep_scale. apply Rinv_neq_0_compat, Rgt_not_eq, sqrt_lt_R0, dot_self_pos, N. }
  rewrite <- SA in ST. destruct (chooseX_case az) as [C1 C2].
  split; intros S; rewrite ST in S; [rewrite (C1 S) in *|rewrite (C2 S) in *]; rewrite apply_shift; unfold mulv; rewrite A2, A3; reflexivity.
Qed.
