(** * A step of the registration in space that moves the box away. *)
From Coq Require Import List Reals Bool Arith Lra Lia Psatz.
From Verif Require Import Base AlignerModel BoxModel BoxSpec BoxProofs BoxFit3.
Import ListNotations.
Open Scope R_scope.

Definition wdims : vec3 := (6, 4, 2).
Definition wcloud : list vec3 := [(2/5, 1, 19/20); (-2/5, -1, 19/20); (11/5, 2, 99/100); (-11/5, -2, 99/100)].
Definition wpairs : list (vec3 * vec3) :=
  [((2/5, 1, 1), (2/5, 1, 19/20)); ((-2/5, -1, 1), (-2/5, -1, 19/20)); ((11/5, 2, 99/100), (11/5, 2, 99/100)); ((-11/5, -2, 99/100), (-11/5, -2, 99/100))].
Definition wS : mat3 := ((10, 48/5, 0), (48/5, 10, 0), (0, 0, -1/2500)).

Lemma id_rotation : rotation3 (fst identity3).
Proof. unfold identity3, rotation3, orthogonal3. cbn [fst]. repeat split; lra. Qed.
Lemma apply_inv_id p : apply3 (inverse_tr3 identity3) p = p.
Proof.
  destruct p as [[x y] z]. unfold apply3, inverse_tr3, identity3, inverse, det3, mulv, of_columns. vec.
  apply AlignerProofs.triple_eq; field.
Qed.
Ltac decide_R := repeat match goal with |- context [Rlt_dec ?a ?b] => destruct (Rlt_dec a b); [try (exfalso; lra)|try (exfalso; lra)] end.
Lemma wassoc : associate_all3 wdims (inverse_tr3 identity3) wcloud = Ret wpairs.
Proof.
  unfold wcloud, wpairs. cbn [associate_all3]. rewrite !apply_inv_id. unfold wdims, X, Y, Z. cbn [fst snd].
  unfold associate, assoc_loop. decide_R. cbn [lset obind pack3]. repeat f_equal; lra.
Qed.
Lemma wcov : cross_cov3 wpairs (centroid3 (map fst wpairs)) (centroid3 (map snd wpairs)) (diag3 0 0 0) = wS /\
  centroid3 (map fst wpairs) = (0, 0, 199/200) /\ centroid3 (map snd wpairs) = (0, 0, 97/100).
Proof.
  assert (E1 : centroid3 (map fst wpairs) = (0, 0, 199/200)) by (unfold centroid3, wpairs; cbn [map fst total3 length INR]; apply AlignerProofs.triple_eq; field).
  assert (E2 : centroid3 (map snd wpairs) = (0, 0, 97/100)) by (unfold centroid3, wpairs; cbn [map snd total3 length INR]; apply AlignerProofs.triple_eq; field).
  split; [|split; assumption]. rewrite E1, E2. unfold wpairs, wS, diag3. cbn [cross_cov3]. unfold addm3, outer3. vec.
  apply AlignerProofs.triple_eq; apply AlignerProofs.triple_eq; field.
Qed.

(** A pair of singular vectors of [wS]. *)
Lemma wpair u v s : dot u u = 1 -> dot v v = 1 -> 0 <= s -> mulv wS v = scale s u -> mulv wS u = scale s v ->
  (s = 98/5 /\ u = v /\ X v = Y v /\ Z v = 0) \/ (s = 2/5 /\ u = v /\ X v = - Y v /\ Z v = 0) \/ (s = 1/2500 /\ u = neg v /\ X v = 0 /\ Y v = 0).
Proof.
  destruct u as [[a b] c], v as [[x y] z]. unfold wS, mulv. intros U V Hs E1 E2. vec. injection E1 as A1 A2 A3. injection E2 as B1 B2 B3.
  (* sums and differences *)
  assert (P1 : (s - 98/5) * (a + x + b + y) = 0) by lra. assert (P2 : (s - 2/5) * (a + x - b - y) = 0) by lra. assert (P3 : (s + 1/2500) * (c + z) = 0) by lra.
  assert (Q1 : (s + 98/5) * (a - x + b - y) = 0) by lra. assert (Q2 : (s + 2/5) * (a - x - b + y) = 0) by lra. assert (Q3 : (s - 1/2500) * (c - z) = 0) by lra.
  apply Rmult_integral in P1, P2, P3, Q1, Q2, Q3.
  assert (C : c = - z) by lra. assert (Q1' : a - x + b - y = 0) by lra. assert (Q2' : a - x - b + y = 0) by lra. assert (a = x) by lra. assert (b = y) by lra. subst a b c.
  destruct Q3 as [Q3|Q3].
  - right. right. split; [lra|]. assert (X0 : x = 0) by lra. assert (Y0 : y = 0) by lra. rewrite X0, Y0. split; [apply AlignerProofs.triple_eq; lra|auto].
  - assert (Z0 : z = 0) by lra. subst z. destruct P1 as [P1|P1].
    + left. split; [lra|]. split; [apply AlignerProofs.triple_eq; lra|]. split; lra.
    + destruct P2 as [P2|P2].
      * right. left. split; [lra|]. split; [apply AlignerProofs.triple_eq; lra|]. split; lra.
      * exfalso. assert (x = 0) by lra. assert (y = 0) by lra. subst. lra.
Qed.
Lemma svd_columns S U s V : svd3_ok S U s V -> let '(u0, u1, u2) := transpose U in let '(v0, v1, v2) := transpose V in let '(p, q, r) := s in
  (mulv S v0 = scale p u0 /\ mulv (transpose S) u0 = scale p v0) /\ (mulv S v1 = scale q u1 /\ mulv (transpose S) u1 = scale q v1) /\ (mulv S v2 = scale r u2 /\ mulv (transpose S) u2 = scale r v2) /\
  ortho u0 u1 u2 /\ ortho v0 v1 v2.
Proof.
  intros (HU & HV & _ & HS). apply transpose_orth in HU, HV.
  assert (SM : forall x, mulv S x = let '(u0, u1, u2) := transpose U in let '(v0, v1, v2) := transpose V in let '(p, q, r) := s in
    add (add (scale (p * dot v0 x) u0) (scale (q * dot v1 x) u1)) (scale (r * dot v2 x) u2)).
  { intros [[? ?] ?]. destruct U as [[[[? ?] ?] [[? ?] ?]] [[? ?] ?]], V as [[[[? ?] ?] [[? ?] ?]] [[? ?] ?]], s as [[? ?] ?]. rewrite HS. cbn [transpose of_columns]. unfold mulv, of_columns. vec. apply AlignerProofs.triple_eq; ring. }
  assert (TM : forall x, mulv (transpose S) x = let '(u0, u1, u2) := transpose U in let '(v0, v1, v2) := transpose V in let '(p, q, r) := s in
    add (add (scale (p * dot u0 x) v0) (scale (q * dot u1 x) v1)) (scale (r * dot u2 x) v2)).
  { intros [[? ?] ?]. destruct U as [[[[? ?] ?] [[? ?] ?]] [[? ?] ?]], V as [[[[? ?] ?] [[? ?] ?]] [[? ?] ?]], s as [[? ?] ?]. rewrite HS. cbn [transpose of_columns]. unfold mulv, of_columns. vec. apply AlignerProofs.triple_eq; ring. }
  destruct (transpose U) as [[u0 u1] u2], (transpose V) as [[v0 v1] v2], s as [[p q] r]. apply ortho_iff in HU, HV.
  destruct HU as (A & B & C & AB & AC & BC), HV as (A' & B' & C' & AB' & AC' & BC').
  assert (Cm : forall a b, dot a b = dot b a) by (intros; vec; ring).
  rewrite !SM, !TM, A, B, C, A', B', C'. rewrite ?(Cm u1 u0), ?(Cm u2 u0), ?(Cm u2 u1), ?(Cm v1 v0), ?(Cm v2 v0), ?(Cm v2 v1). rewrite AB, AC, BC, AB', AC', BC'.
  repeat split; try assumption; apply AlignerProofs.vec_eq; vec; ring.
Qed.

Lemma wfit U s V : svd3_ok wS U s V -> fit3 U V = ((0, 1, 0), (1, 0, 0), (0, 0, -1)).
Proof.
  intros OK. pose proof (svd_columns _ _ _ _ OK) as C. pose proof OK as (HU & HV & Hs & _).
  assert (TS : transpose wS = wS) by reflexivity.
  pose proof (fit3_cols U V HU) as F. destruct (flip_det U V HU HV) as [F1 F2].
  assert (FR : s = (98/5, 2/5, 1/2500)).
  { assert (FB : let '(p, q, r) := s in p * p + q * q + r * r = 200 + 2 * (48/5) * (48/5) + 1/2500 * (1/2500)).
    { destruct OK as (_ & _ & _ & HS). pose proof (svd_columns _ _ _ _ ltac:(repeat split; [exact HU|exact HV|exact Hs|exact HS])) as C'.
      (* |S|^2 = sum of |S v_k|^2 *)
      destruct (transpose U) as [[u0 u1] u2]. pose proof (transpose_orth V HV) as TV. destruct (transpose V) as [[v0 v1] v2] eqn:EV. destruct s as [[p q] r].
      destruct C' as ((C0 & _) & (C1 & _) & (C2 & _) & OU & OV).
      assert (L : dot (mulv wS v0) (mulv wS v0) + dot (mulv wS v1) (mulv wS v1) + dot (mulv wS v2) (mulv wS v2) = p * p + q * q + r * r).
      { rewrite C0, C1, C2. destruct OU as (A & B & D & _). replace (dot (scale p u0) (scale p u0)) with (p * p * dot u0 u0) by (vec; ring). replace (dot (scale q u1) (scale q u1)) with (q * q * dot u1 u1) by (vec; ring). replace (dot (scale r u2) (scale r u2)) with (r * r * dot u2 u2) by (vec; ring). rewrite A, B, D. ring. }
      rewrite <- L. pose proof (parseval v0 v1 v2 OV) as PV.
      transitivity (let f w := dot v0 w * dot v0 w + dot v1 w * dot v1 w + dot v2 w * dot v2 w in f (10, 48/5, 0) + f (48/5, 10, 0) + f (0, 0, -1/2500)).
      - unfold wS, mulv. vec. ring.
      - cbv beta zeta. rewrite !PV. clear. vec. lra. }
    destruct (transpose U) as [[u0 u1] u2], (transpose V) as [[v0 v1] v2], s as [[p q] r]. rewrite TS in C.
    destruct C as ((C0 & D0) & (C1 & D1) & (C2 & D2) & OU & OV). destruct OU as (A & B & D & _), OV as (A' & B' & D' & _). destruct Hs as (H1 & H2 & H3).
    destruct (wpair u0 v0 p A A' ltac:(lra) C0 D0) as [(E0 & _)|[(E0 & _)|(E0 & _)]]; destruct (wpair u1 v1 q B B' ltac:(lra) C1 D1) as [(E1 & _)|[(E1 & _)|(E1 & _)]];
    destruct (wpair u2 v2 r D D' ltac:(lra) C2 D2) as [(E2 & _)|[(E2 & _)|(E2 & _)]]; subst p q r; try (exfalso; lra). reflexivity. }
  subst s. assert (FN : flip U V = - (1)).
  { unfold flip. rewrite det_mulm, det_transpose. destruct OK as (_ & _ & _ & HS).
    assert (DS : det3 wS = det3 U * det3 V * (98/5 * (2/5) * (1/2500))).
    { clear - HS. destruct U as [[[[? ?] ?] [[? ?] ?]] [[? ?] ?]], V as [[[[? ?] ?] [[? ?] ?]] [[? ?] ?]]. rewrite HS. unfold det3. vec. field. }
    assert (DW : det3 wS = - (784/250000)) by (unfold wS, det3; vec; field). rewrite DW in DS.
    destruct (Rlt_dec 0 (det3 V * det3 U)) as [L|L]; [exfalso; lra|reflexivity]. }
  rewrite FN in F. set (M := fit3 U V) in *. clearbody M. clear FN F1 F2. destruct (transpose U) as [[u0 u1] u2], (transpose V) as [[v0 v1] v2]. rewrite TS in C.
  destruct C as ((C0 & D0) & (C1 & D1) & (C2 & D2) & OU & OV). destruct F as (G0 & G1 & G2). pose proof OU as (A & B & D & _). pose proof OV as (A' & B' & D' & _).
  destruct (wpair u0 v0 (98/5) A A' ltac:(lra) C0 D0) as [(_ & E0 & X0 & Z0)|[(E0 & _)|(E0 & _)]]; [|exfalso; lra..].
  destruct (wpair u1 v1 (2/5) B B' ltac:(lra) C1 D1) as [(E1 & _)|[(_ & E1 & X1 & Z1)|(E1 & _)]]; [exfalso; lra| |exfalso; lra].
  destruct (wpair u2 v2 (1/2500) D D' ltac:(lra) C2 D2) as [(E2 & _)|[(E2 & _)|(_ & E2 & X2 & Y2)]]; [exfalso; lra..|]. subst u0 u1 u2. clear - X0 Z0 X1 Z1 X2 Y2 G0 G1 G2 A' B' D'.
  destruct v0 as [[x0 y0] z0], v1 as [[x1 y1] z1], v2 as [[x2 y2] z2]. destruct M as [[[[m0 m1] m2] [[m3 m4] m5]] [[m6 m7] m8]]. unfold mulv in *. vec. subst x0 z0 x1 z1 x2 y2.
  pose proof (f_equal (fun v => fst (fst v)) G0) as a0. pose proof (f_equal (fun v => snd (fst v)) G0) as a1. pose proof (f_equal snd G0) as a2.
  pose proof (f_equal (fun v => fst (fst v)) G1) as b0. pose proof (f_equal (fun v => snd (fst v)) G1) as b1. pose proof (f_equal snd G1) as b2.
  pose proof (f_equal (fun v => fst (fst v)) G2) as c0. pose proof (f_equal (fun v => snd (fst v)) G2) as c1. pose proof (f_equal snd G2) as c2. cbn [fst snd] in a0, a1, a2, b0, b1, b2, c0, c1, c2.
  assert (N0 : y0 <> 0) by (intros ->; lra). assert (N1 : y1 <> 0) by (intros ->; lra). assert (N2 : z2 <> 0) by (intros ->; lra).
  assert (K : forall x y, y <> 0 -> x * y = 0 -> x = 0) by (intros x y Hy E; apply Rmult_integral in E; tauto).
  assert (e1 := K (m0 + m1 - 1) y0 N0 ltac:(lra)). assert (e2 := K (m3 + m4 - 1) y0 N0 ltac:(lra)). assert (e3 := K (m6 + m7) y0 N0 ltac:(lra)).
  assert (e4 := K (m1 - m0 - 1) y1 N1 ltac:(lra)). assert (e5 := K (m4 - m3 + 1) y1 N1 ltac:(lra)). assert (e6 := K (m7 - m6) y1 N1 ltac:(lra)).
  assert (e7 := K m2 z2 N2 ltac:(lra)). assert (e8 := K m5 z2 N2 ltac:(lra)). assert (e9 := K (m8 + 1) z2 N2 ltac:(lra)).
  apply AlignerProofs.triple_eq; apply AlignerProofs.triple_eq; lra.
Qed.

Lemma wstep svd : conforming3 svd -> computeTransform3 svd wdims wcloud identity3 = Ret (Some (((0, 1, 0), (1, 0, 0), (0, 0, -1)), (0, 0, 393/200))).
Proof.
  intros HS. unfold computeTransform3. rewrite wassoc. cbn [obind]. destruct (procrustes3_fit svd wpairs ltac:(discriminate) HS) as (U & s & V & OK & P).
  rewrite P. destruct wcov as (E1 & E2 & E3). rewrite E1 in OK. apply wfit in OK. rewrite OK, E2, E3. unfold wcloud. do 3 f_equal.
  unfold mulv. vec. apply AlignerProofs.triple_eq; lra.
Qed.
Lemma worse svd e : conforming3 svd -> error3 wdims identity3 wcloud e -> exists t', computeTransform3 svd wdims wcloud identity3 = Ret (Some t') /\
  forall e', error3 wdims t' wcloud e' -> e < e'.
Proof.
  intros HS (l & M & ->). eexists. split; [apply wstep, HS|]. intros e' (l' & M' & ->).
  assert (D0 : sides3 wdims) by (unfold sides3, wdims; lra).
  destruct (associate_all3_ok wdims identity3 D0 id_rotation wcloud) as (l0 & E0 & M0). rewrite wassoc in E0. injection E0 as <-.
  pose proof (matched3_cost wdims identity3 identity3 id_rotation wcloud wpairs l M0 M) as L.
  assert (C0 : cost3 identity3 wpairs = 1/200). { unfold wpairs, identity3. cbn [cost3]. unfold sq3, act3. lra. }
  rewrite C0 in L. apply Rle_lt_trans with (1/200); [exact L|]. clear L C0 M0 M D0 HS.
  set (t' := ((0, 1, 0), (1, 0, 0), (0, 0, -1), (0, 0, 393/200))) in *.
  destruct M' as [M1 M2]. destruct l' as [|[m1 c1] [|[m2 c2] [|[m3 c3] [|[m4 c4] [|? ?]]]]]; try discriminate. cbn [map snd] in M1. unfold wcloud in M1. injection M1 as -> -> -> ->.
  inversion M2 as [|? ? _ M2a]. inversion M2a as [|? ? _ M2b]. inversion M2b as [|? ? (q & Q1 & [Q2 Q3]) _]. subst. cbn [fst snd] in *.
  assert (B : 4/100 <= sq3 (11/5, 2, 99/100) (act3 t' m3)).
  { destruct Q2 as [[_ Q2] _]. specialize (Q2 1%nat ltac:(cbn; lia)). destruct m3 as [[x y] z]. cbn in Q2. unfold sq3, act3, t'. cbn.
    assert (0 <= (2 - (1 * x + 0 * y + 0 * z + 0)) * (2 - (1 * x + 0 * y + 0 * z + 0))) by apply Rle_0_sqr.
    assert (0 <= (99/100 - (0 * x + 0 * y + -1 * z + 393/200)) * (99/100 - (0 * x + 0 * y + -1 * z + 393/200))) by apply Rle_0_sqr.
    assert (4/100 <= (11/5 - (0 * x + 1 * y + 0 * z + 0)) * (11/5 - (0 * x + 1 * y + 0 * z + 0))) by nra. lra. }
  assert (P : forall a b, 0 <= sq3 a b) by (intros a b; rewrite sq3_dot; apply AlignerProofs.dot_self_nonneg).
  cbn [cost3]. pose proof (P (2 / 5, 1, 19 / 20) (act3 t' m1)). pose proof (P (-2 / 5, -1, 19 / 20) (act3 t' m2)). pose proof (P (-11 / 5, -2, 99 / 100) (act3 t' m4)). lra.
Qed.
