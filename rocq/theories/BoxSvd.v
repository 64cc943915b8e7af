(** * Every 3x3 matrix has a singular value decomposition. *)
From Coq Require Import List Reals Bool Arith Lra Lia Psatz.
From Verif Require Import Base AlignerModel BoxModel BoxSpec BoxProofs BoxFit BoxFit3.
Import ListNotations.
Open Scope R_scope.

Lemma cubic_root a b c : exists x, x * x * x + a * x * x + b * x + c = 0.
Proof.
  set (f := fun x : R => x * x * x + a * x * x + b * x + c). assert (Cf : continuity f) by (unfold f; reg).
  set (A := Rabs a). set (B := Rabs b). set (C := Rabs c). set (M := 1 + A + B + C).
  assert (HA : 0 <= A) by apply Rabs_pos. assert (HB : 0 <= B) by apply Rabs_pos. assert (HC : 0 <= C) by apply Rabs_pos.
  assert (LA : - A <= a <= A) by (unfold A, Rabs; destruct (Rcase_abs a); lra). assert (LB : - B <= b <= B) by (unfold B, Rabs; destruct (Rcase_abs b); lra). assert (LC : - C <= c <= C) by (unfold C, Rabs; destruct (Rcase_abs c); lra).
  assert (HM : 1 <= M) by (unfold M; lra). assert (MM : M <= M * M) by nra.
  assert (K : forall k K, - K <= k <= K -> forall x, 0 <= x -> - (K * x) <= k * x <= K * x) by (intros; split; nra).
  assert (E : M * M * M = M * M + A * (M * M) + B * (M * M) + C * (M * M)) by (unfold M at 3; ring).
  assert (B1 : B * M <= B * (M * M)) by (apply Rmult_le_compat_l; lra). assert (C1 : C * 1 <= C * (M * M)) by (apply Rmult_le_compat_l; lra).
  pose proof (K a A LA (M * M) ltac:(nra)) as KA. pose proof (K b B LB M ltac:(lra)) as KB. clearbody A B C M. clear K.
  destruct (IVT f (- M) M Cf ltac:(lra)) as (z & _ & Hz).
  - unfold f. replace (- M * - M * - M) with (- (M * M * M)) by ring. replace (a * - M * - M) with (a * (M * M)) by ring. replace (b * - M) with (- (b * M)) by ring. lra.
  - unfold f. replace (a * M * M) with (a * (M * M)) by ring. lra.
  - exists z. exact Hz.
Qed.

Lemma unit_scale v : v <> (0, 0, 0) -> exists k, k <> 0 /\ dot (scale k v) (scale k v) = 1.
Proof.
  intros H. apply AlignerProofs.dot_self_pos in H. assert (HS : 0 < sqrt (dot v v)) by (apply sqrt_lt_R0; exact H). exists (/ sqrt (dot v v)). split; [apply Rinv_neq_0_compat; lra|].
  replace (dot (scale (/ sqrt (dot v v)) v) (scale (/ sqrt (dot v v)) v)) with (/ sqrt (dot v v) * / sqrt (dot v v) * dot v v) by (generalize (/ sqrt (dot v v)); intros; vec; ring).
  rewrite <- (sqrt_sqrt (dot v v)) at 3 by lra. field. lra.
Qed.
Lemma cross_ortho v e : dot v v = 1 -> dot e e = 1 -> dot v e = 0 -> ortho v e (cross v e).
Proof.
  intros H1 H2 H3. assert (L : dot (cross v e) (cross v e) = dot v v * dot e e - dot v e * dot v e) by (vec; ring). rewrite H1, H2, H3 in L.
  repeat split; try assumption; [lra|vec; ring|vec; ring].
Qed.
Lemma complete v : dot v v = 1 -> exists a b, ortho v a b.
Proof.
  intros H. destruct v as [[x y] z].
  destruct (Req_dec (x * x + y * y) 0) as [E|E].
  - assert (x = 0 /\ y = 0) as [-> ->] by (split; nra). exists (1, 0, 0), (0, 1, 0). unfold ortho. vec. repeat split; lra.
  - destruct (unit_scale (- y, x, 0)) as (k & _ & Hk); [intros E'; injection E' as E1 E2; apply E; assert (y = 0) by lra; subst; ring|].
    exists (scale k (- y, x, 0)), (cross (x, y, z) (scale k (- y, x, 0))). apply cross_ortho; [exact H|exact Hk|]. vec. ring.
Qed.
Lemma perp v : exists w, dot w w = 1 /\ dot v w = 0.
Proof.
  destruct v as [[x y] z]. destruct (Req_dec x 0) as [->|Ex]; [exists (1, 0, 0); vec; split; ring|].
  destruct (unit_scale (- y, x, 0)) as (k & _ & Hk); [intros E; injection E; intros; lra|]. exists (scale k (- y, x, 0)). split; [exact Hk|]. vec. ring.
Qed.
Lemma vec_dec (v : vec3) : v = (0, 0, 0) \/ v <> (0, 0, 0).
Proof.
  destruct v as [[x y] z]. destruct (Req_dec x 0) as [->|]; [|right; intros E; injection E; intros; contradiction].
  destruct (Req_dec y 0) as [->|]; [|right; intros E; injection E; intros; contradiction]. destruct (Req_dec z 0) as [->|]; [left; reflexivity|right; intros E; injection E; intros; contradiction].
Qed.
Lemma kernel N : det3 N = 0 -> exists v, dot v v = 1 /\ mulv N v = (0, 0, 0).
Proof.
  destruct N as [[a b] c]. intros D. unfold det3 in D. unfold mulv.
  assert (G : forall w, w <> (0, 0, 0) -> dot a w = 0 -> dot b w = 0 -> dot c w = 0 -> exists v, dot v v = 1 /\ (dot a v, dot b v, dot c v) = (0, 0, 0)).
  { intros w Hw A B C. destruct (unit_scale w Hw) as (k & _ & Hk). exists (scale k w). split; [exact Hk|].
    apply AlignerProofs.triple_eq; [transitivity (k * dot a w); [vec; ring|rewrite A; ring]|transitivity (k * dot b w); [vec; ring|rewrite B; ring]|transitivity (k * dot c w); [vec; ring|rewrite C; ring]]. }
  destruct (vec_dec (cross b c)) as [E1|E1]; [|apply (G _ E1); [exact D|vec; ring|vec; ring]].
  destruct (vec_dec (cross c a)) as [E2|E2]; [|apply (G _ E2); [vec; ring|rewrite <- D; vec; ring|vec; ring]].
  destruct (vec_dec (cross a b)) as [E3|E3]; [|apply (G _ E3); [vec; ring|vec; ring|rewrite <- D; vec; ring]].
  (* all rows are parallel *)
  assert (P : forall x y w, cross x y = (0, 0, 0) -> x <> (0, 0, 0) -> dot x w = 0 -> dot y w = 0).
  { intros x y w Ex Nx Xw. apply AlignerProofs.dot_self_pos in Nx.
    assert (I : dot x x * dot y w = dot x y * dot x w + dot (cross x y) (cross x w)) by (vec; ring).
    rewrite Ex, Xw in I. replace (dot (0, 0, 0) (cross x w)) with 0 in I by (vec; ring). assert (Z : dot x x * dot y w = 0) by lra. apply Rmult_integral in Z. destruct Z; [lra|assumption]. }
  assert (AC : cross a c = (0, 0, 0)). { transitivity (neg (cross c a)); [apply AlignerProofs.vec_eq; vec; ring|]. rewrite E2. apply AlignerProofs.vec_eq; vec; ring. }
  destruct (vec_dec a) as [->|Na].
  - destruct (vec_dec b) as [->|Nb].
    + destruct (perp c) as (w & W1 & W2). exists w. split; [exact W1|]. apply AlignerProofs.triple_eq; [vec; ring|vec; ring|exact W2].
    + destruct (perp b) as (w & W1 & W2). exists w. split; [exact W1|]. apply AlignerProofs.triple_eq; [vec; ring|exact W2|apply (P b c w E1 Nb W2)].
  - destruct (perp a) as (w & W1 & W2). exists w. split; [exact W1|]. apply AlignerProofs.triple_eq; [exact W2|apply (P a b w E3 Na W2)|apply (P a c w AC Na W2)].
Qed.

Lemma eigenvector M : exists v k, dot v v = 1 /\ mulv M v = scale k v.
Proof.
  destruct M as [[[[a b] c] [[d e] f]] [[g h] i]].
  destruct (cubic_root (- (a + e + i)) (a * e - b * d + (a * i - c * g) + (e * i - f * h)) (- (a * (e * i - f * h) - b * (d * i - f * g) + c * (d * h - e * g)))) as (k & Hk).
  destruct (kernel ((a - k, b, c), (d, e - k, f), (g, h, i - k))) as (v & V1 & V2).
  { unfold det3. vec. lra. }
  exists v, k. split; [exact V1|]. destruct v as [[x y] z]. unfold mulv in *. vec.
  pose proof (f_equal (fun v => fst (fst v)) V2) as a0. pose proof (f_equal (fun v => snd (fst v)) V2) as a1. pose proof (f_equal snd V2) as a2. cbn [fst snd] in *. apply AlignerProofs.triple_eq; lra.
Qed.

(** An orthonormal basis with orthogonal images. *)
Definition basis (S : mat3) (a b c : vec3) : Prop :=
  ortho a b c /\ dot (mulv S a) (mulv S b) = 0 /\ dot (mulv S a) (mulv S c) = 0 /\ dot (mulv S b) (mulv S c) = 0.
Lemma adjoint S u w : dot (mulv S u) (mulv S w) = dot (mulv (mulm (transpose S) S) u) w.
Proof. destruct S as [[[[? ?] ?] [[? ?] ?]] [[? ?] ?]], u as [[? ?] ?], w as [[? ?] ?]. unfold mulm, mulv, transpose, of_columns. vec. ring. Qed.
Lemma basis_exists S : exists a b c, basis S a b c.
Proof.
  destruct (eigenvector (mulm (transpose S) S)) as (v & k & V1 & V2). destruct (complete v V1) as (e & f & O).
  destruct O as (_ & O2 & O3 & O4 & O5 & O6).
  destruct (polar0 ((dot (mulv S e) (mulv S e) - dot (mulv S f) (mulv S f)) / 2) (dot (mulv S e) (mulv S f))) as (r & phi & _ & R1 & R2).
  set (th := phi / 2). assert (Ep : phi = th + th) by (unfold th; lra). rewrite Ep in R1, R2. rewrite cos_plus in R1. rewrite sin_plus in R2. clearbody th. clear Ep phi.
  pose proof (sin2_cos2 th) as CS. unfold Rsqr in CS. set (cc := cos th) in *. set (ss := sin th) in *. clearbody cc ss.
  exists v, (add (scale cc e) (scale ss f)), (add (scale (- ss) e) (scale cc f)).
  assert (I0 : forall w, dot v w = 0 -> dot (mulv S v) (mulv S w) = 0) by (intros w Hw; rewrite adjoint, V2; transitivity (k * dot v w); [vec; ring|rewrite Hw; ring]).
  assert (B1 : dot v (add (scale cc e) (scale ss f)) = 0) by (transitivity (cc * dot v e + ss * dot v f); [vec; ring|rewrite O4, O5; ring]).
  assert (B2 : dot v (add (scale (- ss) e) (scale cc f)) = 0) by (transitivity (- ss * dot v e + cc * dot v f); [vec; ring|rewrite O4, O5; ring]).
  split; [|split; [apply I0, B1|split; [apply I0, B2|]]].
  - repeat split; try assumption.
    + transitivity (cc * cc * dot e e + ss * ss * dot f f + 2 * cc * ss * dot e f); [vec; ring|]. rewrite O2, O3, O6. lra.
    + transitivity (ss * ss * dot e e + cc * cc * dot f f - 2 * cc * ss * dot e f); [vec; ring|]. rewrite O2, O3, O6. lra.
    + transitivity (cc * ss * (dot f f - dot e e) + (cc * cc - ss * ss) * dot e f); [vec; ring|]. rewrite O2, O3, O6. lra.
  - assert (L : forall x y, mulv S (add (scale x e) (scale y f)) = add (scale x (mulv S e)) (scale y (mulv S f))) by (intros; destruct S as [[? ?] ?]; unfold mulv; apply AlignerProofs.vec_eq; vec; ring).
    rewrite !L. set (E := mulv S e) in *. set (F := mulv S f) in *. clearbody E F.
    transitivity (cc * ss * (dot F F - dot E E) + (cc * cc - ss * ss) * dot E F); [vec; ring|].
    assert (R1' : dot F F - dot E E = - 2 * (r * (cc * cc - ss * ss))) by lra. rewrite R1', R2. ring.
Qed.
Lemma basis_sorted S : exists a b c, basis S a b c /\ dot (mulv S c) (mulv S c) <= dot (mulv S b) (mulv S b) /\ dot (mulv S b) (mulv S b) <= dot (mulv S a) (mulv S a).
Proof.
  destruct (basis_exists S) as (a & b & c & HB). assert (Cm : forall x y, dot x y = dot y x) by (intros; vec; ring).
  assert (S1 : forall a b c, basis S a b c -> basis S b a c).
  { intros x y z ((A & B & C & AB & AC & BC) & H1 & H2 & H3). split; [repeat split|repeat split]; try assumption; rewrite Cm; assumption. }
  assert (S2 : forall a b c, basis S a b c -> basis S a c b).
  { intros x y z ((A & B & C & AB & AC & BC) & H1 & H2 & H3). split; [repeat split|repeat split]; try assumption; rewrite Cm; assumption. }
  set (n := fun v => dot (mulv S v) (mulv S v)). change (exists a b c, basis S a b c /\ n c <= n b /\ n b <= n a). clearbody n.
  destruct (Rle_dec (n a) (n b)), (Rle_dec (n b) (n c)), (Rle_dec (n a) (n c));
  first [exists a, b, c; split; [assumption|lra] | exists a, c, b; split; [auto|lra] | exists b, a, c; split; [auto|lra]
    | exists b, c, a; split; [auto|lra] | exists c, a, b; split; [auto|lra] | exists c, b, a; split; [auto|lra] ].
Qed.

Lemma direction S v p : 0 < p -> p * p = dot (mulv S v) (mulv S v) -> let u := scale (/ p) (mulv S v) in dot u u = 1 /\ mulv S v = scale p u.
Proof.
  intros Hp E u. split.
  - unfold u. transitivity (/ p * / p * dot (mulv S v) (mulv S v)); [vec; ring|]. rewrite <- E. field. lra.
  - unfold u. apply AlignerProofs.vec_eq; vec; field; lra.
Qed.
Lemma zero_image S v : dot (mulv S v) (mulv S v) = 0 -> forall u, mulv S v = scale 0 u.
Proof.
  intros E u. destruct (vec_dec (mulv S v)) as [Z|Z]; [rewrite Z; apply AlignerProofs.vec_eq; vec; ring|]. apply AlignerProofs.dot_self_pos in Z. lra.
Qed.
Lemma svd3_exists S : exists U s V, svd3_ok S U s V.
Proof.
  destruct (basis_sorted S) as (a & b & c & (O & I1 & I2 & I3) & L1 & L2).
  assert (N : forall v, exists p, 0 <= p /\ p * p = dot (mulv S v) (mulv S v)) by (intros v; exists (sqrt (dot (mulv S v) (mulv S v))); split; [apply sqrt_pos|apply sqrt_sqrt, AlignerProofs.dot_self_nonneg]).
  destruct (N a) as (p & Hp & Ep), (N b) as (q & Hq & Eq), (N c) as (r & Hr & Er).
  assert (Lq : r <= q) by nra. assert (Lp : q <= p) by nra.
  assert (HU : exists u0 u1 u2, ortho u0 u1 u2 /\ mulv S a = scale p u0 /\ mulv S b = scale q u1 /\ mulv S c = scale r u2).
  { destruct (Req_dec p 0) as [Zp|Zp].
    - subst p. assert (q = 0) by lra. assert (r = 0) by lra. subst q r. exists (1, 0, 0), (0, 1, 0), (0, 0, 1). split; [unfold ortho; vec; repeat split; ring|].
      repeat split; apply zero_image; lra.
    - destruct (direction S a p ltac:(lra) Ep) as [D1 D2]. set (u0 := scale (/ p) (mulv S a)) in *. clearbody u0. destruct (Req_dec q 0) as [Zq|Zq].
      + subst q. assert (r = 0) by lra. subst r. destruct (complete u0 D1) as (u1 & u2 & OU). exists u0, u1, u2. split; [exact OU|]. split; [exact D2|]. split; apply zero_image; lra.
      + destruct (direction S b q ltac:(lra) Eq) as [D3 D4]. set (u1 := scale (/ q) (mulv S b)) in *. clearbody u1.
        assert (D5 : dot u0 u1 = 0). { rewrite D2, D4 in I1. assert (Z : p * q * dot u0 u1 = 0) by (rewrite <- I1; vec; ring). apply Rmult_integral in Z. destruct Z as [Z|Z]; [apply Rmult_integral in Z; tauto|exact Z]. }
        destruct (Req_dec r 0) as [Zr|Zr].
        * subst r. exists u0, u1, (cross u0 u1). split; [apply cross_ortho; assumption|]. split; [exact D2|]. split; [exact D4|]. apply zero_image. lra.
        * destruct (direction S c r ltac:(lra) Er) as [D6 D7]. set (u2 := scale (/ r) (mulv S c)) in *. clearbody u2. exists u0, u1, u2.
          assert (D8 : dot u0 u2 = 0). { rewrite D2, D7 in I2. assert (Z : p * r * dot u0 u2 = 0) by (rewrite <- I2; vec; ring). apply Rmult_integral in Z. destruct Z as [Z|Z]; [apply Rmult_integral in Z; tauto|exact Z]. }
          assert (D9 : dot u1 u2 = 0). { rewrite D4, D7 in I3. assert (Z : q * r * dot u1 u2 = 0) by (rewrite <- I3; vec; ring). apply Rmult_integral in Z. destruct Z as [Z|Z]; [apply Rmult_integral in Z; tauto|exact Z]. }
          split; [repeat split; assumption|]. auto. }
  destruct HU as (u0 & u1 & u2 & OU & M1 & M2 & M3).
  exists (of_columns u0 u1 u2), (p, q, r), (of_columns a b c).
  assert (T : forall x y z, ortho x y z -> orthogonal3 (of_columns x y z)) by (intros x y z H; apply ortho_iff in H; apply transpose_orth in H; exact H).
  split; [apply T, OU|]. split; [apply T, O|]. split; [lra|].
  pose proof (parseval a b c O) as PV. destruct S as [[s0 s1] s2]. unfold mulv in M1, M2, M3.
  destruct u0 as [[u00 u01] u02], u1 as [[u10 u11] u12], u2 as [[u20 u21] u22]. unfold scale, X, Y, Z in M1, M2, M3. cbn [fst snd] in M1, M2, M3.
  pose proof (f_equal (fun v => fst (fst v)) M1) as e00. pose proof (f_equal (fun v => snd (fst v)) M1) as e01. pose proof (f_equal snd M1) as e02.
  pose proof (f_equal (fun v => fst (fst v)) M2) as e10. pose proof (f_equal (fun v => snd (fst v)) M2) as e11. pose proof (f_equal snd M2) as e12.
  pose proof (f_equal (fun v => fst (fst v)) M3) as e20. pose proof (f_equal (fun v => snd (fst v)) M3) as e21. pose proof (f_equal snd M3) as e22. cbn [fst snd] in *. clear M1 M2 M3.
  assert (Cm : forall x y, dot x y = dot y x) by (intros; vec; ring).
  assert (PX : forall s w, dot s w = dot s a * dot a w + dot s b * dot b w + dot s c * dot c w) by (intros; rewrite <- PV; rewrite (Cm a s), (Cm b s), (Cm c s); ring).
  clear PV. pose proof (PX s0) as P0. pose proof (PX s1) as P1. pose proof (PX s2) as P2. clear PX. rewrite e00, e10, e20 in P0. rewrite e01, e11, e21 in P1. rewrite e02, e12, e22 in P2. clear - P0 P1 P2.
  pose proof (P0 (1, 0, 0)) as a0. pose proof (P0 (0, 1, 0)) as a1. pose proof (P0 (0, 0, 1)) as a2. pose proof (P1 (1, 0, 0)) as b0. pose proof (P1 (0, 1, 0)) as b1. pose proof (P1 (0, 0, 1)) as b2.
  pose proof (P2 (1, 0, 0)) as c0. pose proof (P2 (0, 1, 0)) as c1. pose proof (P2 (0, 0, 1)) as c2. clear P0 P1 P2.
  destruct s0 as [[? ?] ?], s1 as [[? ?] ?], s2 as [[? ?] ?], a as [[? ?] ?], b as [[? ?] ?], c as [[? ?] ?]. unfold of_columns. vec.
  apply AlignerProofs.triple_eq; apply AlignerProofs.triple_eq; lra.
Qed.
