(** * Proofs about one step of the box registration. *)
From Coq Require Import List Reals Bool Arith Lra Lia Psatz.
From Verif Require Geometry2Proofs.
From Verif Require Import Base AlignerModel BoxModel BoxSpec BoxProofs.
Import ListNotations.
Open Scope R_scope.

(** ** Two dimensions *)
Definition sS2 (f : (R * R) * (R * R) -> R) : list ((R * R) * (R * R)) -> R := fix go l := match l with [] => 0 | p :: t => f p + go t end.

Lemma orth2_cols a b c d : orthogonal2 ((a, b), (c, d)) -> a * a + c * c = 1 /\ b * b + d * d = 1 /\ a * b + c * d = 0 /\ (a * d - b * c) * (a * d - b * c) = 1.
Proof.
  intros (H1 & H2 & H3).
  assert (D : (a * d - b * c) * (a * d - b * c) = 1).
  { replace ((a * d - b * c) * (a * d - b * c)) with ((a * a + b * b) * (c * c + d * d) - (a * c + b * d) * (a * c + b * d)) by ring. rewrite H1, H2, H3. ring. }
  set (D0 := a * d - b * c) in *.
  assert (Ea : d = D0 * a). { unfold D0. replace ((a * d - b * c) * a) with (d * (a * a + b * b) - b * (a * c + b * d)) by ring. rewrite H1, H3. ring. }
  assert (Eb : c = - D0 * b). { unfold D0. replace (- (a * d - b * c) * b) with (c * (a * a + b * b) - a * (a * c + b * d)) by ring. rewrite H1, H3. ring. }
  clearbody D0.
  assert (F1 : d * d = a * a). { rewrite Ea. replace (D0 * a * (D0 * a)) with (D0 * D0 * (a * a)) by ring. rewrite D. ring. }
  assert (F2 : c * c = b * b). { rewrite Eb. replace (- D0 * b * (- D0 * b)) with (D0 * D0 * (b * b)) by ring. rewrite D. ring. }
  repeat split; try lra. rewrite Ea, Eb. replace (a * b + - D0 * b * (D0 * a)) with (a * b - D0 * D0 * (a * b)) by ring. rewrite D. ring.
Qed.

Lemma cost2_moments a b c d e f l : orthogonal2 ((a, b), (c, d)) ->
  cost2 (((a, b), (c, d)), (e, f)) l =
  sS2 (fun p => fst (snd p) * fst (snd p) + snd (snd p) * snd (snd p)) l + sS2 (fun p => fst (fst p) * fst (fst p) + snd (fst p) * snd (fst p)) l
  + INR (length l) * (e * e + f * f)
  - 2 * (a * sS2 (fun p => fst (fst p) * fst (snd p)) l + b * sS2 (fun p => snd (fst p) * fst (snd p)) l
         + c * sS2 (fun p => fst (fst p) * snd (snd p)) l + d * sS2 (fun p => snd (fst p) * snd (snd p)) l)
  - 2 * (e * fst (total2 (map snd l)) + f * snd (total2 (map snd l)))
  + 2 * (e * (a * fst (total2 (map fst l)) + b * snd (total2 (map fst l))) + f * (c * fst (total2 (map fst l)) + d * snd (total2 (map fst l)))).
Proof.
  intros O. destruct (orth2_cols _ _ _ _ O) as (H1 & H2 & H3 & _). induction l as [|[[x y] [u v]] l IH]; [cbn; ring|].
  assert (E : sq2 (u, v) (act2 (((a, b), (c, d)), (e, f)) (x, y)) =
    (u * u + v * v) + (x * x + y * y) + (e * e + f * f) - 2 * (a * (x * u) + b * (y * u) + c * (x * v) + d * (y * v)) - 2 * (e * u + f * v) + 2 * (e * (a * x + b * y) + f * (c * x + d * y))).
  { cbn. unfold sq2. cbn [fst snd]. replace (x * x + y * y) with ((a * a + c * c) * (x * x) + (b * b + d * d) * (y * y) + 2 * (a * b + c * d) * (x * y)) by (rewrite H1, H2, H3; ring). ring. }
  cbn [cost2 sS2 map fst snd total2 length]. rewrite E, IH. rewrite S_INR. destruct (total2 (map snd l)), (total2 (map fst l)). cbn [fst snd]. ring.
Qed.

Lemma sum2_total l : forall x y, sum2 l (x, y) = (x + fst (total2 l), y + snd (total2 l)).
Proof.
  induction l as [|[u v] l IH]; intros x y; cbn [sum2 total2]; [cbn; f_equal; ring|].
  unfold add2. cbn [fst snd]. rewrite IH. destruct (total2 l). cbn. f_equal; ring.
Qed.
Lemma mean2_centroid l : mean2 l = centroid2 l.
Proof. unfold mean2, centroid2. rewrite sum2_total. destruct (total2 l). unfold scale2. cbn. unfold Rdiv. f_equal; ring. Qed.

Lemma cross_cov2_moments l : forall ms md a b c d, cross_cov2 l ms md ((a, b), (c, d)) =
  let N := INR (length l) in
  let P f := sS2 f l in
  let S := total2 (map fst l) in let D := total2 (map snd l) in
  ((a + P (fun p => fst (fst p) * fst (snd p)) - fst ms * fst D - fst S * fst md + N * fst ms * fst md,
    b + P (fun p => fst (fst p) * snd (snd p)) - fst ms * snd D - fst S * snd md + N * fst ms * snd md),
   (c + P (fun p => snd (fst p) * fst (snd p)) - snd ms * fst D - snd S * fst md + N * snd ms * fst md,
    d + P (fun p => snd (fst p) * snd (snd p)) - snd ms * snd D - snd S * snd md + N * snd ms * snd md)).
Proof.
  induction l as [|[[x y] [u v]] l IH]; intros [m1 m2] [d1 d2] a b c d; cbv zeta.
  - cbn. f_equal; f_equal; ring.
  - cbn [cross_cov2]. unfold addm2, outer2, add2, sub2, scale2. cbn [fst snd]. rewrite IH. cbv zeta.
    cbn [map fst snd total2 length sS2]. rewrite S_INR. destruct (total2 (map snd l)), (total2 (map fst l)). cbn [fst snd]. f_equal; f_equal; ring.
Qed.

(** The gain of a matrix against the cross covariance. *)
Definition gain2 (Q S : (R * R) * (R * R)) : R := fst (fst Q) * fst (fst S) + snd (fst Q) * fst (snd S) + fst (snd Q) * snd (fst S) + snd (snd Q) * snd (snd S).

Lemma cost2_gain l : l <> [] -> let S := cross_cov2 l (centroid2 (map fst l)) (centroid2 (map snd l)) ((0, 0), (0, 0)) in
  exists K, forall Q t, orthogonal2 Q -> cost2 (Q, t) l = K - 2 * gain2 Q S + INR (length l) * sq2 t (sub2 (centroid2 (map snd l)) (mulv2 Q (centroid2 (map fst l)))).
Proof.
  intros HN S. assert (N : INR (length l) <> 0) by (apply not_0_INR; destruct l; [congruence|discriminate]).
  unfold S. rewrite cross_cov2_moments. cbv zeta. clear S.
  exists (sS2 (fun p => fst (snd p) * fst (snd p) + snd (snd p) * snd (snd p)) l + sS2 (fun p => fst (fst p) * fst (fst p) + snd (fst p) * snd (fst p)) l
    - (fst (total2 (map snd l)) * fst (total2 (map snd l)) + snd (total2 (map snd l)) * snd (total2 (map snd l))) / INR (length l)
    - (fst (total2 (map fst l)) * fst (total2 (map fst l)) + snd (total2 (map fst l)) * snd (total2 (map fst l))) / INR (length l)).
  intros [[a b] [c d]] [e f] O. rewrite cost2_moments by exact O. destruct (orth2_cols _ _ _ _ O) as (H1 & H2 & H3 & _).
  unfold centroid2, gain2, sq2, sub2, mulv2, dot2. rewrite !map_length. destruct (total2 (map snd l)) as [d1 d2], (total2 (map fst l)) as [s1 s2]. cbn [fst snd].
  set (P1 := sS2 _ l). set (P2 := sS2 _ l). set (P3 := sS2 _ l). set (P4 := sS2 _ l). set (P5 := sS2 _ l). set (P6 := sS2 _ l). set (n := INR (length l)) in *.
  clearbody P1 P2 P3 P4 P5 P6 n.
  replace ((s1 * s1 + s2 * s2) / n) with (((a * a + c * c) * (s1 * s1) + (b * b + d * d) * (s2 * s2) + 2 * (a * b + c * d) * (s1 * s2)) / n) by (rewrite H1, H2, H3; field; exact N).
  field. exact N.
Qed.

Lemma mulm2_orth U V : orthogonal2 U -> orthogonal2 V -> orthogonal2 (mulm2 V U).
Proof.
  destruct U as [[a b] [c d]], V as [[e f] [g h]]. intros HU (V1 & V2 & V3). destruct HU as (U1 & U2 & U3). 
  unfold mulm2, transpose2, dot2, orthogonal2. cbn [fst snd]. repeat split.
  - replace ((e * a + f * c) * (e * a + f * c) + (e * b + f * d) * (e * b + f * d)) with (e * e * (a * a + b * b) + f * f * (c * c + d * d) + 2 * e * f * (a * c + b * d)) by ring. rewrite U1, U2, U3. lra.
  - replace ((g * a + h * c) * (g * a + h * c) + (g * b + h * d) * (g * b + h * d)) with (g * g * (a * a + b * b) + h * h * (c * c + d * d) + 2 * g * h * (a * c + b * d)) by ring. rewrite U1, U2, U3. lra.
  - replace ((e * a + f * c) * (g * a + h * c) + (e * b + f * d) * (g * b + h * d)) with (e * g * (a * a + b * b) + f * h * (c * c + d * d) + (e * h + f * g) * (a * c + b * d)) by ring. rewrite U1, U2, U3. lra.
Qed.
Lemma transpose2_orth U : orthogonal2 U -> orthogonal2 (transpose2 U).
Proof. destruct U as [[a b] [c d]]. intros H. destruct (orth2_cols _ _ _ _ H) as (A & B & C & _). cbn. auto. Qed.

Definition fit2 (U V : (R * R) * (R * R)) : (R * R) * (R * R) :=
  mulm2 (mulm2 V ((1, 0), (0, if Rlt_dec 0 (det2 (mulm2 V (transpose2 U))) then 1 else - (1)))) (transpose2 U).
Lemma fit2_rotation U V : orthogonal2 U -> orthogonal2 V -> rotation2 (fit2 U V).
Proof.
  intros HU HV. split.
  - unfold fit2. apply mulm2_orth; [apply transpose2_orth, HU|]. apply mulm2_orth; [|exact HV]. destruct (Rlt_dec 0 _); cbn; repeat split; ring.
  - destruct U as [[a b] [c d]], V as [[e f] [g h]]. destruct (orth2_cols _ _ _ _ HU) as (_ & _ & _ & DU). destruct (orth2_cols _ _ _ _ HV) as (_ & _ & _ & DV).
    unfold fit2. set (t := if Rlt_dec 0 _ then 1 else _). assert (T : t * ((a * d - b * c) * (e * h - f * g)) = 1).
    { assert (DD : det2 (mulm2 ((e, f), (g, h)) (transpose2 ((a, b), (c, d)))) = (a * d - b * c) * (e * h - f * g)) by (unfold det2, mulm2, transpose2, dot2; cbn [fst snd]; ring).
      unfold t. rewrite DD. assert (SQ : (a * d - b * c) * (e * h - f * g) * ((a * d - b * c) * (e * h - f * g)) = 1).
      { replace ((a * d - b * c) * (e * h - f * g) * ((a * d - b * c) * (e * h - f * g))) with ((a * d - b * c) * (a * d - b * c) * ((e * h - f * g) * (e * h - f * g))) by ring. rewrite DU, DV. ring. }
      set (w := (a * d - b * c) * (e * h - f * g)) in *. clearbody w. destruct (Rlt_dec 0 w); nra. }
    clearbody t. unfold mulm2, transpose2, dot2. cbn [fst snd]. transitivity (t * ((a * d - b * c) * (e * h - f * g))); [ring|exact T].
Qed.

Lemma gain2_best S U s V Q : svd2_ok S U s V -> rotation2 Q -> gain2 Q S <= gain2 (fit2 U V) S.
Proof.
  intros (HU & HV & Hs & HS) [HQ HD]. destruct U as [[a b] [c d]], V as [[e f] [g h]], s as [p q], Q as [[k l] [m n]]. cbn [fst snd] in Hs.
  destruct (orth2_cols _ _ _ _ HU) as (A1 & A2 & A3 & DU). destruct (orth2_cols _ _ _ _ HV) as (B1 & B2 & B3 & DV). destruct (orth2_cols _ _ _ _ HQ) as (C1 & C2 & C3 & _). rewrite HS. clear HS.
  (* z0 = v0 . Q u0 and z1 = v1 . Q u1 *)
  set (z0 := e * (k * a + l * c) + g * (m * a + n * c)). set (z1 := f * (k * b + l * d) + h * (m * b + n * d)).
  assert (G : gain2 ((k, l), (m, n)) ((p * a * e + q * b * f, p * a * g + q * b * h), (p * c * e + q * d * f, p * c * g + q * d * h)) = p * z0 + q * z1).
  { unfold gain2, z0, z1. cbn [fst snd]. ring. }
  rewrite G.
  assert (Z0 : z0 <= 1).
  { assert (N : (k * a + l * c) * (k * a + l * c) + (m * a + n * c) * (m * a + n * c) = 1).
    { replace ((k * a + l * c) * (k * a + l * c) + (m * a + n * c) * (m * a + n * c)) with (a * a * (k * k + m * m) + c * c * (l * l + n * n) + 2 * a * c * (k * l + m * n)) by ring. rewrite C1, C2, C3. lra. }
    unfold z0. set (x := k * a + l * c) in *. set (y := m * a + n * c) in *. clearbody x y. pose proof (Rle_0_sqr (e - x)) as S1. pose proof (Rle_0_sqr (g - y)) as S2. unfold Rsqr in *. lra. }
  assert (Z1 : z1 <= 1).
  { assert (N : (k * b + l * d) * (k * b + l * d) + (m * b + n * d) * (m * b + n * d) = 1).
    { replace ((k * b + l * d) * (k * b + l * d) + (m * b + n * d) * (m * b + n * d)) with (b * b * (k * k + m * m) + d * d * (l * l + n * n) + 2 * b * d * (k * l + m * n)) by ring. rewrite C1, C2, C3. lra. }
    unfold z1. set (x := k * b + l * d) in *. set (y := m * b + n * d) in *. clearbody x y. pose proof (Rle_0_sqr (f - x)) as S1. pose proof (Rle_0_sqr (h - y)) as S2. unfold Rsqr in *. lra. }
  assert (DD : det2 (mulm2 ((e, f), (g, h)) (transpose2 ((a, b), (c, d)))) = (a * d - b * c) * (e * h - f * g)) by (unfold det2, mulm2, transpose2, dot2; cbn [fst snd]; ring).
  unfold fit2. rewrite DD. set (t := if Rlt_dec 0 _ then 1 else _).
  assert (GR : gain2 (mulm2 (mulm2 ((e, f), (g, h)) ((1, 0), (0, t))) (transpose2 ((a, b), (c, d))))
      ((p * a * e + q * b * f, p * a * g + q * b * h), (p * c * e + q * d * f, p * c * g + q * d * h)) = p + q * t).
  { unfold gain2, mulm2, transpose2, dot2. cbn [fst snd].
    transitivity (p * ((a * a + c * c) * (e * e + g * g)) + q * t * ((b * b + d * d) * (f * f + h * h)) + (q + p * t) * ((a * b + c * d) * (e * f + g * h))); [ring|].
    rewrite A1, A2, A3, B1, B2, B3. ring. }
  rewrite GR. unfold t. destruct (Rlt_dec 0 _) as [L|L]; [nra|].
  (* determinant -1: z1 = - z0 *)
  assert (W : (a * d - b * c) * (e * h - f * g) = - (1)).
  { assert (SQ : (a * d - b * c) * (e * h - f * g) * ((a * d - b * c) * (e * h - f * g)) = 1).
    { replace ((a * d - b * c) * (e * h - f * g) * ((a * d - b * c) * (e * h - f * g))) with ((a * d - b * c) * (a * d - b * c) * ((e * h - f * g) * (e * h - f * g))) by ring. rewrite DU, DV. ring. }
    set (w := (a * d - b * c) * (e * h - f * g)) in *. clearbody w. nra. }
  assert (E : z1 = - z0).
  { (* Z = V' Q U is orthogonal with determinant -1 *)
    set (x := e * (k * b + l * d) + g * (m * b + n * d)). set (y := f * (k * a + l * c) + h * (m * a + n * c)).
    assert (DZ : z0 * z1 - x * y = - (1)).
    { replace (z0 * z1 - x * y) with ((a * d - b * c) * (e * h - f * g) * (k * n - l * m)) by (unfold z0, z1, x, y; ring). rewrite HD, W. ring. }
    assert (NZ : z0 * z0 + x * x = 1).
    { assert (OZ : orthogonal2 (mulm2 (transpose2 ((e, f), (g, h))) (mulm2 ((k, l), (m, n)) ((a, b), (c, d))))) by (apply mulm2_orth; [apply mulm2_orth; assumption|apply transpose2_orth, HV]).
      destruct OZ as (O1 & _ & _). cbn in O1. unfold mulm2, transpose2, dot2 in O1. cbn [fst snd] in O1. unfold z0, x. lra. }
    assert (NZ1 : z1 * z1 + y * y = 1).
    { assert (OZ : orthogonal2 (mulm2 (transpose2 ((e, f), (g, h))) (mulm2 ((k, l), (m, n)) ((a, b), (c, d))))) by (apply mulm2_orth; [apply mulm2_orth; assumption|apply transpose2_orth, HV]).
      destruct OZ as (_ & O1 & _). cbn in O1. unfold mulm2, transpose2, dot2 in O1. cbn [fst snd] in O1. unfold z1, y. lra. }
    clearbody z0 z1 x y.
    assert (SQ : (z1 + z0) * (z1 + z0) + (x - y) * (x - y) = 0) by lra.
    pose proof (Rle_0_sqr (x - y)) as SX. unfold Rsqr in SX. assert (SZ : (z1 + z0) * (z1 + z0) <= 0) by lra. nra. }
  rewrite E. nra.
Qed.

Lemma apply2_act t p : apply2 t p = act2 t p.
Proof. destruct t as [[[a b] [c d]] [e f]], p as [x y]. reflexivity. Qed.
Lemma inverse_tr2_ok t c : rotation2 (fst t) -> act2 t (apply2 (inverse_tr2 t) c) = c.
Proof.
  destruct t as [[[a b] [m n]] [e f]], c as [x y]. intros [_ D]. cbn [fst] in D.
  unfold inverse_tr2, inverse2, apply2, mulv2, add2, scale2, dot2, act2, det2. cbn [fst snd]. rewrite D.
  f_equal.
  - transitivity ((a * n - b * m) * (x - e) + e); [field|rewrite D; ring].
  - transitivity ((a * n - b * m) * (y - f) + f); [field|rewrite D; ring].
Qed.
Lemma act2_sq t p q : orthogonal2 (fst t) -> sq2 (act2 t p) (act2 t q) = sq2 p q.
Proof.
  destruct t as [[[a b] [m n]] [e f]], p as [x y], q as [u v]. cbn [fst]. intros O. destruct (orth2_cols _ _ _ _ O) as (H1 & H2 & H3 & _).
  unfold sq2, act2. cbn [fst snd]. transitivity ((a * a + m * m) * ((x - u) * (x - u)) + (b * b + n * n) * ((y - v) * (y - v)) + 2 * (a * b + m * n) * ((x - u) * (y - v))); [ring|].
  rewrite H1, H2, H3. ring.
Qed.
Lemma sqd_l2 p q : sqd (l2 p) (l2 q) = sq2 p q.
Proof. unfold l2, sq2. cbn. ring. Qed.

Lemma associate_all2_ok dims t : 0 <= fst dims -> 0 <= snd dims -> rotation2 (fst t) -> forall cloud,
  exists l, associate_all2 dims (inverse_tr2 t) cloud = Ret l /\ matched2 dims t cloud l.
Proof.
  intros D1 D2 HT. induction cloud as [|c cloud (l & IH & M1 & M2)]; [exists []; repeat split; constructor|].
  cbn [associate_all2]. cbv zeta. set (q := apply2 (inverse_tr2 t) c).
  destruct (associate_lemma [fst dims; snd dims] [fst q; snd q]) as (p & E & Hs & Hm).
  - cbn. lia.
  - intros [|[|i]] Hi; cbn in *; try assumption; lia.
  - reflexivity.
  - rewrite E. cbn [obind]. rewrite IH. cbn [obind]. destruct p as [|x [|y [|z p]]]; try (destruct Hs as [[L _] _]; discriminate).
    exists ((pack2 [x; y], c) :: l). split; [reflexivity|]. split; [cbn; rewrite M1; reflexivity|]. constructor; [|exact M2].
    exists q. split; [apply inverse_tr2_ok, HT|]. split; assumption.
Qed.

Lemma procrustes2_fit svd l : l <> [] -> conforming2 svd -> exists U s V,
  svd2_ok (cross_cov2 l (centroid2 (map fst l)) (centroid2 (map snd l)) ((0, 0), (0, 0))) U s V /\
  procrustes2 svd l = (fit2 U V, sub2 (centroid2 (map snd l)) (mulv2 (fit2 U V) (centroid2 (map fst l)))).
Proof.
  intros HN HS. unfold procrustes2. rewrite !mean2_centroid. cbv zeta. set (S := cross_cov2 _ _ _ _). specialize (HS S). destruct (svd S) as [[U s] V].
  exists U, s, V. split; [exact HS|reflexivity].
Qed.

Lemma step2_lemma svd dims cloud t : conforming2 svd -> 0 <= fst dims -> 0 <= snd dims -> rotation2 (fst t) -> cloud <> [] ->
  exists l t', computeTransform2 svd dims cloud t = Ret (Some t') /\ matched2 dims t cloud l /\ rotation2 (fst t') /\
    act2 t' (centroid2 (map fst l)) = centroid2 cloud /\
    forall w, rotation2 (fst w) -> cost2 t' l <= cost2 w l.
Proof.
  intros HS D1 D2 HT HC. destruct (associate_all2_ok dims t D1 D2 HT cloud) as (l & E & M). exists l.
  assert (HN : l <> []) by (intros ->; destruct M as [M _]; cbn in M; congruence).
  destruct (procrustes2_fit svd l HN HS) as (U & s & V & OK & P). exists (procrustes2 svd l).
  split; [unfold computeTransform2; rewrite E; cbn [obind]; destruct cloud; [congruence|reflexivity]|]. split; [exact M|].
  rewrite P. cbn [fst]. pose proof OK as (HU & HV & _). pose proof (fit2_rotation U V HU HV) as RF. split; [exact RF|]. split.
  - rewrite (proj1 M). destruct (fit2 U V) as [[a b] [c d]], (centroid2 (map fst l)) as [x y], (centroid2 cloud) as [u v].
    unfold act2, sub2, mulv2, dot2. cbn [fst snd]. f_equal; ring.
  - intros [Q w] RQ. cbn [fst] in RQ. destruct (cost2_gain l HN) as (K & CK). rewrite (CK Q w (proj1 RQ)), (CK _ _ (proj1 RF)).
    pose proof (gain2_best _ _ _ _ _ OK RQ) as G. unfold sq2 at 1. set (cc := sub2 _ (mulv2 (fit2 U V) _)) in *.
    assert (Z : (fst cc - fst cc) * (fst cc - fst cc) + (snd cc - snd cc) * (snd cc - snd cc) = 0) by ring. rewrite Z.
    assert (0 <= INR (length l) * sq2 w (sub2 (centroid2 (map snd l)) (mulv2 Q (centroid2 (map fst l))))).
    { apply Rmult_le_pos; [apply pos_INR|]. unfold sq2. apply Rplus_le_le_0_compat; apply Rle_0_sqr. }
    lra.
Qed.

Lemma matched2_cost dims t t' : rotation2 (fst t') -> forall cloud l l', matched2 dims t cloud l -> matched2 dims t' cloud l' -> cost2 t' l' <= cost2 t' l.
Proof.
  intros HT'. induction cloud as [|c cloud IH]; intros [|[m c1] l] [|[m' c2] l'] [M1 M2] [M1' M2']; try discriminate; [cbn; lra|].
  cbn in M1, M1'. injection M1 as -> M1. injection M1' as -> M1'. inversion M2 as [|? ? (q & Q1 & [Q2 Q3]) M2t]. inversion M2' as [|? ? (q' & Q1' & [Q2' Q3']) M2t']. subst.
  cbn [cost2 fst snd] in *. apply Rplus_le_compat; [|apply (IH l l'); split; solve [reflexivity | assumption]].
  rewrite <- Q1'. rewrite !act2_sq by apply HT'. specialize (Q3' _ Q2). rewrite !sqd_l2 in Q3'. unfold sq2 in *. lra.
Qed.
Lemma monotone2_lemma svd dims cloud t e : conforming2 svd -> 0 <= fst dims -> 0 <= snd dims -> rotation2 (fst t) -> cloud <> [] -> error2 dims t cloud e ->
  exists t' e', computeTransform2 svd dims cloud t = Ret (Some t') /\ rotation2 (fst t') /\ error2 dims t' cloud e' /\ e' <= e.
Proof.
  intros HS D1 D2 HT HC (l0 & M0 & ->). destruct (step2_lemma svd dims cloud t HS D1 D2 HT HC) as (l & t' & E & M & RT & _ & O).
  destruct (associate_all2_ok dims t' D1 D2 RT cloud) as (l' & _ & M'). exists t', (cost2 t' l').
  split; [exact E|]. split; [exact RT|]. split; [exists l'; split; [exact M'|reflexivity]|].
  apply Rle_trans with (cost2 t' l); [apply (matched2_cost dims t t' RT cloud); assumption|].
  apply Rle_trans with (cost2 t l); [apply O, HT|]. apply (matched2_cost dims t t HT cloud); assumption.
Qed.

Lemma polar0 x y : exists r a, 0 <= r /\ x = r * cos a /\ y = r * sin a.
Proof.
  destruct (Req_dec x 0) as [Ex|Ex], (Req_dec y 0) as [Ey|Ey]; [exists 0, 0; rewrite Ex, Ey; repeat split; lra|..];
  (destruct (Geometry2Proofs.polar_wrt (1, 0) (x, y)) as (r & a & Hr & _ & S & C); [intros E; injection E; lra|intros E; injection E; intros; congruence|];
   cbn [fst snd] in S, C; exists r, a; repeat split; lra).
Qed.
(** Every 2x2 matrix has a decomposition. *)
Lemma svd2_exists S : exists U s V, svd2_ok S U s V.
Proof.
  destruct S as [[s00 s01] [s10 s11]].
  destruct (polar0 ((s00 + s11) / 2) ((s10 - s01) / 2)) as (q & al & Hq & E1 & E2).
  destruct (polar0 ((s00 - s11) / 2) ((s10 + s01) / 2)) as (r & be & Hr & E3 & E4).
  set (u := (al + be) / 2). set (v := (be - al) / 2).
  assert (Ea : al = u - v) by (unfold u, v; lra). assert (Eb : be = u + v) by (unfold u, v; lra). clearbody u v. subst al be.
  rewrite cos_minus in E1. rewrite sin_minus in E2. rewrite cos_plus in E3. rewrite sin_plus in E4.
  pose proof (sin2_cos2 u) as Pu. pose proof (sin2_cos2 v) as Pv. unfold Rsqr in Pu, Pv.
  set (cu := cos u) in *. set (su := sin u) in *. set (cv := cos v) in *. set (sv := sin v) in *. clearbody cu su cv sv.
  assert (A1 : s00 = q * (cu * cv + su * sv) + r * (cu * cv - su * sv)) by lra.
  assert (A2 : s11 = q * (cu * cv + su * sv) - r * (cu * cv - su * sv)) by lra.
  assert (A3 : s10 = q * (su * cv - cu * sv) + r * (su * cv + cu * sv)) by lra.
  assert (A4 : s01 = r * (su * cv + cu * sv) - q * (su * cv - cu * sv)) by lra.
  destruct (Rle_dec r q) as [L|L].
  - exists ((cu, - su), (su, cu)), (q + r, q - r), ((cv, - sv), (sv, cv)). split; [|split; [|split]]; cbn; [repeat split; lra|repeat split; lra|lra|].
    rewrite A1, A2, A3, A4. f_equal; f_equal; ring.
  - exists ((cu, - su), (su, cu)), (q + r, r - q), ((cv, sv), (sv, - cv)). split; [|split; [|split]]; cbn; [repeat split; lra|repeat split; lra|lra|].
    rewrite A1, A2, A3, A4. f_equal; f_equal; ring.
Qed.
