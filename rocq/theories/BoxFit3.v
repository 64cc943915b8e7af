(** * Proofs about one step of the box registration in space. *)
From Coq Require Import List Reals Bool Arith Lra Lia Psatz.
From Verif Require Import Base AlignerModel BoxModel BoxSpec BoxProofs.
From Verif Require AlignerProofs.
Import ListNotations.
Open Scope R_scope.

Ltac vec := unfold dot, cross, add, sub, scale, neg, X, Y, Z in *; cbn [fst snd] in *.
Definition ortho (a b c : vec3) : Prop := dot a a = 1 /\ dot b b = 1 /\ dot c c = 1 /\ dot a b = 0 /\ dot a c = 0 /\ dot b c = 0.
Lemma ortho_iff a b c : orthogonal3 (a, b, c) <-> ortho a b c.
Proof. destruct a as [[? ?] ?], b as [[? ?] ?], c as [[? ?] ?]. unfold ortho, orthogonal3. vec. tauto. Qed.

Lemma parseval a b c : ortho a b c -> forall u v, dot a u * dot a v + dot b u * dot b v + dot c u * dot c v = dot u v.
Proof.
  intros (A & B & C & AB & AC & BC).
  assert (E : forall w, scale (dot a (cross b c)) w = add (add (scale (dot a w) (cross b c)) (scale (dot b w) (cross c a))) (scale (dot c w) (cross a b))).
  { intros w. apply AlignerProofs.vec_eq; vec; ring. }
  set (D := dot a (cross b c)) in *.
  assert (Ea : cross b c = scale D a). { rewrite E. rewrite A. replace (dot b a) with (dot a b) by (vec; ring). replace (dot c a) with (dot a c) by (vec; ring). rewrite AB, AC. apply AlignerProofs.vec_eq; vec; ring. }
  assert (Eb : cross c a = scale D b). { rewrite E. rewrite B. rewrite AB. replace (dot c b) with (dot b c) by (vec; ring). rewrite BC. apply AlignerProofs.vec_eq; vec; ring. }
  assert (Ec : cross a b = scale D c). { rewrite E. rewrite C, AC, BC. apply AlignerProofs.vec_eq; vec; ring. }
  assert (D2 : D * D = 1).
  { assert (L : dot (cross b c) (cross b c) = dot b b * dot c c - dot b c * dot b c) by (vec; ring). rewrite Ea, B, C, BC in L.
    replace (dot (scale D a) (scale D a)) with (D * D * dot a a) in L by (vec; ring). rewrite A in L. lra. }
  clearbody D.
  intros u v. assert (W : forall w, w = add (add (scale (dot a w) a) (scale (dot b w) b)) (scale (dot c w) c)).
  { intros w. specialize (E w). rewrite Ea, Eb, Ec in E.
    assert (E2 : scale D (scale D w) = scale (D * D) w) by (apply AlignerProofs.vec_eq; vec; ring).
    rewrite D2 in E2. replace (scale 1 w) with w in E2 by (apply AlignerProofs.vec_eq; vec; ring). rewrite <- E2 at 1. rewrite E.
    replace (scale D (add (add (scale (dot a w) (scale D a)) (scale (dot b w) (scale D b))) (scale (dot c w) (scale D c))))
      with (scale (D * D) (add (add (scale (dot a w) a) (scale (dot b w) b)) (scale (dot c w) c))) by (apply AlignerProofs.vec_eq; vec; ring).
    rewrite D2. apply AlignerProofs.vec_eq; vec; ring. }
  rewrite (W v) at 4.
  replace (dot u (add (add (scale (dot a v) a) (scale (dot b v) b)) (scale (dot c v) c))) with
    (dot a u * dot a v + dot b u * dot b v + dot c u * dot c v) by (vec; ring). reflexivity.
Qed.
Lemma mulv_dot M u v : orthogonal3 M -> dot (mulv M u) (mulv M v) = dot u v.
Proof. destruct M as [[a b] c]. intros O. apply ortho_iff in O. rewrite <- (parseval a b c O u v). unfold mulv. unfold dot at 1. unfold X at 1 2, Y at 1 2, Z at 1 2. cbn [fst snd]. reflexivity. Qed.
Lemma transpose_orth M : orthogonal3 M -> orthogonal3 (transpose M).
Proof.
  destruct M as [[a b] c]. intros O. pose proof O as O'. apply ortho_iff in O'. pose proof (parseval a b c O') as P.
  destruct a as [[a0 a1] a2], b as [[b0 b1] b2], c as [[c0 c1] c2].
  pose proof (P (1, 0, 0) (1, 0, 0)) as P0. pose proof (P (0, 1, 0) (0, 1, 0)) as P1. pose proof (P (0, 0, 1) (0, 0, 1)) as P2.
  pose proof (P (1, 0, 0) (0, 1, 0)) as P3. pose proof (P (1, 0, 0) (0, 0, 1)) as P4. pose proof (P (0, 1, 0) (0, 0, 1)) as P5. clear P.
  vec. unfold orthogonal3, transpose, of_columns. vec. repeat split; lra.
Qed.
Lemma rows_mulm V M : let '(v0, v1, v2) := V in mulm V M = (mulv (transpose M) v0, mulv (transpose M) v1, mulv (transpose M) v2).
Proof.
  destruct V as [[v0 v1] v2]. unfold mulm. destruct (transpose M) as [[c0 c1] c2]. unfold mulv.
  apply AlignerProofs.triple_eq; apply AlignerProofs.triple_eq; vec; ring.
Qed.
Lemma mulm_orth V M : orthogonal3 V -> orthogonal3 M -> orthogonal3 (mulm V M).
Proof.
  intros OV OM. pose proof (rows_mulm V M) as E. destruct V as [[v0 v1] v2]. rewrite E. apply ortho_iff in OV. apply ortho_iff.
  destruct OV as (A & B & C & AB & AC & BC). unfold ortho. rewrite !mulv_dot by (apply transpose_orth, OM). repeat split; assumption.
Qed.
Lemma det_mulm A B : det3 (mulm A B) = det3 A * det3 B.
Proof. destruct A as [[[[? ?] ?] [[? ?] ?]] [[? ?] ?]], B as [[[[? ?] ?] [[? ?] ?]] [[? ?] ?]]. unfold mulm, transpose, of_columns, det3. vec. ring. Qed.
Lemma det_transpose A : det3 (transpose A) = det3 A.
Proof. destruct A as [[[[? ?] ?] [[? ?] ?]] [[? ?] ?]]. unfold transpose, of_columns, det3. vec. ring. Qed.
Lemma mulm_transpose M : orthogonal3 M -> mulm M (transpose M) = diag3 1 1 1.
Proof.
  destruct M as [[[[? ?] ?] [[? ?] ?]] [[? ?] ?]]. intros (? & ? & ? & ? & ? & ?). unfold mulm, transpose, of_columns, diag3. vec.
  apply AlignerProofs.triple_eq; apply AlignerProofs.triple_eq; lra.
Qed.
Lemma det_orth M : orthogonal3 M -> det3 M * det3 M = 1.
Proof. intros O. rewrite <- (det_transpose M) at 2. rewrite <- det_mulm, mulm_transpose by exact O. unfold diag3, det3. vec. ring. Qed.
Lemma rotation3_iff M : rotation3 M <-> orthogonal3 M /\ det3 M = 1.
Proof. destruct M as [[[[? ?] ?] [[? ?] ?]] [[? ?] ?]]. unfold rotation3, det3. vec. split; intros [H D]; (split; [exact H|]); lra. Qed.
Lemma mulv_mulm A B x : mulv (mulm A B) x = mulv A (mulv B x).
Proof. destruct A as [[[[? ?] ?] [[? ?] ?]] [[? ?] ?]], B as [[[[? ?] ?] [[? ?] ?]] [[? ?] ?]], x as [[? ?] ?]. unfold mulm, mulv, transpose, of_columns. vec. apply AlignerProofs.triple_eq; ring. Qed.

Definition flip (U V : mat3) : R := if Rlt_dec 0 (det3 (mulm V (transpose U))) then 1 else - (1).
Definition fit3 (U V : mat3) : mat3 := mulm (mulm V (diag3 1 (flip U V) 1)) (transpose U).
Lemma flip_det U V : orthogonal3 U -> orthogonal3 V -> flip U V = det3 V * det3 U /\ flip U V * flip U V = 1.
Proof.
  intros HU HV. unfold flip. rewrite det_mulm, det_transpose. pose proof (det_orth U HU) as DU. pose proof (det_orth V HV) as DV.
  set (x := det3 U) in *. set (y := det3 V) in *. clearbody x y. assert (SQ : y * x * (y * x) = 1) by (transitivity (x * x * (y * y)); [ring|rewrite DU, DV; ring]).
  set (w := y * x) in *. clearbody w. destruct (Rlt_dec 0 w); split; nra.
Qed.
Lemma diag_orth d : d * d = 1 -> orthogonal3 (diag3 1 d 1).
Proof. intros H. unfold diag3, orthogonal3. repeat split; lra. Qed.
Lemma fit3_rotation U V : orthogonal3 U -> orthogonal3 V -> rotation3 (fit3 U V).
Proof.
  intros HU HV. destruct (flip_det U V HU HV) as [F1 F2]. apply rotation3_iff. unfold fit3. split.
  - apply mulm_orth; [apply mulm_orth; [exact HV|apply diag_orth, F2]|apply transpose_orth, HU].
  - rewrite !det_mulm, det_transpose. replace (det3 (diag3 1 (flip U V) 1)) with (flip U V) by (unfold diag3, det3; vec; ring).
    transitivity (flip U V * (det3 V * det3 U)); [ring|]. rewrite <- F1. exact F2.
Qed.

Definition gain3 (Q S : mat3) : R := let '(q0, q1, q2) := Q in let '(c0, c1, c2) := transpose S in dot q0 c0 + dot q1 c1 + dot q2 c2.
Lemma gain_svd S U s V Q : svd3_ok S U s V -> let '(u0, u1, u2) := transpose U in let '(v0, v1, v2) := transpose V in let '(p, q, r) := s in
  gain3 Q S = p * dot v0 (mulv Q u0) + q * dot v1 (mulv Q u1) + r * dot v2 (mulv Q u2).
Proof.
  intros (_ & _ & _ & HS). destruct U as [[[[? ?] ?] [[? ?] ?]] [[? ?] ?]], V as [[[[? ?] ?] [[? ?] ?]] [[? ?] ?]], s as [[? ?] ?], Q as [[[[? ?] ?] [[? ?] ?]] [[? ?] ?]].
  cbn [transpose of_columns]. rewrite HS. unfold gain3, transpose, of_columns, mulv. vec. ring.
Qed.
Lemma unit_dot a b : dot a a = 1 -> dot b b = 1 -> dot a b <= 1.
Proof. intros A B. assert (H : 0 <= dot (sub a b) (sub a b)) by apply AlignerProofs.dot_self_nonneg. replace (dot (sub a b) (sub a b)) with (dot a a + dot b b - 2 * dot a b) in H by (vec; ring). lra. Qed.
Lemma fit3_cols U V : orthogonal3 U -> let '(u0, u1, u2) := transpose U in let '(v0, v1, v2) := transpose V in
  mulv (fit3 U V) u0 = v0 /\ mulv (fit3 U V) u1 = scale (flip U V) v1 /\ mulv (fit3 U V) u2 = v2.
Proof.
  intros HU. pose proof (transpose_orth U HU) as HT. unfold fit3. set (d := flip U V). clearbody d. destruct (transpose U) as [[u0 u1] u2]. apply ortho_iff in HT. destruct HT as (A & B & C & AB & AC & BC).
  destruct (transpose V) as [[v0 v1] v2] eqn:EV.
  assert (EV' : V = of_columns v0 v1 v2).
  { destruct V as [[[[? ?] ?] [[? ?] ?]] [[? ?] ?]]. unfold transpose, of_columns in *. injection EV as <- <- <-. vec. reflexivity. }
  assert (K : forall x y z, mulv (mulm V (diag3 1 d 1)) (x, y, z) = add (add (scale x v0) (scale (d * y) v1)) (scale z v2)).
  { intros x y z. rewrite EV'. destruct v0 as [[? ?] ?], v1 as [[? ?] ?], v2 as [[? ?] ?]. unfold mulm, diag3, mulv, transpose, of_columns. vec. apply AlignerProofs.triple_eq; ring. }
  rewrite !mulv_mulm. assert (L : forall x, mulv (u0, u1, u2) x = (dot u0 x, dot u1 x, dot u2 x)) by reflexivity. rewrite !L. rewrite A, B, C, AB, AC, BC. replace (dot u1 u0) with 0 by (rewrite <- AB; vec; ring). replace (dot u2 u0) with 0 by (rewrite <- AC; vec; ring). replace (dot u2 u1) with 0 by (rewrite <- BC; vec; ring).
  rewrite <- !mulv_mulm, !K. repeat split; apply AlignerProofs.vec_eq; vec; ring.
Qed.
Lemma gain_fit S U s V : svd3_ok S U s V -> let '(p, q, r) := s in gain3 (fit3 U V) S = p + q * flip U V + r.
Proof.
  intros OK. pose proof (gain_svd S U s V (fit3 U V) OK) as G. destruct OK as (HU & HV & _ & _).
  pose proof (fit3_cols U V HU) as F. pose proof (transpose_orth V HV) as TV. destruct (transpose U) as [[u0 u1] u2], (transpose V) as [[v0 v1] v2], s as [[p q] r].
  destruct F as (F0 & F1 & F2). rewrite G, F0, F1, F2. apply ortho_iff in TV. destruct TV as (A & B & C & _).
  replace (dot v1 (scale (flip U V) v1)) with (flip U V * dot v1 v1) by (vec; ring). rewrite A, B, C. ring.
Qed.
Lemma gain_bound S U s V Q : svd3_ok S U s V -> orthogonal3 Q -> let '(p, q, r) := s in gain3 Q S <= p + q + r.
Proof.
  intros OK HQ. pose proof (gain_svd S U s V Q OK) as G. destruct OK as (HU & HV & Hs & _).
  pose proof (transpose_orth V HV) as TV. pose proof (transpose_orth U HU) as TU. destruct (transpose U) as [[u0 u1] u2], (transpose V) as [[v0 v1] v2], s as [[p q] r].
  rewrite G. apply ortho_iff in TV, TU. destruct TV as (A & B & C & _), TU as (A' & B' & C' & _).
  assert (N : forall u v, dot u u = 1 -> dot v v = 1 -> dot v (mulv Q u) <= 1) by (intros u v Eu Ev; apply unit_dot; [exact Ev|rewrite mulv_dot by exact HQ; exact Eu]).
  pose proof (N _ _ A' A). pose proof (N _ _ B' B). pose proof (N _ _ C' C). nra.
Qed.

Fixpoint sS3 (f : vec3 * vec3 -> R) (l : list (vec3 * vec3)) : R := match l with [] => 0 | p :: t => f p + sS3 f t end.
Lemma act3_apply t p : act3 t p = apply3 t p.
Proof. destruct t as [[[[[? ?] ?] [[? ?] ?]] [[? ?] ?]] [[? ?] ?]], p as [[? ?] ?]. unfold act3, apply3, mulv. vec. apply AlignerProofs.triple_eq; ring. Qed.
Lemma sq3_dot a b : sq3 a b = dot (sub a b) (sub a b).
Proof. destruct a as [[? ?] ?], b as [[? ?] ?]. unfold sq3. vec. ring. Qed.
Lemma gain_cov Q l : forall ms md acc, gain3 Q (cross_cov3 l ms md acc) = gain3 Q acc + sS3 (fun p => dot (sub (snd p) md) (mulv Q (sub (fst p) ms))) l.
Proof.
  induction l as [|[s d] l IH]; intros ms md acc; cbn [cross_cov3 sS3]; [ring|]. rewrite IH. cbn [fst snd].
  assert (E : gain3 Q (addm3 acc (outer3 (sub s ms) (sub d md))) = gain3 Q acc + dot (sub d md) (mulv Q (sub s ms))); [|rewrite E; ring].
  generalize (sub s ms) (sub d md). intros [[? ?] ?] [[? ?] ?]. destruct Q as [[[[? ?] ?] [[? ?] ?]] [[? ?] ?]], acc as [[[[? ?] ?] [[? ?] ?]] [[? ?] ?]].
  unfold gain3, addm3, outer3, mulv, transpose, of_columns. vec. ring.
Qed.
Lemma total3_cons p l : total3 (p :: l) = add p (total3 l).
Proof. destruct p as [[? ?] ?]. cbn [total3]. destruct (total3 l) as [[? ?] ?]. reflexivity. Qed.
Lemma mulv_lin Q a b k : mulv Q (sub a (scale k b)) = sub (mulv Q a) (scale k (mulv Q b)).
Proof. destruct Q as [[? ?] ?]. unfold mulv. apply AlignerProofs.vec_eq; vec; ring. Qed.
Lemma mulv_sub Q a b : mulv Q (sub a b) = sub (mulv Q a) (mulv Q b).
Proof. destruct Q as [[? ?] ?]. unfold mulv. apply AlignerProofs.vec_eq; vec; ring. Qed.
Lemma mulv_add Q a b : mulv Q (add a b) = add (mulv Q a) (mulv Q b).
Proof. destruct Q as [[? ?] ?]. unfold mulv. apply AlignerProofs.vec_eq; vec; ring. Qed.

Lemma cost3_expand Q t ms md l : orthogonal3 Q -> let w := sub t (sub md (mulv Q ms)) in
  cost3 (Q, t) l = sS3 (fun p => dot (sub (snd p) md) (sub (snd p) md) + dot (sub (fst p) ms) (sub (fst p) ms)) l
   - 2 * sS3 (fun p => dot (sub (snd p) md) (mulv Q (sub (fst p) ms))) l + INR (length l) * dot w w
   - 2 * dot w (sub (sub (total3 (map snd l)) (scale (INR (length l)) md)) (mulv Q (sub (total3 (map fst l)) (scale (INR (length l)) ms)))).
Proof.
  intros O w. induction l as [|[s d] l IH].
  - cbn [cost3 sS3 length map total3 INR]. rewrite mulv_lin. replace (mulv Q (0, 0, 0)) with ((0, 0, 0) : vec3) by (destruct Q as [[? ?] ?]; unfold mulv; apply AlignerProofs.vec_eq; vec; ring). vec. ring.
  - cbn [cost3 sS3 length map fst snd]. rewrite !total3_cons, IH, S_INR, act3_apply, sq3_dot.
    assert (E : dot (sub d (apply3 (Q, t) s)) (sub d (apply3 (Q, t) s)) =
      dot (sub d md) (sub d md) + dot (sub s ms) (sub s ms) - 2 * dot (sub d md) (mulv Q (sub s ms)) + dot w w - 2 * dot w (sub (sub d md) (mulv Q (sub s ms)))).
    { rewrite <- (mulv_dot Q (sub s ms) (sub s ms) O). unfold apply3. cbn [fst snd]. unfold w. rewrite !mulv_sub. generalize (mulv Q s) (mulv Q ms). intros. vec. ring. }
    rewrite E. rewrite ?mulv_sub, ?mulv_add.
    assert (EK : forall k b, mulv Q (scale k b) = scale k (mulv Q b)) by (intros; destruct Q as [[? ?] ?]; unfold mulv; apply AlignerProofs.vec_eq; vec; ring).
    rewrite ?EK. set (S1 := sS3 _ l). set (S2 := sS3 _ l). clearbody S1 S2 w. generalize (mulv Q s) (mulv Q ms) (mulv Q (total3 (map fst l))). intros. vec. ring.
Qed.

Lemma sum3_total l : forall x, sum3 l x = add x (total3 l).
Proof.
  induction l as [|p l IH]; intros x; [cbn [sum3 total3]; apply AlignerProofs.vec_eq; vec; ring|]. rewrite total3_cons. cbn [sum3]. rewrite IH. apply AlignerProofs.vec_eq; vec; ring.
Qed.
Lemma mean3_centroid l : mean3 l = centroid3 l.
Proof. unfold mean3, centroid3. rewrite sum3_total. destruct (total3 l) as [[? ?] ?]. unfold Rdiv. vec. apply AlignerProofs.triple_eq; ring. Qed.
Lemma centroid_total l : l <> [] -> sub (total3 l) (scale (INR (length l)) (centroid3 l)) = (0, 0, 0).
Proof.
  intros H. assert (N : INR (length l) <> 0) by (apply not_0_INR; destruct l; [congruence|discriminate]).
  unfold centroid3. destruct (total3 l) as [[? ?] ?]. vec. apply AlignerProofs.triple_eq; field; exact N.
Qed.
Lemma cost3_gain l : l <> [] -> let ms := centroid3 (map fst l) in let md := centroid3 (map snd l) in let S := cross_cov3 l ms md (diag3 0 0 0) in
  exists K, forall Q t, orthogonal3 Q -> cost3 (Q, t) l = K - 2 * gain3 Q S + INR (length l) * dot (sub t (sub md (mulv Q ms))) (sub t (sub md (mulv Q ms))).
Proof.
  intros HN ms md S. exists (sS3 (fun p => dot (sub (snd p) md) (sub (snd p) md) + dot (sub (fst p) ms) (sub (fst p) ms)) l).
  intros Q t O. rewrite (cost3_expand Q t ms md l O). unfold S. rewrite gain_cov.
  pose proof (centroid_total (map fst l)) as C1. pose proof (centroid_total (map snd l)) as C2. rewrite !map_length in C1, C2. fold ms in C1. fold md in C2.
  rewrite C1, C2 by (destruct l; [congruence|discriminate]).
  replace (mulv Q (0, 0, 0)) with ((0, 0, 0) : vec3) by (destruct Q as [[? ?] ?]; unfold mulv; apply AlignerProofs.vec_eq; vec; ring).
  replace (gain3 Q (diag3 0 0 0)) with 0 by (destruct Q as [[? ?] ?]; unfold gain3, diag3, transpose, of_columns; vec; ring).
  set (w := sub t _). clearbody w. set (A := sS3 _ l). set (B := sS3 _ l). clearbody A B. vec. ring.
Qed.

Lemma rot_inverse M v : rotation3 M -> mulv M (mulv (inverse M) v) = v.
Proof.
  intros HM. apply rotation3_iff in HM. destruct HM as [_ D]. destruct M as [[a b] c]. unfold inverse. rewrite D. unfold det3 in D.
  assert (E : v = scale (dot a (cross b c)) v) by (rewrite D; apply AlignerProofs.vec_eq; vec; ring).
  rewrite E at 2. destruct a as [[? ?] ?], b as [[? ?] ?], c as [[? ?] ?], v as [[? ?] ?]. clear. unfold mulv, of_columns. vec. rewrite Rinv_1. apply AlignerProofs.triple_eq; ring.
Qed.
Lemma inverse_tr3_ok t c : rotation3 (fst t) -> act3 t (apply3 (inverse_tr3 t) c) = c.
Proof.
  destruct t as [M v]. cbn [fst]. intros HM. rewrite act3_apply. unfold inverse_tr3, apply3. cbn [fst snd]. rewrite mulv_add.
  replace (mulv M (neg (mulv (inverse M) v))) with (neg (mulv M (mulv (inverse M) v))) by (destruct M as [[? ?] ?]; unfold mulv at 1 3; apply AlignerProofs.vec_eq; vec; ring).
  rewrite !rot_inverse by exact HM. apply AlignerProofs.vec_eq; vec; ring.
Qed.
Lemma act3_sq t p q : orthogonal3 (fst t) -> sq3 (act3 t p) (act3 t q) = sq3 p q.
Proof.
  intros O. rewrite !sq3_dot, !act3_apply. destruct t as [M v]. cbn [fst] in O. unfold apply3. cbn [fst snd]. rewrite <- (mulv_dot M (sub p q) (sub p q) O), !mulv_sub. vec. ring.
Qed.
Lemma sqd_l3 p q : sqd (l3 p) (l3 q) = sq3 p q.
Proof. destruct p as [[? ?] ?], q as [[? ?] ?]. unfold l3, sq3. cbn. ring. Qed.

Definition sides3 (dims : vec3) : Prop := let '(x, y, z) := dims in 0 <= x /\ 0 <= y /\ 0 <= z.
Lemma associate_all3_ok dims t : sides3 dims -> rotation3 (fst t) -> forall cloud,
  exists l, associate_all3 dims (inverse_tr3 t) cloud = Ret l /\ matched3 dims t cloud l.
Proof.
  intros HD HT. induction cloud as [|c cloud (l & IH & M1 & M2)]; [exists []; repeat split; constructor|].
  cbn [associate_all3]. cbv zeta. set (q := apply3 (inverse_tr3 t) c).
  destruct (associate_lemma [X dims; Y dims; Z dims] [X q; Y q; Z q]) as (p & E & Hs & Hm).
  - cbn. lia.
  - destruct dims as [[? ?] ?]. destruct HD as (? & ? & ?). intros [|[|[|i]]] Hi; cbn in *; try assumption; lia.
  - reflexivity.
  - rewrite E. cbn [obind]. rewrite IH. cbn [obind]. destruct p as [|x [|y [|z [|z' p]]]]; try (destruct Hs as [[L _] _]; discriminate).
    exists ((pack3 [x; y; z], c) :: l). split; [reflexivity|]. split; [cbn; rewrite M1; reflexivity|]. constructor; [|exact M2].
    exists q. split; [apply inverse_tr3_ok, HT|]. split; assumption.
Qed.
Lemma procrustes3_fit svd l : l <> [] -> conforming3 svd -> exists U s V,
  svd3_ok (cross_cov3 l (centroid3 (map fst l)) (centroid3 (map snd l)) (diag3 0 0 0)) U s V /\
  procrustes3 svd l = (fit3 U V, sub (centroid3 (map snd l)) (mulv (fit3 U V) (centroid3 (map fst l)))).
Proof.
  intros HN HS. unfold procrustes3. rewrite !mean3_centroid. cbv zeta. set (S := cross_cov3 _ _ _ _). specialize (HS S). destruct (svd S) as [[U s] V].
  exists U, s, V. split; [exact HS|reflexivity].
Qed.

(** One step: always a rotation that maps the centroids to each other; optimal when the decomposition is already a rotation. *)
Lemma step3_lemma svd dims cloud t : conforming3 svd -> sides3 dims -> rotation3 (fst t) -> cloud <> [] ->
  exists l t' U s V, computeTransform3 svd dims cloud t = Ret (Some t') /\ matched3 dims t cloud l /\ rotation3 (fst t') /\
    act3 t' (centroid3 (map fst l)) = centroid3 cloud /\
    svd (cross_cov3 l (centroid3 (map fst l)) (centroid3 (map snd l)) (diag3 0 0 0)) = (U, s, V) /\ fst t' = fit3 U V /\
    (0 < det3 V * det3 U -> forall w, rotation3 (fst w) -> cost3 t' l <= cost3 w l).
Proof.
  intros HS HD HT HC. destruct (associate_all3_ok dims t HD HT cloud) as (l & E & M). exists l.
  assert (HN : l <> []) by (intros ->; destruct M as [M _]; cbn in M; congruence).
  exists (procrustes3 svd l).
  set (S := cross_cov3 l (centroid3 (map fst l)) (centroid3 (map snd l)) (diag3 0 0 0)). pose proof (HS S) as OK. destruct (svd S) as [[U s] V] eqn:ES. exists U, s, V.
  assert (P : procrustes3 svd l = (fit3 U V, sub (centroid3 (map snd l)) (mulv (fit3 U V) (centroid3 (map fst l))))).
  { unfold procrustes3. rewrite !mean3_centroid. cbv zeta. fold S. rewrite ES. reflexivity. }
  split; [unfold computeTransform3; rewrite E; cbn [obind]; destruct cloud; [congruence|reflexivity]|]. split; [exact M|].
  rewrite P. cbn [fst]. pose proof OK as (HU & HV & HP & _). pose proof (fit3_rotation U V HU HV) as RF. split; [exact RF|]. split; [|split; [reflexivity|split; [reflexivity|]]].
  - rewrite (proj1 M). rewrite act3_apply. unfold apply3. cbn [fst snd]. apply AlignerProofs.vec_eq; vec; ring.
  - intros HF [Q w] RQ. cbn [fst] in RQ. destruct (cost3_gain l HN) as (K & CK). rewrite (CK Q w (proj1 RQ)), (CK _ _ (proj1 RF)).
    pose proof (gain_bound _ _ _ _ Q OK (proj1 RQ)) as G. pose proof (gain_fit _ _ _ _ OK) as GF. destruct s as [[p q] r]. fold S. rewrite GF.
    assert (F1 : flip U V = 1). { unfold flip. rewrite det_mulm, det_transpose. destruct (Rlt_dec 0 _); [reflexivity|contradiction]. } rewrite F1.
    set (cc := sub (centroid3 (map snd l)) (mulv (fit3 U V) _)). replace (dot (sub cc cc) (sub cc cc)) with 0 by (clearbody cc; vec; ring).
    assert (0 <= INR (length l) * dot (sub w (sub (centroid3 (map snd l)) (mulv Q (centroid3 (map fst l))))) (sub w (sub (centroid3 (map snd l)) (mulv Q (centroid3 (map fst l)))))).
    { apply Rmult_le_pos; [apply pos_INR|]. apply AlignerProofs.dot_self_nonneg. }
    lra.
Qed.
Lemma matched3_cost dims t t' : rotation3 (fst t') -> forall cloud l l', matched3 dims t cloud l -> matched3 dims t' cloud l' -> cost3 t' l' <= cost3 t' l.
Proof.
  intros HT'. induction cloud as [|c cloud IH]; intros [|[m c1] l] [|[m' c2] l'] [M1 M2] [M1' M2']; try discriminate; [cbn; lra|].
  cbn in M1, M1'. injection M1 as -> M1. injection M1' as -> M1'. inversion M2 as [|? ? (q & Q1 & [Q2 Q3]) M2t]. inversion M2' as [|? ? (q' & Q1' & [Q2' Q3']) M2t']. subst.
  cbn [cost3 fst snd] in *. apply Rplus_le_compat; [|apply (IH l l'); split; solve [reflexivity | assumption]].
  rewrite <- Q1'. rewrite !act3_sq by apply HT'. specialize (Q3' _ Q2). rewrite !sqd_l3 in Q3'. rewrite !sq3_dot in *. vec. lra.
Qed.
