(** * Proofs about the plane geometry in float arithmetic. *)
From Coq Require Import Reals ZArith Bool Lra Lia Psatz.
From Flocq Require Import Core Relative Sterbenz.
From Verif Require Import PiBounds DoubleModel DoubleSpec DoubleProofs DoubleTrig SingleModel SingleProofs Geometry2Model Geometry2Spec Geometry2Proofs GeoFloatModel GeoFloatSpec.
Open Scope R_scope.

(** ** Angles *)
Lemma normalize_err wide x : nearly_reduced (4 * V * (Rabs x + 8)) K_2PIf x (normalizeAngle2Pif wide x).
Proof.
  unfold normalizeAngle2Pif. set (P := K_2PIf). assert (HP : 6 <= P <= 7) by (unfold P, K_2PIf; lra). set (g := x / P). assert (Eg : P * g = x) by (unfold g; field; lra). cbv zeta.
  set (A := Rabs x). assert (HA : 0 <= A /\ - A <= x <= A) by (unfold A; split; [apply Rabs_pos|apply abs_le_inv; lra]).
  assert (AG : P * Rabs g = A) by (unfold A; rewrite <- Eg, Rabs_mult, (Rabs_right P) by lra; reflexivity).
  pose proof (single_err g) as Hq. unfold ffloor. set (q := single g) in *. clearbody A q g.
  pose proof V_pos as V0. pose proof U_pos as U0. assert (UV : U <= V / 1000000) by numv.
  assert (VA0 : 0 <= V * A) by (apply Rmult_le_pos; lra). assert (VV : 0 <= V * V <= V / 1000000) by nra.
  assert (VA : 0 <= V * (V * A) <= V * A / 1000000) by (split; [apply Rmult_le_pos; lra|]; nra). assert (VVV : 0 <= V * (V * V) <= V * V / 1000000) by nra.
  assert (PQ : - (V * A + 7 * (V * V)) <= P * q - x <= V * A + 7 * (V * V)).
  { apply abs_le_inv in Hq. assert (T : V * A = P * (V * Rabs g)) by (rewrite <- AG; ring). rewrite T, <- Eg. set (d := V * Rabs g) in *. set (u := V * V) in *. clearbody d u. nra. }
  set (n := Zfloor q). assert (N1 : IZR n <= q) by apply Zfloor_lb. assert (N2 : q < IZR n + 1) by apply Zfloor_ub.
  assert (PN : P * IZR n <= P * q <= P * IZR n + P) by nra. set (pn := P * IZR n) in *.
  assert (BN : Rabs pn <= A + V * A + 7 * (V * V) + 7) by (apply Rabs_le; lra).
  assert (T1 : V * Rabs pn <= V * (A + V * A + 7 * (V * V) + 7)) by (apply Rmult_le_compat_l; lra).
  assert (G : exists m, Rabs (m - pn) <= V * Rabs pn + V * V /\ Rabs ((if wide then single (fsub x (fmul P (IZR n))) else single (x - single pn)) - (x - m)) <= (V + 2 * U) * Rabs (x - m) + V * V + 2 * U).
  { destruct wide.
    - exists (rnd pn). unfold fsub, fmul. fold pn. pose proof (rnd_err pn) as R1. pose proof (Rabs_pos pn) as P0. pose proof (Rmult_le_compat_r (Rabs pn) U V P0 ltac:(numv)) as T2. split; [assert (U * U <= V * V) by numv; lra|].
      set (m := rnd pn) in *. pose proof (rnd_err (x - m)) as R2. pose proof (single_err (rnd (x - m))) as R3. set (r := rnd (x - m)) in *. replace (single r - (x - m)) with ((single r - r) + (r - (x - m))) by ring.
      eapply Rle_trans; [apply Rabs_triang|]. assert (B : Rabs r <= Rabs (x - m) + (U * Rabs (x - m) + U * U)).
      { replace r with ((x - m) + (r - (x - m))) by ring. eapply Rle_trans; [apply Rabs_triang|]. lra. }
      assert (T3 : V * Rabs r <= V * (Rabs (x - m) + (U * Rabs (x - m) + U * U))) by (apply Rmult_le_compat_l; lra). pose proof (Rabs_pos (x - m)) as X0.
      assert (T4 : V * (U * Rabs (x - m)) <= 1 * (U * Rabs (x - m))) by (apply Rmult_le_compat_r; [apply Rmult_le_pos; lra|lra]). assert (T5 : V * (U * U) + U * U <= 2 * U) by numv. lra.
    - exists (single pn). split; [apply single_err|]. pose proof (single_err (x - single pn)) as R. pose proof (Rabs_pos (x - single pn)) as X0. assert (0 <= U * Rabs (x - single pn)) by (apply Rmult_le_pos; lra). lra. }
  destruct G as (m & Hm & Hr). set (r := if wide then _ else _) in *. clearbody r. apply abs_le_inv in Hm.
  assert (BX : Rabs (x - m) <= 8 + 3 * (V * A)) by (apply Rabs_le; lra).
  assert (T2 : (V + 2 * U) * Rabs (x - m) <= (V + 2 * U) * (8 + 3 * (V * A))) by (apply Rmult_le_compat_l; lra).
  assert (T3 : U * (V * A) <= V * (V * A)) by (apply Rmult_le_compat_r; lra).
  apply abs_le_inv in Hr. unfold nearly_reduced. split; [lra|]. exists n. replace (IZR n * P) with pn by (unfold pn; ring). clearbody pn. apply Rabs_le. lra.
Qed.
Lemma normalize_turns wide x : nearly_reduced (6 * V * (Rabs x + 8)) (2 * PI) x (normalizeAngle2Pif wide x).
Proof.
  pose proof V_pos as V0. pose proof (Rabs_pos x) as X0. pose proof PI_digits as HP. assert (VX : 0 <= V * Rabs x) by (apply Rmult_le_pos; lra). assert (VVX : V * (V * Rabs x) <= V * Rabs x / 1000) by nra. assert (VV : V * V <= V / 1000) by nra.
  eapply nearly_weaken; [|apply (nearly_shift (4 * V * (Rabs x + 8)) K_2PIf (2 * PI) (3 * V)); [unfold K_2PIf; lra|apply Rmult_le_pos; lra| |lra|apply normalize_err]]; [lra|].
  unfold K_2PIf, V. apply Rabs_le. lra.
Qed.
(** The normalised difference of two angles. *)
Lemma difference_near wide B x b : Rabs x <= B -> Rabs b <= B -> exists k : Z, let r := normalizeAngle2Pif wide (single (x - b)) in
  Rabs (r - (x - b) - IZR k * (2 * PI)) <= 16 * V * (B + 4) /\ - (14 * V * (B + 4)) <= r <= 2 * PI + 14 * V * (B + 4).
Proof.
  intros HX HB. pose proof V_pos as V0. pose proof (Rabs_pos x) as X0. assert (VB : 0 <= V * B) by (apply Rmult_le_pos; lra). assert (VVB : V * (V * B) <= V * B / 1000000) by nra. assert (VV : 0 <= V * V <= V / 1000000) by nra.
  pose proof (single_err (x - b)) as E. assert (XB : Rabs (x - b) <= 2 * B) by (apply abs_le_inv in HX, HB; apply Rabs_le; lra). set (u := single (x - b)) in *.
  assert (T : V * Rabs (x - b) <= V * (2 * B)) by (apply Rmult_le_compat_l; lra). assert (UB : Rabs u <= 2 * B + 2 * (V * B) + V * V).
  { replace u with ((x - b) + (u - (x - b))) by ring. eapply Rle_trans; [apply Rabs_triang|]. lra. }
  destruct (normalize_turns wide u) as [R [k K]]. exists (- k)%Z. intros r. fold r in R, K. clearbody r u. rewrite opp_IZR. 
  assert (T2 : V * Rabs u <= V * (2 * B + 2 * (V * B) + V * V)) by (apply Rmult_le_compat_l; lra). assert (VVV : 0 <= V * (V * V) <= V * V / 1000000) by nra.
  apply abs_le_inv in E, K. split; [apply Rabs_le|]; lra.
Qed.
Lemma inside_margin wide B b e w x m : Rabs x <= B -> Rabs b <= B -> Rabs e <= B -> m = 64 * V * (B + 4) -> arc_width (2 * PI) b e w -> m <= w <= 2 * PI - m ->
  (well_inside m (2 * PI) b w x -> insideAngleIntervalf wide x b e = true /\ insideAngleIntervalEqf wide x b e = true) /\
  (well_outside m (2 * PI) b w x -> insideAngleIntervalf wide x b e = false /\ insideAngleIntervalEqf wide x b e = false).
Proof.
  intros HX HB HE Hm [HW [j Ej]] HW2. pose proof PI_bounds as HP. pose proof V_pos as V0. pose proof (Rabs_pos x) as X0. assert (VB : 0 < V * (B + 4)) by (apply Rmult_lt_0_compat; lra).
  destruct (difference_near wide B x b HX HB) as (kx & Kx & Rx). destruct (difference_near wide B e b HE HB) as (ke & Ke & Re). unfold insideAngleIntervalf, insideAngleIntervalEqf.
  set (rx := normalizeAngle2Pif wide (single (x - b))) in *. set (re := normalizeAngle2Pif wide (single (e - b))) in *. clearbody rx re. set (D := V * (B + 4)) in *. assert (Em : m = 64 * D) by (unfold D; rewrite Hm; ring).
  replace (16 * V * (B + 4)) with (16 * D) in * by (unfold D; ring). replace (14 * V * (B + 4)) with (14 * D) in * by (unfold D; ring). clearbody D. apply abs_le_inv in Kx, Ke.
  assert (WE : re - w <= 16 * D /\ - (16 * D) <= re - w).
  { assert (Z0 : (j + ke = 0)%Z).
    { assert (A : re - w - IZR (j + ke) * (2 * PI) <= 16 * D /\ - (16 * D) <= re - w - IZR (j + ke) * (2 * PI)) by (rewrite plus_IZR; lra).
      destruct (Z.eq_dec (j + ke) 0) as [|N]; [assumption|exfalso]. destruct (Z_lt_le_dec (j + ke) 0) as [L|L].
      - assert (IZR (j + ke) <= -1) by (apply IZR_le; lia). nra.
      - assert (1 <= IZR (j + ke)) by (apply IZR_le; lia). nra. }
    assert (IZR j + IZR ke = 0) by (rewrite <- plus_IZR, Z0; reflexivity). assert (J : IZR j = - IZR ke) by lra. rewrite Ej, J in Ke. lra. }
  split; intros [k Hk].
  - assert (Z0 : (kx - k = 0)%Z).
    { set (s := x + IZR k * (2 * PI) - b). assert (S : m <= s <= w - m) by (unfold s; lra). assert (A : rx - s - IZR (kx - k) * (2 * PI) <= 16 * D /\ - (16 * D) <= rx - s - IZR (kx - k) * (2 * PI)) by (unfold s; rewrite minus_IZR; lra). clearbody s.
      destruct (Z.eq_dec (kx - k) 0) as [|N]; [assumption|exfalso]. destruct (Z_lt_le_dec (kx - k) 0) as [L|L].
      - assert (IZR (kx - k) <= -1) by (apply IZR_le; lia). nra.
      - assert (1 <= IZR (kx - k)) by (apply IZR_le; lia). nra. }
    assert (kx = k) by lia. subst kx. unfold ltb, leb. destruct (Rlt_dec rx re); [|lra]. destruct (Rle_dec rx re); [auto|lra].
  - assert (Z0 : (kx - k = 0)%Z).
    { set (s := x + IZR k * (2 * PI) - b). assert (S : w + m <= s <= 2 * PI - m) by (unfold s; lra). assert (A : rx - s - IZR (kx - k) * (2 * PI) <= 16 * D /\ - (16 * D) <= rx - s - IZR (kx - k) * (2 * PI)) by (unfold s; rewrite minus_IZR; lra). clearbody s.
      destruct (Z.eq_dec (kx - k) 0) as [|N]; [assumption|exfalso]. destruct (Z_lt_le_dec (kx - k) 0) as [L|L].
      - assert (IZR (kx - k) <= -1) by (apply IZR_le; lia). nra.
      - assert (1 <= IZR (kx - k)) by (apply IZR_le; lia). nra. }
    assert (kx = k) by lia. subst kx. unfold ltb, leb. destruct (Rlt_dec rx re); [lra|]. destruct (Rle_dec rx re); [lra|auto].
Qed.

(** ** Turns *)
Lemma single_scaled m e : (Z.abs m <= 2 ^ 24)%Z -> (-149 <= e)%Z -> single (IZR m * powerRZ 2 e) = IZR m * powerRZ 2 e.
Proof.
  intros M E. replace (powerRZ 2 e) with (bpow radix2 e) by apply bpow_powerRZ. apply single_id.
  destruct (Z.eq_dec (Z.abs m) (2 ^ 24)) as [A|A]; [|apply sformat; lia].
  assert (C : m = (2 * (m / 2))%Z /\ (Z.abs (m / 2) < 2 ^ 24)%Z).
  { destruct (Z.abs_spec m) as [[_ S]|[_ S]]; rewrite S in A; [subst m|replace m with (- 2 ^ 24)%Z by lia]; split; reflexivity. }
  destruct C as [C1 C2]. rewrite C1, mult_IZR. replace (IZR 2 * IZR (m / 2) * bpow radix2 e) with (IZR (m / 2) * bpow radix2 (e + 1)); [apply sformat; lia|].
  rewrite bpow_plus. cbn. ring.
Qed.
Lemma power_double e : powerRZ 2 (2 * e) = powerRZ 2 e * powerRZ 2 e.
Proof. replace (2 * e)%Z with (e + e)%Z by lia. apply powerRZ_add. lra. Qed.
(** Twice the area of a triangle inside a square is at most the area of the square. *)
Lemma affine_upper n M (f : Z -> Z) t : (forall u, f u = f 0 + (f 1 - f 0) * u)%Z -> (Z.abs t <= n -> f n <= M -> f (- n) <= M -> f t <= M)%Z.
Proof.
  intros E T. rewrite (E n), (E (- n)%Z), (E t). set (be := (f 1 - f 0)%Z). intros H1 H2. destruct (Z_le_gt_dec 0 be) as [L|L].
  - pose proof (Z.mul_le_mono_nonneg_l t n be L ltac:(lia)). lia.
  - pose proof (Z.mul_le_mono_nonpos_l (- n) t be ltac:(lia) ltac:(lia)). lia.
Qed.
Lemma det_square n ax ay bx by' cx cy : (Z.abs ax <= n -> Z.abs ay <= n -> Z.abs bx <= n -> Z.abs by' <= n -> Z.abs cx <= n -> Z.abs cy <= n ->
  (bx - ax) * (cy - ay) - (by' - ay) * (cx - ax) <= 4 * (n * n))%Z.
Proof.
  intros A1 A2 B1 B2 C1 C2. assert (N : (0 <= n * n)%Z) by nia.
  apply (affine_upper n _ (fun t => (bx - t) * (cy - ay) - (by' - ay) * (cx - t))%Z ax); [intros; ring|exact A1| |];
  [apply (affine_upper n _ (fun t => (bx - n) * (cy - t) - (by' - t) * (cx - n))%Z ay)|apply (affine_upper n _ (fun t => (bx - - n) * (cy - t) - (by' - t) * (cx - - n))%Z ay)];
  try (intros; ring); try exact A2;
  match goal with |- (_ * (_ - ?q) - _ * (_ - ?p) <= _)%Z => apply (affine_upper n _ (fun t => (t - p) * (cy - q) - (by' - q) * (cx - p))%Z bx) end; try (intros; ring); try exact B1;
  match goal with |- ((?b - _) * (_ - ?q) - _ * (_ - ?p) <= _)%Z => apply (affine_upper n _ (fun t => (b - p) * (cy - q) - (t - q) * (cx - p))%Z by') end; try (intros; ring); try exact B2;
  match goal with |- ((?b - _) * (_ - ?q) - (?d - _) * (_ - ?p) <= _)%Z => apply (affine_upper n _ (fun t => (b - p) * (cy - q) - (d - q) * (t - p))%Z cx) end; try (intros; ring); try exact C1;
  match goal with |- ((?b - _) * (_ - ?q) - (?d - _) * (?c - ?p) <= _)%Z => apply (affine_upper n _ (fun t => (b - p) * (t - q) - (d - q) * (c - p))%Z cy) end; try (intros; ring); try exact C2; lia.
Qed.
Lemma det_lattice n ax ay bx by' cx cy : (Z.abs ax <= n -> Z.abs ay <= n -> Z.abs bx <= n -> Z.abs by' <= n -> Z.abs cx <= n -> Z.abs cy <= n ->
  Z.abs ((bx - ax) * (cy - ay) - (by' - ay) * (cx - ax)) <= 4 * (n * n))%Z.
Proof.
  intros A1 A2 B1 B2 C1 C2. pose proof (det_square n ax ay bx by' cx cy A1 A2 B1 B2 C1 C2). pose proof (det_square n ax ay cx cy bx by' A1 A2 C1 C2 B1 B2). lia.
Qed.
Lemma ccw_lattice e a b c : (-74 <= e)%Z -> lattice 2048 e a -> lattice 2048 e b -> lattice 2048 e c -> ccwf a b c = ccw a b c.
Proof.
  intros E (ax & ay & -> & A1 & A2) (bx & by' & -> & B1 & B2) (cx & cy & -> & C1 & C2). unfold ccwf, ccw. cbn [fst snd].
  rewrite <- !Rmult_minus_distr_r, <- !minus_IZR, !single_scaled by lia.
  assert (P : forall i j, IZR i * powerRZ 2 e * (IZR j * powerRZ 2 e) = IZR (i * j) * powerRZ 2 (2 * e)) by (intros; rewrite power_double, mult_IZR; ring). rewrite !P, !single_scaled by nia.
  rewrite <- !Rmult_minus_distr_r, <- !minus_IZR. apply single_scaled; [|lia]. pose proof (det_lattice 2048 ax ay bx by' cx cy). lia.
Qed.
Lemma cone_lattice e x y b f : (-74 <= e)%Z -> lattice 2048 e (x, y) -> lattice 2048 e b -> lattice 2048 e f -> insideConef x y b f = insideCone x y b f.
Proof.
  intros E (ax & ay & A & A1 & A2) (bx & by' & -> & B1 & B2) (cx & cy & -> & C1 & C2). injection A as -> ->. unfold insideConef, insideCone. cbn [fst snd].
  assert (P : forall i j, IZR i * powerRZ 2 e * (IZR j * powerRZ 2 e) = IZR (i * j) * powerRZ 2 (2 * e)) by (intros; rewrite power_double, mult_IZR; ring).
  assert (Q : forall i j, - (IZR i * powerRZ 2 e) * (IZR j * powerRZ 2 e) = IZR (- i * j) * powerRZ 2 (2 * e)) by (intros; rewrite power_double, mult_IZR, opp_IZR; ring).
  rewrite !P, !Q, !single_scaled by nia. rewrite <- !Rmult_minus_distr_r, <- !Rmult_plus_distr_r, <- !minus_IZR, <- !plus_IZR, !single_scaled by nia. reflexivity.
Qed.
Lemma ccwf_swap a b c : ccwf a c b = - ccwf a b c.
Proof. unfold ccwf. rewrite <- single_opp. f_equal. rewrite (Rmult_comm (single (fst c - fst a))), (Rmult_comm (single (snd c - snd a))). ring. Qed.
(** Rounding is monotone: exact differences leave the order of the products. *)
Lemma ccwf_monotone a b c : single (fst b - fst a) = fst b - fst a -> single (snd b - snd a) = snd b - snd a -> single (fst c - fst a) = fst c - fst a -> single (snd c - snd a) = snd c - snd a ->
  (0 < ccwf a b c -> left_turn a b c) /\ (left_turn a b c -> 0 <= ccwf a b c).
Proof.
  intros E1 E2 E3 E4. rewrite <- ccw_left. unfold ccwf, ccw. rewrite E1, E2, E3, E4. set (p := (fst b - fst a) * (snd c - snd a)). set (q := (snd b - snd a) * (fst c - fst a)). split; intros H.
  - destruct (Rlt_or_le 0 (p - q)) as [|L]; [assumption|exfalso]. assert (L' : single p <= single q) by (apply single_le; lra). assert (single (single p - single q) <= 0) by (apply single_neg; lra). lra.
  - apply single_pos. assert (single q <= single p) by (apply single_le; lra). lra.
Qed.
Lemma ccwf_error B a b c : within B a -> within B b -> within B c -> Rabs (ccwf a b c - ccw a b c) <= 36 * V * ((B + 1) * (B + 1)).
Proof.
  intros [A1 A2] [B1 B2] [C1 C2]. pose proof V_pos as V0. pose proof (Rabs_pos (fst a)) as F0. unfold ccwf, ccw. set (W := B + 1) in *.
  assert (D : forall s t, Rabs s <= B -> Rabs t <= B -> err (2 * V * W) (single (s - t)) (s - t) /\ Rabs (s - t) <= 2 * W).
  { intros s t S T. assert (X : Rabs (s - t) <= 2 * B) by (apply abs_le_inv in S, T; apply Rabs_le; lra). split; [|unfold W; lra]. pose proof (single_err (s - t)) as H. assert (V * Rabs (s - t) <= V * (2 * B)) by (apply Rmult_le_compat_l; lra). assert (V * V <= V) by nra. unfold err, W. lra. }
  assert (WB : 1 <= W) by (unfold W; lra). clearbody W. set (Q := W * W). assert (WQ : W <= Q) by (unfold Q; nra).
  assert (VQ : 0 < V * Q) by (apply Rmult_lt_0_compat; lra). assert (VVQ : 0 <= V * (V * Q) <= V * Q / 1000000) by (split; [apply Rmult_le_pos; lra|]; nra). assert (VV : 0 <= V * V <= V * (V * Q)) by nra.
  assert (VVVQ : 0 <= V * (V * (V * Q)) <= V * (V * Q)) by (split; [apply Rmult_le_pos; lra|]; nra).
  assert (P : forall x y u v, err (2 * V * W) x u /\ Rabs u <= 2 * W -> err (2 * V * W) y v /\ Rabs v <= 2 * W -> err (13 * (V * Q)) (single (x * y)) (u * v) /\ Rabs (u * v) <= 4 * Q).
  { intros x y u v [X Xu] [Y Yv]. assert (UV : Rabs (u * v) <= 4 * Q) by (rewrite Rabs_mult; unfold Q; pose proof (Rabs_pos u); pose proof (Rabs_pos v); nra). split; [|exact UV].
    apply (serr_rnd (8 * (V * Q) + 4 * (V * (V * Q))) _ _ (4 * Q)); [|exact UV|lra].
    unfold err in *. replace (x * y - u * v) with ((x - u) * v + u * (y - v) + (x - u) * (y - v)) by ring. eapply Rle_trans; [apply Rabs_triang|]. eapply Rle_trans; [apply Rplus_le_compat_r, Rabs_triang|]. rewrite !Rabs_mult.
    set (dx := Rabs (x - u)) in *. set (dy := Rabs (y - v)) in *. assert (0 <= dx) by apply Rabs_pos. assert (0 <= dy) by apply Rabs_pos. pose proof (Rabs_pos u). pose proof (Rabs_pos v).
    assert (T1 : dx * Rabs v <= (2 * V * W) * (2 * W)) by (apply Rmult_le_compat; lra). assert (T2 : Rabs u * dy <= (2 * W) * (2 * V * W)) by (apply Rmult_le_compat; lra). assert (T3 : dx * dy <= (2 * V * W) * (2 * V * W)) by (apply Rmult_le_compat; lra). unfold Q. lra. }
  destruct (P _ _ _ _ (D (fst b) (fst a) B1 A1) (D (snd c) (snd a) C2 A2)) as [P1 Q1]. destruct (P _ _ _ _ (D (snd b) (snd a) B2 A2) (D (fst c) (fst a) C1 A1)) as [P2 Q2].
  assert (S : err (26 * (V * Q)) (single (single (fst b - fst a) * single (snd c - snd a)) - single (single (snd b - snd a) * single (fst c - fst a))) ((fst b - fst a) * (snd c - snd a) - (snd b - snd a) * (fst c - fst a))).
  { unfold err in *. apply abs_le_inv in P1, P2. apply Rabs_le. lra. }
  assert (F : err (36 * (V * Q)) (single (single (single (fst b - fst a) * single (snd c - snd a)) - single (single (snd b - snd a) * single (fst c - fst a)))) ((fst b - fst a) * (snd c - snd a) - (snd b - snd a) * (fst c - fst a))).
  { apply (serr_rnd _ _ _ (8 * Q) _ S); [|lra]. apply abs_le_inv in Q1, Q2. apply Rabs_le. lra. }
  unfold err in F. lra.
Qed.
Lemma ccwf_sure B a b c : within B a -> within B b -> within B c -> 36 * V * ((B + 1) * (B + 1)) < Rabs (ccw a b c) -> (0 < ccwf a b c <-> left_turn a b c) /\ (ccwf a b c < 0 <-> left_turn a c b).
Proof.
  intros HA HB HC M. pose proof (ccwf_error B a b c HA HB HC) as H. rewrite <- !ccw_left. destruct (ccw_swap a b c) as (_ & S & _). rewrite S.
  apply abs_le_inv in H. revert M. unfold Rabs. destruct (Rcase_abs (ccw a b c)); intros; split; split; intros; lra.
Qed.
Lemma single_odd : single (-16777217) = -16777216.
Proof.
  replace (-16777217) with (- (16777217)) by lra. rewrite single_opp. f_equal. unfold single, round, F2R, scaled_mantissa. cbn [Fnum Fexp].
  assert (C : cexp radix2 (FLT_exp (-149) 24) 16777217 = 1%Z). { unfold cexp. rewrite (mag_unique radix2 16777217 25); [reflexivity|]. rewrite Rabs_right by lra. cbn. lra. }
  rewrite C. cbn [bpow]. change (IZR (Z.pow_pos radix2 1)) with 2. replace (16777217 * bpow radix2 (- (1))) with (IZR 8388608 + / 2) by (cbn; lra).
  unfold ZnearestE, Znearest. assert (F : Zfloor (IZR 8388608 + / 2) = 8388608%Z) by (apply Zfloor_imp; cbn; lra). rewrite F. replace (IZR 8388608 + / 2 - IZR 8388608) with (/ 2) by ring. rewrite Rcompare_Eq by reflexivity. cbn. lra.
Qed.
Lemma single_whole m : (Z.abs m <= 2 ^ 24)%Z -> single (IZR m) = IZR m.
Proof. intros H. pose proof (single_scaled m 0 H ltac:(lia)) as E. cbn in E. rewrite Rmult_1_r in E. exact E. Qed.
Lemma ccwf_flip : 0 < ccwf (16777216, 16777216) (-2, -1) (-1, 0) /\ left_turn (16777216, 16777216) (-1, 0) (-2, -1).
Proof.
  rewrite <- ccw_left. unfold ccwf, ccw. cbn [fst snd]. split; [|lra].
  assert (P1 : powerRZ 2 (Z.of_nat 1) = 2) by (rewrite <- pow_powerRZ; lra). assert (P25 : powerRZ 2 (Z.of_nat 25) = 33554432) by (rewrite <- pow_powerRZ; lra). assert (P48 : powerRZ 2 (Z.of_nat 48) = 281474976710656) by (rewrite <- pow_powerRZ; lra).
  cbn [Z.of_nat Pos.of_succ_nat Pos.succ] in P1, P25, P48. replace (-1 - 16777216) with (-16777217) by lra. rewrite single_odd. replace (-2 - 16777216) with (IZR (-8388609) * powerRZ 2 1) by (rewrite P1; lra). replace (0 - 16777216) with (IZR (-16777216)) by lra.
  rewrite single_scaled, single_whole by lia.
  replace (IZR (-8388609) * powerRZ 2 1 * -16777216) with (IZR 8388609 * powerRZ 2 25) by (rewrite P1, P25; lra). replace (-16777216 * -16777216) with (IZR 1 * powerRZ 2 48) by (rewrite P48; lra). rewrite !single_scaled by lia.
  replace (IZR 8388609 * powerRZ 2 25 - IZR 1 * powerRZ 2 48) with (IZR 1 * powerRZ 2 25) by (rewrite P25, P48; lra). rewrite single_scaled, P25 by lia. lra.
Qed.
Lemma normalize_full wide : normalizeAngle2Pif wide (- powerRZ 2 (-60)) = K_2PIf.
Proof.
  assert (E60 : powerRZ 2 (-60) = / 1152921504606846976) by (change (powerRZ 2 (-60)) with (/ 2 ^ Pos.to_nat 60); f_equal; change (Pos.to_nat 60) with 60%nat; lra). rewrite E60.
  assert (F : ffloor (single (- / 1152921504606846976 / K_2PIf)) = -1).
  { unfold ffloor. apply (f_equal IZR (y := (-1)%Z)). apply Zfloor_imp. pose proof (single_err (- / 1152921504606846976 / K_2PIf)) as H. set (g := - / 1152921504606846976 / K_2PIf) in *.
    assert (G : g <= - / 9000000000000000000 /\ -1 / 1000 <= g) by (unfold g, K_2PIf; lra).
    assert (N : single g <= - / 9223372036854775808 /\ -1 <= single g).
    { assert (F1 : generic_format radix2 sexp (- / 9223372036854775808)).
      { replace (- / 9223372036854775808) with (IZR (-1) * bpow radix2 (-63)) by (cbn; lra). apply sformat; lia. }
      split; [apply (single_upper _ _ F1); lra|apply (single_lower _ _ sformat_m1); lra]. }
    cbn. lra. }
  assert (FK : single K_2PIf = K_2PIf).
  { unfold K_2PIf. replace (13176795 / 2097152) with (IZR 13176795 * bpow radix2 (-21)) by (cbn; lra). apply single_id, sformat; lia. }
  unfold normalizeAngle2Pif. rewrite F. cbv zeta. destruct wide.
  - unfold fsub, fmul. replace (K_2PIf * -1) with (- K_2PIf) by ring. assert (RK : rnd K_2PIf = K_2PIf) by (rewrite <- FK at 1; rewrite rnd_single; exact FK). rewrite rnd_opp, RK.
    assert (R : rnd (- / 1152921504606846976 - - K_2PIf) = K_2PIf).
    { replace K_2PIf with (IZR (13176795 * 2 ^ 29) * bpow radix2 (-50)) at 2 by (unfold K_2PIf; cbn; lra). apply rnd_near; [lia|rewrite Rabs_right by (unfold K_2PIf; lra); unfold K_2PIf; cbn; lra|].
      replace ((- / 1152921504606846976 - - K_2PIf) * bpow radix2 (- (-50)) - IZR (13176795 * 2 ^ 29)) with (- / 1024) by (unfold K_2PIf; cbn; lra). rewrite Rabs_Ropp, Rabs_right; lra. }
    rewrite R. exact FK.
  - replace (K_2PIf * -1) with (- K_2PIf) by ring. rewrite single_opp, FK.
    replace K_2PIf with (IZR 13176795 * bpow radix2 (-21)) at 2 by (unfold K_2PIf; cbn; lra). apply single_near; [lia|rewrite Rabs_right by (unfold K_2PIf; lra); unfold K_2PIf; cbn; lra|].
    replace ((- / 1152921504606846976 - - K_2PIf) * bpow radix2 (- (-21)) - IZR 13176795) with (- / 549755813888) by (unfold K_2PIf; cbn; lra). rewrite Rabs_Ropp, Rabs_right; lra.
Qed.
