(** * Proofs for FunctionsModel. *)
From Coq Require Import List Reals Lra Lia ZArith Bool Arith.
From Verif Require Import PiBounds Base FunctionsModel FunctionsSpec.
Import ListNotations.
Open Scope R_scope.

(** ** floor and reduction *)
Lemma floor_spec x : floorR x <= x < floorR x + 1.
Proof. unfold floorR. destruct (base_Int_part x) as [H1 H2]. lra. Qed.
Lemma floor_unique x k : IZR k <= x < IZR k + 1 -> floorR x = IZR k.
Proof.
  intros H. pose proof (floor_spec x) as F. unfold floorR in *. f_equal. assert (IZR (Int_part x) < IZR (k + 1)) by (rewrite plus_IZR; lra). assert (IZR k < IZR (Int_part x + 1)) by (rewrite plus_IZR; lra).
  apply lt_IZR in H0. apply lt_IZR in H1. lia.
Qed.
Lemma floor_is_int x : exists k, floorR x = IZR k.
Proof. now exists (Int_part x). Qed.
Lemma floor_reduce period x : 0 < period -> reduced period x (x - period * floorR (x / period)).
Proof.
  intros Hp. pose proof (floor_spec (x / period)) as [F1 F2]. destruct (floor_is_int (x / period)) as (k & Ek). rewrite Ek in *. split.
  - assert (E : x = x / period * period) by (field; lra). split.
    + apply (Rmult_le_compat_r period) in F1; [|lra]. rewrite <- E in F1. lra.
    + apply (Rmult_lt_compat_r period) in F2; [|lra]. rewrite <- E in F2. lra.
  - exists k. ring.
Qed.
Lemma reduced_unique period x y z : 0 < period -> reduced period x y -> reduced period x z -> y = z.
Proof.
  intros Hp (Hy & k & Ek) (Hz & l & El). assert (E : y - z = IZR (l - k) * period) by (rewrite minus_IZR; lra).
  assert (k = l); [|subst l; lra]. assert (H : - period < IZR (l - k) * period < period) by lra.
  assert (H2 : IZR (-1) < IZR (l - k) < IZR 1).
  { split; apply (Rmult_lt_reg_r period); lra. }
  destruct H2 as [H2 H3]. apply lt_IZR in H2. apply lt_IZR in H3. lia.
Qed.
Lemma reduced_congr period x y z w : reduced period x y -> reduced period z w -> (exists k, x - z = IZR k * period) -> 0 < period -> y = w.
Proof.
  intros Hx (Hw & l & El) (k & Ek) Hp. apply (reduced_unique period x); auto. split; [auto|]. exists (k + l)%Z. rewrite plus_IZR. lra.
Qed.

Lemma fmod_reduce period x : 0 < period -> let m := fmod x period in reduced period x (if Rlt_dec m 0 then m + period else m).
Proof.
  intros Hp m. unfold m, fmod, truncR. assert (E : x = x / period * period) by (field; lra). destruct (Rle_dec 0 (x / period)) as [H|H].
  - pose proof (floor_reduce period x Hp) as F. destruct (Rlt_dec _ 0) as [Hn|]; [|exact F]. destruct F as [F _]. lra.
  - pose proof (floor_spec (- (x / period))) as [F1 F2]. destruct (floor_is_int (- (x / period))) as (k & Ek). rewrite Ek in *.
    assert (B : - period < x - period * - IZR k <= 0).
    { split.
      - apply (Rmult_lt_compat_r period) in F2; [|lra]. lra.
      - apply (Rmult_le_compat_r period) in F1; [|lra]. lra. }
    destruct (Rlt_dec (x - period * - IZR k) 0).
    + split; [lra|]. exists (- k - 1)%Z. rewrite minus_IZR, opp_IZR. lra.
    + split; [lra|]. exists (- k)%Z. rewrite opp_IZR. lra.
Qed.

(** ** Cosine *)
Lemma cos_shift x k : cos (x + IZR k * (2 * PI)) = cos x.
Proof.
  destruct (Z_le_gt_dec 0 k) as [H|H].
  - rewrite <- (cos_period x (Z.to_nat k)). f_equal. rewrite INR_IZR_INZ, Z2Nat.id by auto. ring.
  - rewrite <- (cos_period (x + IZR k * (2 * PI)) (Z.to_nat (- k))). f_equal. rewrite INR_IZR_INZ, Z2Nat.id by lia. rewrite opp_IZR. ring.
Qed.
Lemma cos_dec x y : 0 <= x -> x <= y -> y <= PI -> cos y <= cos x.
Proof. intros. destruct (Req_dec x y) as [->|]; [lra|]. left. apply cos_decreasing_1; lra. Qed.
Lemma cos_inc x y : PI <= x -> x <= y -> y <= 2 * PI -> cos x <= cos y.
Proof. intros. destruct (Req_dec x y) as [->|]; [lra|]. left. apply cos_increasing_1; lra. Qed.
Lemma cos_range x : -1 <= cos x <= 1.
Proof. apply COS_bound. Qed.

Lemma minR_cases a b : (minR a b = a \/ minR a b = b) /\ minR a b <= a /\ minR a b <= b.
Proof. unfold minR. destruct (Rlt_dec b a); repeat split; auto; lra. Qed.
Lemma maxR_cases a b : (maxR a b = a \/ maxR a b = b) /\ a <= maxR a b /\ b <= maxR a b.
Proof. unfold maxR. destruct (Rlt_dec a b); repeat split; auto; lra. Qed.

(** Extremes on [a, b], a <= b. *)
Definition ext (a b lo hi : R) : Prop :=
  (forall t, a <= t <= b -> lo <= cos t <= hi) /\ (exists t, a <= t <= b /\ cos t = lo) /\ (exists t, a <= t <= b /\ cos t = hi).
Lemma ext_shift a b lo hi k : ext a b lo hi -> ext (a + IZR k * (2 * PI)) (b + IZR k * (2 * PI)) lo hi.
Proof.
  intros (H1 & (t1 & H2 & H3) & t2 & H4 & H5). split; [|split].
  - intros t Ht. replace t with ((t - IZR k * (2 * PI)) + IZR k * (2 * PI)) by ring. rewrite cos_shift. apply H1. lra.
  - exists (t1 + IZR k * (2 * PI)). rewrite cos_shift. split; [lra|auto].
  - exists (t2 + IZR k * (2 * PI)). rewrite cos_shift. split; [lra|auto].
Qed.

(** No wrap-around. *)
Lemma ext_plain a b : 0 <= a -> a <= b -> b < 2 * PI ->
  ext a b (if Rlt_dec a PI then (if Rlt_dec PI b then -1 else minR (cos a) (cos b)) else minR (cos a) (cos b)) (maxR (cos a) (cos b)).
Proof.
  intros Ha Hab Hb. pose proof PI_RGT_0 as Hpi. destruct (minR_cases (cos a) (cos b)) as (M1 & M2 & M3). destruct (maxR_cases (cos a) (cos b)) as (X1 & X2 & X3).
  assert (Hmax : forall t, a <= t <= b -> cos t <= maxR (cos a) (cos b)).
  { intros t Ht. destruct (Rle_dec t PI); [assert (cos t <= cos a) by (apply cos_dec; lra); lra|]. assert (cos t <= cos b) by (apply cos_inc; lra). lra. }
  assert (Hex : exists t, a <= t <= b /\ cos t = maxR (cos a) (cos b)) by (destruct X1 as [->| ->]; [exists a|exists b]; split; auto; lra).
  assert (Hmn : exists t, a <= t <= b /\ cos t = minR (cos a) (cos b)) by (destruct M1 as [->| ->]; [exists a|exists b]; split; auto; lra).
  destruct (Rlt_dec a PI) as [H1|H1]; [destruct (Rlt_dec PI b) as [H2|H2]|].
  - split; [|split; [|auto]]; [intros t Ht; split; [apply cos_range|auto]|]. exists PI. split; [lra|apply cos_PI].
  - split; [|split; auto]. intros t Ht. split; [|auto]. assert (cos b <= cos t) by (apply cos_dec; lra). lra.
  - split; [|split; auto]. intros t Ht. split; [|auto]. assert (cos a <= cos t) by (apply cos_inc; lra). lra.
Qed.

(** Through 2 pi. *)
Lemma ext_wrap a b : 0 <= b -> b < a -> a < 2 * PI ->
  ext a (b + 2 * PI) (if Rlt_dec b PI then (if Rlt_dec PI a then minR (cos a) (cos b) else -1) else -1) 1.
Proof.
  intros Hb Hba Ha. pose proof PI_RGT_0 as Hpi. destruct (minR_cases (cos a) (cos b)) as (M1 & M2 & M3).
  assert (C2 : forall x, cos (x + 2 * PI) = cos x) by (intros x; rewrite <- (cos_shift x 1); f_equal; ring).
  assert (Hex : exists t, a <= t <= b + 2 * PI /\ cos t = 1) by (exists (2 * PI); split; [lra|apply cos_2PI]).
  assert (Hpi3 : PI <= b \/ a <= PI -> exists t, a <= t <= b + 2 * PI /\ cos t = -1).
  { intros [H|H]; [exists (PI + 2 * PI); rewrite C2; split; [lra|apply cos_PI]|exists PI; split; [lra|apply cos_PI]]. }
  destruct (Rlt_dec b PI) as [H1|H1]; [destruct (Rlt_dec PI a) as [H2|H2]|].
  - split; [|split; [|auto]].
    + intros t Ht. split; [|apply cos_range]. destruct (Rle_dec t (2 * PI)).
      * assert (cos a <= cos t) by (apply cos_inc; lra). lra.
      * replace t with ((t - 2 * PI) + 2 * PI) by ring. rewrite C2. assert (cos b <= cos (t - 2 * PI)) by (apply cos_dec; lra). lra.
    + destruct M1 as [->| ->]; [exists a; split; [lra|auto]|exists (b + 2 * PI); rewrite C2; split; [lra|auto]].
  - split; [|split; [|auto]]; [intros; apply cos_range|]. apply Hpi3. right. lra.
  - split; [|split; [|auto]]; [intros; apply cos_range|]. apply Hpi3. left. lra.
Qed.

Lemma findLUCos_sorted a b : a <= b -> ext a b (fst (findLUCos a b)) (snd (findLUCos a b)).
Proof.
  intros Hab. pose proof PI_RGT_0 as Hpi. unfold findLUCos. destruct (Rlt_dec b a); [lra|]. destruct (Rle_dec (2 * PI) (b - a)) as [Hfull|Hfull].
  - cbn [fst snd]. destruct (floor_reduce (2 * PI) a ltac:(lra)) as (B & k & E). set (m := a - 2 * PI * floorR (a / (2 * PI))) in *.
    split; [intros; apply cos_range|]. split.
    + destruct (Rle_dec m PI).
      * exists (PI + IZR k * (2 * PI)). rewrite cos_shift. split; [lra|apply cos_PI].
      * exists (PI + IZR (k + 1) * (2 * PI)). rewrite cos_shift. rewrite plus_IZR. split; [lra|apply cos_PI].
    + exists (0 + IZR (k + 1) * (2 * PI)). rewrite cos_shift. rewrite plus_IZR. split; [lra|apply cos_0].
  - destruct (fmod_reduce (2 * PI) a ltac:(lra)) as (Ba & p & Ea). destruct (fmod_reduce (2 * PI) b ltac:(lra)) as (Bb & q & Eb). cbv zeta in *.
    set (am := if Rlt_dec (fmod a (2 * PI)) 0 then fmod a (2 * PI) + 2 * PI else fmod a (2 * PI)) in *. set (bm := if Rlt_dec (fmod b (2 * PI)) 0 then fmod b (2 * PI) + 2 * PI else fmod b (2 * PI)) in *.
    clearbody am bm. assert (Hd : IZR (q - p) * (2 * PI) = b - a - (bm - am)) by (rewrite minus_IZR, Ea, Eb; ring).
    assert (Hq : forall z : Z, IZR (z - 1) * (2 * PI) < IZR (q - p) * (2 * PI) < IZR (z + 1) * (2 * PI) -> q = (p + z)%Z).
    { intros z [H1 H2]. apply Rmult_lt_reg_r in H1; [|lra]. apply Rmult_lt_reg_r in H2; [|lra]. apply lt_IZR in H1. apply lt_IZR in H2. lia. }
    destruct (Rlt_dec bm am) as [Hlt|Hge].
    + assert (q = (p + 1)%Z) as ->. { apply Hq. rewrite minus_IZR, plus_IZR. lra. }
      cbn [fst snd]. replace b with ((bm + 2 * PI) + IZR p * (2 * PI)) by (rewrite Eb, plus_IZR; ring). rewrite Ea. apply ext_shift. apply ext_wrap; lra.
    + assert (q = (p + 0)%Z) as ->. { apply Hq. rewrite minus_IZR, plus_IZR. lra. }
      cbn [fst snd]. rewrite Z.add_0_r in Eb. rewrite Ea, Eb. apply ext_shift. apply ext_plain; lra.
Qed.

Lemma findLUCos_swap a b : b < a -> findLUCos a b = findLUCos b a.
Proof. intros H. unfold findLUCos. destruct (Rlt_dec b a); [|lra]. destruct (Rlt_dec a b); [lra|reflexivity]. Qed.

Lemma findLUCos_lemma a b : extremes cos a b (fst (findLUCos a b)) (snd (findLUCos a b)).
Proof.
  unfold extremes, between. destruct (Rle_lt_dec a b) as [H|H].
  - destruct (findLUCos_sorted a b H) as (H1 & (t1 & H2 & H3) & t2 & H4 & H5). split; [|split]; eauto. intros t [Ht|Ht]; apply H1; lra.
  - rewrite (findLUCos_swap a b H). destruct (findLUCos_sorted b a ltac:(lra)) as (H1 & (t1 & H2 & H3) & t2 & H4 & H5). split; [|split]; eauto. intros t [Ht|Ht]; apply H1; lra.
Qed.

(** ** Fourier series *)
Lemma vread_co c i : (i < length c)%nat -> vread c i = Ret (co c i).
Proof. intros H. unfold vread, co. now rewrite (nth_error_nth' c 0 H). Qed.

Lemma fourier_loop_ok c t f : forall k v, (2 * (k + f) <= length c)%nat ->
  fourier_loop f k c (cos t) (sin t) (cos (INR k * t)) (sin (INR k * t)) v = Ret (v + (fourier c (k + f) t - fourier c k t)).
Proof.
  induction f as [|f IH]; intros k v Hl; cbn [fourier_loop].
  - rewrite Nat.add_0_r. f_equal. lra.
  - rewrite !vread_co by lia. cbn [obind].
    replace (cos t * cos (INR k * t) - sin t * sin (INR k * t)) with (cos (INR (S k) * t)) by (rewrite <- cos_plus; f_equal; rewrite S_INR; ring).
    replace (sin t * cos (INR k * t) + cos t * sin (INR k * t)) with (sin (INR (S k) * t)) by (rewrite <- sin_plus; f_equal; rewrite S_INR; ring).
    rewrite IH by lia. f_equal. replace (k + S f)%nat with (S k + f)%nat by lia. replace (fourier c (S k) t) with (fourier c k t + (co c (2 * k) * cos (INR k * t) + co c (2 * k + 1) * sin (INR k * t))) by reflexivity. lra.
Qed.
Lemma half_le n : (2 * (n / 2) <= n)%nat.
Proof. apply Nat.mul_div_le. lia. Qed.
Lemma evaluateFourier_lemma c t : evaluateFourier c t = Ret (negb (Nat.even (length c)), fourier c (length c / 2) t).
Proof.
  unfold evaluateFourier. pose proof (fourier_loop_ok c t (length c / 2) 0 0) as H. cbn [INR] in H. rewrite Rmult_0_l, cos_0, sin_0 in H. rewrite H; [|cbn [Nat.add]; apply half_le].
  cbn [obind Nat.add]. do 2 f_equal. unfold fourier at 2. cbn [rsum]. lra.
Qed.

(** Amplitude and phase. *)
Lemma polar x y : sqrt (x * x + y * y) * cos (atan2 y x) = x /\ sqrt (x * x + y * y) * sin (atan2 y x) = y.
Proof.
  assert (CS : forall u, cos (atan u) = / sqrt (1 + u * u) /\ sin (atan u) = u / sqrt (1 + u * u)).
  { intros u. pose proof (cos_atan u) as H1. pose proof (sin_atan u) as H2. unfold Rsqr in *. rewrite H1, H2. split; [unfold Rdiv; ring|reflexivity]. }
  assert (SQ : x <> 0 -> sqrt (x * x + y * y) = Rabs x * sqrt (1 + y / x * (y / x)) /\ 0 < sqrt (1 + y / x * (y / x))).
  { intros Hx. assert (0 <= y / x * (y / x)) by (pose proof (Rle_0_sqr (y / x)) as Hs; unfold Rsqr in Hs; exact Hs). split.
    - rewrite <- sqrt_Rsqr_abs, <- sqrt_mult by (unfold Rsqr; nra). f_equal. unfold Rsqr. field. auto.
    - apply sqrt_lt_R0. lra. }
  unfold atan2. destruct (Rlt_dec 0 x) as [Hx|Hx]; [|destruct (Rlt_dec x 0) as [Hx2|Hx2]].
  - destruct (SQ ltac:(lra)) as [-> Hp]. destruct (CS (y / x)) as [-> ->]. rewrite Rabs_right by lra. split; field; lra.
  - destruct (SQ ltac:(lra)) as [-> Hp]. destruct (CS (y / x)) as [C S]. rewrite Rabs_left by lra.
    assert (C' : forall e, e = PI \/ e = - PI -> cos (atan (y / x) + e) = - cos (atan (y / x)) /\ sin (atan (y / x) + e) = - sin (atan (y / x))).
    { intros e He. rewrite cos_plus, sin_plus. destruct He as [->| ->]; rewrite ?cos_neg, ?sin_neg, cos_PI, sin_PI; lra. }
    destruct (Rle_dec 0 y); [destruct (C' PI ltac:(auto)) as [-> ->]|unfold Rminus; destruct (C' (- PI) ltac:(auto)) as [-> ->]]; rewrite C, S; split; field; lra.
  - assert (x = 0) as -> by lra. replace (0 * 0 + y * y) with (Rsqr y) by (unfold Rsqr; ring). rewrite sqrt_Rsqr_abs.
    destruct (Rlt_dec 0 y) as [Hy|Hy]; [|destruct (Rlt_dec y 0) as [Hy2|Hy2]].
    + rewrite cos_PI2, sin_PI2, Rabs_right by lra. lra.
    + rewrite cos_neg, sin_neg, cos_PI2, sin_PI2, Rabs_left by lra. lra.
    + assert (y = 0) as -> by lra. rewrite Rabs_R0, cos_0, sin_0. lra.
Qed.
Lemma harmonic x y p : x * cos p + y * sin p = sqrt (x * x + y * y) * cos (p - atan2 y x).
Proof. destruct (polar x y) as [H1 H2]. rewrite cos_minus. transitivity (sqrt (x * x + y * y) * cos (atan2 y x) * cos p + sqrt (x * x + y * y) * sin (atan2 y x) * sin p); [now rewrite H1, H2|ring]. Qed.

Lemma between_scale m p t0 t1 t : 0 <= m -> between t0 t1 t -> between (m * t0 - p) (m * t1 - p) (m * t - p).
Proof. intros Hm [H|H]; [left|right]; nra. Qed.

Lemma lu_loop_ok c t0 t1 t (Ht : between t0 t1 t) f : forall k lo hi, (1 <= k)%nat -> (2 * (k + f) <= length c)%nat -> lo <= fourier2 c k t <= hi ->
  exists lo' hi', lu_loop f k c t0 t1 lo hi = Ret (lo', hi') /\ lo' <= fourier2 c (k + f) t <= hi'.
Proof.
  induction f as [|f IH]; intros k lo hi Hk Hl Hb; cbn [lu_loop]; [rewrite Nat.add_0_r; eauto|].
  rewrite !vread_co by lia. cbn [obind]. set (x := co c (2 * k)) in *. set (y := co c (2 * k + 1)) in *. set (p := atan2 y x). set (m := INR (2 * k)).
  pose proof (findLUCos_lemma (m * t0 - p) (m * t1 - p)) as (HB & _). destruct (findLUCos (m * t0 - p) (m * t1 - p)) as [smin smax]. cbn [fst snd] in HB.
  specialize (HB (m * t - p) ltac:(apply between_scale; [apply pos_INR|auto])). pose proof (sqrt_pos (x * x + y * y)) as Hs.
  replace (k + S f)%nat with (S k + f)%nat by lia. apply IH; [lia|lia|].
  replace (fourier2 c (S k) t) with (fourier2 c k t + (x * cos (m * t) + y * sin (m * t))) by reflexivity. rewrite harmonic. fold p. nra.
Qed.
Lemma findLUFourier_lemma c t0 t1 : (2 <= length c)%nat -> exists lo hi, findLUFourier c t0 t1 = Ret (lo, hi) /\
  forall t, between t0 t1 t -> lo <= fourier2 c (length c / 2) t <= hi.
Proof.
  intros Hl. unfold findLUFourier. pose proof (half_le (length c)) as Hh. assert (Hh1 : (1 <= length c / 2)%nat) by (apply Nat.div_le_lower_bound; lia).
  set (q := if Rlt_dec t1 t0 then (t1, t0) else (t0, t1)).
  assert (Hq : forall t, between t0 t1 t -> between (fst q) (snd q) t) by (intros t Ht; unfold q, between in *; destruct (Rlt_dec t1 t0); cbn [fst snd]; tauto).
  destruct q as [u0 u1]. cbn [fst snd] in Hq. rewrite vread_co by lia. cbn [obind].
  assert (F1 : forall t, co c 0 <= fourier2 c 1 t <= co c 0).
  { intros t. unfold fourier2. cbn [rsum Nat.mul Nat.add INR]. rewrite Rmult_0_l, cos_0, sin_0. lra. }
  assert (Hb : between t0 t1 t0) by (unfold between; destruct (Rle_lt_dec t0 t1); [left|right]; lra).
  destruct (lu_loop_ok c u0 u1 t0 (Hq _ Hb) (length c / 2 - 1) 1 (co c 0) (co c 0)) as (lo & hi & E & _); [lia|lia|apply F1|]. exists lo, hi. split; [exact E|].
  intros t Ht. destruct (lu_loop_ok c u0 u1 t (Hq _ Ht) (length c / 2 - 1) 1 (co c 0) (co c 0)) as (lo2 & hi2 & E2 & B2); [lia|lia|apply F1|].
  rewrite E in E2. injection E2 as <- <-. replace (1 + (length c / 2 - 1))%nat with (length c / 2)%nat in B2 by lia. exact B2.
Qed.
(** The bounds are the sums of the exact bounds of the harmonics. *)
Definition Lk (c : list R) (t0 t1 : R) (k : nat) : R * R :=
  let x := co c (2 * k) in let y := co c (2 * k + 1) in
  match k with O => (co c 0, co c 0) | S _ =>
    (sqrt (x * x + y * y) * fst (findLUCos (INR (2 * k) * t0 - atan2 y x) (INR (2 * k) * t1 - atan2 y x)),
     sqrt (x * x + y * y) * snd (findLUCos (INR (2 * k) * t0 - atan2 y x) (INR (2 * k) * t1 - atan2 y x))) end.
Lemma lu_loop_exact c t0 t1 f : forall k, (1 <= k)%nat -> (2 * (k + f) <= length c)%nat ->
  lu_loop f k c t0 t1 (rsum (fun i => fst (Lk c t0 t1 i)) k) (rsum (fun i => snd (Lk c t0 t1 i)) k) = Ret (rsum (fun i => fst (Lk c t0 t1 i)) (k + f), rsum (fun i => snd (Lk c t0 t1 i)) (k + f)).
Proof.
  induction f as [|f IH]; intros k Hk Hl; cbn [lu_loop]; [now rewrite Nat.add_0_r|].
  rewrite !vread_co by lia. cbn [obind]. replace (k + S f)%nat with (S k + f)%nat by lia. rewrite <- IH by lia. destruct k as [|k]; [lia|].
  set (F := fun i => fst (Lk c t0 t1 i)). set (G := fun i => snd (Lk c t0 t1 i)).
  change (rsum F (S (S k))) with (rsum F (S k) + F (S k)). change (rsum G (S (S k))) with (rsum G (S k) + G (S k)). generalize (rsum F (S k)) (rsum G (S k)). intros lo hi. unfold F, G, Lk. cbv zeta. cbn [fst snd].
  set (x := co c (2 * S k)). set (y := co c (2 * S k + 1)).
  destruct (findLUCos (INR (2 * S k) * t0 - atan2 y x) (INR (2 * S k) * t1 - atan2 y x)) as [a b]. reflexivity.
Qed.
Lemma Lk_extremes c t0 t1 k : extremes (harmonic2 c k) t0 t1 (fst (Lk c t0 t1 k)) (snd (Lk c t0 t1 k)).
Proof.
  assert (B0 : between t0 t1 t0) by (unfold between; destruct (Rle_lt_dec t0 t1); [left|right]; lra).
  destruct k as [|k].
  - assert (E : forall t, harmonic2 c 0 t = co c 0). { intros t. unfold harmonic2. cbn [Nat.mul Nat.add INR]. rewrite Rmult_0_l, cos_0, sin_0. lra. }
    cbn [Lk fst snd]. split; [intros t _; rewrite E; lra|]. split; exists t0; split; auto.
  - unfold Lk. cbv zeta. cbn [fst snd]. set (x := co c (2 * S k)). set (y := co c (2 * S k + 1)). set (m := INR (2 * S k)). set (p := atan2 y x).
    assert (Hm : 0 < m) by (apply lt_0_INR; lia).
    assert (E : forall t, harmonic2 c (S k) t = sqrt (x * x + y * y) * cos (m * t - p)) by (intros t; unfold harmonic2; fold x y m; apply harmonic).
    destruct (findLUCos_lemma (m * t0 - p) (m * t1 - p)) as (A & (s1 & B1 & C1) & (s2 & B2 & C2)). pose proof (sqrt_pos (x * x + y * y)) as Hs.
    assert (I : forall s, between (m * t0 - p) (m * t1 - p) s -> between t0 t1 ((s + p) / m) /\ m * ((s + p) / m) - p = s).
    { intros s Hb. assert (Em : m * ((s + p) / m) - p = s) by (field; lra). split; [|exact Em]. set (t := (s + p) / m) in *. destruct Hb as [Hb|Hb]; [left|right]; nra. }
    split; [|split].
    + intros t Ht. rewrite E. specialize (A (m * t - p) ltac:(apply between_scale; [lra|auto])). nra.
    + destruct (I s1 B1) as [I1 I2]. exists ((s1 + p) / m). split; [exact I1|]. now rewrite E, I2, C1.
    + destruct (I s2 B2) as [I1 I2]. exists ((s2 + p) / m). split; [exact I1|]. now rewrite E, I2, C2.
Qed.
Lemma extremes_swap f a b lo hi : extremes f a b lo hi -> extremes f b a lo hi.
Proof. unfold extremes, between. intros (A & (s & B1 & B2) & (u & C1 & C2)). split; [intros t Ht; apply A; tauto|]. split; [exists s|exists u]; split; auto; tauto. Qed.
Lemma findLUFourier_exact c t0 t1 : (2 <= length c)%nat -> exists l h,
  findLUFourier c t0 t1 = Ret (rsum l (length c / 2), rsum h (length c / 2)) /\ forall k, (k < length c / 2)%nat -> extremes (harmonic2 c k) t0 t1 (l k) (h k).
Proof.
  intros Hl. pose proof (half_le (length c)) as Hh. assert (Hh1 : (1 <= length c / 2)%nat) by (apply Nat.div_le_lower_bound; lia).
  assert (G : forall u0 u1, lu_loop (length c / 2 - 1) 1 c u0 u1 (co c 0) (co c 0) = Ret (rsum (fun i => fst (Lk c u0 u1 i)) (length c / 2), rsum (fun i => snd (Lk c u0 u1 i)) (length c / 2))).
  { intros u0 u1. pose proof (lu_loop_exact c u0 u1 (length c / 2 - 1) 1) as X. replace (1 + (length c / 2 - 1))%nat with (length c / 2)%nat in X by lia. rewrite <- X by lia. cbn [rsum Lk fst snd]. now rewrite Rplus_0_l. }
  unfold findLUFourier. rewrite vread_co by lia. cbn [obind].
  destruct (Rlt_dec t1 t0); eexists _, _; (split; [apply G|]); intros k _; [apply extremes_swap|]; apply Lk_extremes.
Qed.

Lemma findLUFourier_empty t0 t1 : findLUFourier [] t0 t1 = UB.
Proof. unfold findLUFourier. destruct (Rlt_dec t1 t0); reflexivity. Qed.

(** The two functions use different series. *)
Lemma series_mismatch : exists c t0 t1 t lo hi v w, (2 <= length c)%nat /\ Nat.even (length c) = true /\ between t0 t1 t /\
  findLUFourier c t0 t1 = Ret (lo, hi) /\ evaluateFourier c t = Ret (v, w) /\ hi < w.
Proof.
  destruct (findLUFourier_lemma [0; 0; 1; 0] (PI / 2) (PI / 2)) as (lo & hi & E & B); [cbn; lia|].
  exists [0; 0; 1; 0], (PI / 2), (PI / 2), (PI / 2), lo, hi, false, (fourier [0; 0; 1; 0] 2 (PI / 2)).
  split; [cbn; lia|]. split; [reflexivity|]. split; [left; lra|]. split; [exact E|]. split; [apply evaluateFourier_lemma|].
  revert E. unfold findLUFourier. destruct (Rlt_dec (PI / 2) (PI / 2)); [lra|]. cbn [vread nth_error obind length Nat.div Nat.divmod fst Nat.sub lu_loop Nat.mul Nat.add].
  pose proof (findLUCos_lemma (INR 2 * (PI / 2) - atan2 0 1) (INR 2 * (PI / 2) - atan2 0 1)) as (_ & _ & (s & Hs & Es)).
  destruct (findLUCos (INR 2 * (PI / 2) - atan2 0 1) (INR 2 * (PI / 2) - atan2 0 1)) as [smin smax]. cbn [fst snd] in Es.
  assert (A : atan2 0 1 = 0). { unfold atan2. destruct (Rlt_dec 0 1); [|lra]. replace (0 / 1) with 0 by field. apply atan_0. }
  rewrite A in Hs. cbn [INR] in Hs. assert (s = PI) as -> by (destruct Hs; lra). rewrite cos_PI in Es. subst smax.
  intros E. injection E as _ <-. unfold fourier. cbn [rsum co nth Nat.mul Nat.add INR]. rewrite !Rmult_0_l, !Rmult_1_l, cos_PI2. rewrite Rplus_0_r with (r := 1), sqrt_1. lra.
Qed.

(** ** Angles *)
Lemma K_2PI_pos : 0 < K_2PI.
Proof. unfold K_2PI. lra. Qed.
Lemma normalize360_lemma x : reduced K_2PI x (normalize360 x).
Proof. apply floor_reduce. apply K_2PI_pos. Qed.
Lemma normalize180_lemma x : reduced PI x (normalize180 x).
Proof. apply floor_reduce. apply PI_RGT_0. Qed.
Lemma evaluateFourier_warns c t : exists v, evaluateFourier c t = Ret (negb (Nat.even (length c)), v).
Proof. rewrite evaluateFourier_lemma. eauto. Qed.
Lemma findLUFourier_sums c t0 t1 : (2 <= length c)%nat -> exists l h,
  findLUFourier c t0 t1 = Ret (rsum l (length c / 2), rsum h (length c / 2)) /\
  (forall k, (k < length c / 2)%nat -> extremes (harmonic2 c k) t0 t1 (l k) (h k)) /\
  (forall t, between t0 t1 t -> rsum l (length c / 2) <= fourier2 c (length c / 2) t <= rsum h (length c / 2)).
Proof.
  intros Hl. destruct (findLUFourier_exact c t0 t1 Hl) as (l & h & E & X). exists l, h. split; [exact E|]. split; [exact X|].
  destruct (findLUFourier_lemma c t0 t1 Hl) as (lo & hi & E2 & B). rewrite E in E2. injection E2 as <- <-. exact B.
Qed.
Lemma fourier2_double c m t : fourier2 c m t = fourier c m (2 * t).
Proof.
  unfold fourier2, fourier. induction m as [|m IH]; [reflexivity|]. cbn [rsum]. rewrite IH. replace (INR (2 * m) * t) with (INR m * (2 * t)) by (rewrite mult_INR; cbn [INR]; ring). reflexivity.
Qed.
Lemma findLUFourier_double c t0 t1 : (2 <= length c)%nat -> exists lo hi, findLUFourier c t0 t1 = Ret (lo, hi) /\
  forall t, between t0 t1 t -> exists w, evaluateFourier c (2 * t) = Ret (negb (Nat.even (length c)), w) /\ lo <= w <= hi.
Proof.
  intros Hl. destruct (findLUFourier_lemma c t0 t1 Hl) as (lo & hi & E & B). exists lo, hi. split; [exact E|]. intros t Ht. rewrite evaluateFourier_lemma. eexists. split; [reflexivity|]. rewrite <- fourier2_double. auto.
Qed.
Lemma reduce_exact P x y : 0 < P -> reduced P x y -> (forall z, reduced P x z -> z = y) /\ (0 <= x < P -> y = x).
Proof.
  intros HP H. split.
  - intros z Hz. eapply reduced_unique; eauto.
  - intros Hx. eapply reduced_unique; eauto. split; [exact Hx|]. exists 0%Z. lra.
Qed.
Lemma normalize360_exact x : reduced K_2PI x (normalize360 x) /\ (forall y, reduced K_2PI x y -> y = normalize360 x) /\
  (0 <= x < K_2PI -> normalize360 x = x) /\ 2 * PI < K_2PI < 2 * PI + 1 / 1000000000.
Proof.
  destruct (reduce_exact _ _ _ K_2PI_pos (normalize360_lemma x)). split; [apply normalize360_lemma|]. split; [auto|]. split; [auto|]. pose proof PI_bounds. unfold K_2PI. lra.
Qed.
Lemma normalize180_exact x : reduced PI x (normalize180 x) /\ (forall y, reduced PI x y -> y = normalize180 x) /\ (0 <= x < PI -> normalize180 x = x).
Proof. destruct (reduce_exact _ _ _ PI_RGT_0 (normalize180_lemma x)). split; [apply normalize180_lemma|]. auto. Qed.
Lemma normalize360_2pi : ~ reduced (2 * PI) (2 * PI) (normalize360 (2 * PI)).
Proof.
  destruct (normalize360_exact (2 * PI)) as (_ & _ & E & B). pose proof PI_RGT_0. rewrite E by lra. intros [H1 _]. lra.
Qed.
