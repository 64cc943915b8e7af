(** * Property theorems for the Fourier, angle and fast trigonometric functions (C45-C48, C85-C90). *)
From Coq Require Import List Reals Arith Lra Lia.
From Verif Require Import Base FunctionsModel FunctionsSpec FunctionsProofs PiBounds FastTrigProofs FastSinProofs.
Import ListNotations.
Open Scope R_scope.

(** C45 *)
Theorem C45_evaluateFourier : forall c t, evaluateFourier c t = Ret (negb (Nat.even (length c)), fourier c (length c / 2) t).
Proof. exact evaluateFourier_lemma. Qed.
Print Assumptions C45_evaluateFourier.
Example C45_case : evaluateFourier [1; 5; 2; 3] PI = Ret (false, -1).
Proof.
  rewrite C45_evaluateFourier. unfold fourier, co. cbn [length Nat.even negb Nat.div Nat.divmod fst rsum nth Nat.mul Nat.add INR].
  rewrite !Rmult_0_l, !Rmult_1_l, cos_0, sin_0, cos_PI, sin_PI. do 2 f_equal. lra.
Qed.

(** C46 *)
Theorem C46_findLUCos : forall a b, extremes cos a b (fst (findLUCos a b)) (snd (findLUCos a b)).
Proof. exact findLUCos_lemma. Qed.
Print Assumptions C46_findLUCos.
Example C46_case : findLUCos 0 7 = (-1, 1).
Proof. unfold findLUCos. pose proof PI_bounds. destruct (Rlt_dec 7 0); [lra|]. destruct (Rle_dec (2 * PI) (7 - 0)); [reflexivity|lra]. Qed.

(** C47: without coefficients the first one is read out of bounds. *)
Theorem C47_bounds_refuted : exists c t0 t1, Nat.even (length c) = true /\ findLUFourier c t0 t1 = UB.
Proof. exists [], 0, 1. split; [reflexivity|apply findLUFourier_empty]. Qed.
Print Assumptions C47_bounds_refuted.
Theorem C47_bounds_partial : forall c t0 t1, (2 <= length c)%nat -> exists lo hi, findLUFourier c t0 t1 = Ret (lo, hi) /\
  forall t, between t0 t1 t -> lo <= fourier2 c (length c / 2) t <= hi.
Proof. exact findLUFourier_lemma. Qed.
Print Assumptions C47_bounds_partial.
Example C47_case : (2 <= length [1; 0; 2; 3])%nat.
Proof. cbn. lia. Qed.

(** C48: the constant for the period is larger than 2 pi. *)
Theorem C48_normalize_refuted : exists x, ~ reduced (2 * PI) x (normalize360 x).
Proof. exists (2 * PI). exact normalize360_2pi. Qed.
Print Assumptions C48_normalize_refuted.
Theorem C48_normalize_partial : forall x, reduced K_2PI x (normalize360 x) /\ reduced PI x (normalize180 x).
Proof. intros x. split; [apply normalize360_lemma|apply normalize180_lemma]. Qed.
Print Assumptions C48_normalize_partial.

(** C85 *)
Theorem C85_findLUFourier_exact : forall c t0 t1, (2 <= length c)%nat -> exists l h,
  findLUFourier c t0 t1 = Ret (rsum l (length c / 2), rsum h (length c / 2)) /\
  (forall k, (k < length c / 2)%nat -> extremes (harmonic2 c k) t0 t1 (l k) (h k)) /\
  (forall t, between t0 t1 t -> rsum l (length c / 2) <= fourier2 c (length c / 2) t <= rsum h (length c / 2)).
Proof. exact findLUFourier_sums. Qed.
Print Assumptions C85_findLUFourier_exact.
Example C85_case : (2 <= length [1; 0; 2; 3])%nat.
Proof. cbn. lia. Qed.

(** C86 *)
Theorem C86_same_series_refuted : exists c t0 t1 t lo hi v w, (2 <= length c)%nat /\ Nat.even (length c) = true /\ between t0 t1 t /\
  findLUFourier c t0 t1 = Ret (lo, hi) /\ evaluateFourier c t = Ret (v, w) /\ hi < w.
Proof. exact series_mismatch. Qed.
Print Assumptions C86_same_series_refuted.
Theorem C86_same_series_partial : forall c t0 t1, (2 <= length c)%nat -> exists lo hi, findLUFourier c t0 t1 = Ret (lo, hi) /\
  forall t, between t0 t1 t -> exists w, evaluateFourier c (2 * t) = Ret (negb (Nat.even (length c)), w) /\ lo <= w <= hi.
Proof. exact findLUFourier_double. Qed.
Print Assumptions C86_same_series_partial.
Example C86_case : (2 <= length [1; 0; 2; 3])%nat.
Proof. cbn. lia. Qed.

(** C87 *)
Theorem C87_normalize360 : forall x, reduced K_2PI x (normalize360 x) /\ (forall y, reduced K_2PI x y -> y = normalize360 x) /\
  (0 <= x < K_2PI -> normalize360 x = x) /\ 2 * PI < K_2PI < 2 * PI + 1 / 1000000000.
Proof. exact normalize360_exact. Qed.
Print Assumptions C87_normalize360.
Theorem C87_normalize180 : forall x, reduced PI x (normalize180 x) /\ (forall y, reduced PI x y -> y = normalize180 x) /\ (0 <= x < PI -> normalize180 x = x).
Proof. exact normalize180_exact. Qed.
Print Assumptions C87_normalize180.
Example C87_case : reduced K_2PI (-1) (K_2PI - 1).
Proof. unfold reduced, K_2PI. split; [lra|]. exists (-1)%Z. lra. Qed.

(** C88 *)
Theorem C88_fastCosSin : forall x, let (c, s) := fastCosSin x in
  Rabs (c - cos x) <= 12 / 10000 /\ Rabs (s - sin x) <= 12 / 10000 /\ -1 <= c <= 1 /\ -1 <= s <= 1.
Proof. exact fastCosSin_lemma. Qed.
Print Assumptions C88_fastCosSin.
Theorem C88_periodic : forall x k, fastCosSin (x + 2 * PI * IZR k) = fastCosSin x.
Proof. exact fastCosSin_periodic. Qed.
Print Assumptions C88_periodic.
Theorem C88_quarter_turns : fastCosSin 0 = (1, 0) /\ fastCosSin (PI / 2) = (0, 1) /\ fastCosSin PI = (-1, 0) /\ fastCosSin (- (PI / 2)) = (0, -1).
Proof. exact fastCosSin_quarters. Qed.
Print Assumptions C88_quarter_turns.

(** C89 *)
Theorem C89_fastAtan : forall x, -1 <= x <= 1 -> Rabs (fastAtan x - atan x) <= 15 / 1000000.
Proof. exact fastAtan_lemma. Qed.
Print Assumptions C89_fastAtan.
Example C89_case : -1 <= / 2 <= 1.
Proof. lra. Qed.

(** C90 *)
Theorem C90_fastAtan2 : forall x y, x <> 0 \/ y <> 0 -> exists p, - PI < p <= PI /\
  x = sqrt (x * x + y * y) * cos p /\ y = sqrt (x * x + y * y) * sin p /\ Rabs (fastAtan2 x y - p) <= 15 / 1000000.
Proof. exact fastAtan2_lemma. Qed.
Print Assumptions C90_fastAtan2.
Example C90_case : -1 <> 0 \/ 0 <> 0.
Proof. lra. Qed.
