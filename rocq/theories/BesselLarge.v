(** * The polynomial of order 0 for large arguments against the power series. *)
From Coq Require Import QArith Qreals Reals Lra Lia List ZArith Bool.
From Coquelicot Require Import Coquelicot.
From Verif Require Import FunctionsModel PnebiModel PnebiSpec PnebiProofs PolyBound PiBounds FastTrigProofs FastSinProofs BesselProofs BesselOde.
Import ListNotations.
Open Scope R_scope.

(** Bounds of an integer polynomial on [0, 1]. *)
Definition zunit (n b : Z) (p : list Z) : bool :=
  let s := (2 * n)%Z in zcheck (Z.to_nat n) (zshift (zscale s p)) (- (b * s ^ Z.of_nat (length p - 1))) (b * s ^ Z.of_nat (length p - 1)).
Lemma zunit_ok n b p : zunit n b p = true -> (0 < n)%Z -> (0 < length p)%nat -> forall z, 0 <= z <= 1 -> Rabs (zeval p z) <= IZR b.
Proof.
  intros C Hn Hl z Hz. unfold zunit in C. pose proof (zcheck_ok _ _ _ _ C ltac:(lia) (IZR (2 * n) * z - 1)) as B.
  assert (I : INR (Z.to_nat n) = IZR n) by (rewrite INR_IZR_INZ, Z2Nat.id by lia; reflexivity). assert (Pn : 0 < IZR n) by (now apply IZR_lt). rewrite I, mult_IZR in B. specialize (B ltac:(nra)). rewrite zshift_ok in B.
  replace (2 * IZR n * z - 1 + 1) with (2 * IZR n * z) in B by ring. pose proof (zscale_ok (2 * n) p (2 * IZR n * z) ltac:(lia)) as S. rewrite mult_IZR in S. replace (2 * IZR n * z / (2 * IZR n)) with z in S by (field; lra).
  replace (Z.of_nat (length p)) with (Z.succ (Z.of_nat (length p - 1))) in S by lia. rewrite Z.pow_succ_r, mult_IZR in S by lia. rewrite opp_IZR, mult_IZR in B.
  assert (K : 0 < IZR ((2 * n) ^ Z.of_nat (length p - 1))) by (apply IZR_lt; apply Z.pow_pos_nonneg; lia). set (k := IZR ((2 * n) ^ Z.of_nat (length p - 1))) in *. rewrite mult_IZR in S.
  assert (E : zeval (zscale (2 * n) p) (2 * IZR n * z) = k * zeval p z) by (apply (Rmult_eq_reg_l (2 * IZR n)); [rewrite S; ring|lra]). rewrite E in B. clearbody k. apply Rabs_le. split; apply (Rmult_le_reg_l k); auto; lra.
Qed.
Lemma zmulc_ok k p x : zeval (map (Z.mul k) p) x = IZR k * zeval p x.
Proof. induction p as [|c p IH]; [cbn; ring|]. cbn [map]. rewrite !zeval_cons, IH, mult_IZR. ring. Qed.

(** The better polynomial: scaled by 2^40, in z = 15 / (4 x). *)
Definition qz : list Z := [438641676107; 14621389603; 2193169962; 608203653; 345278618; -2084208339; 26003207514; -182696839611; 840964912215; -2626197397424; 5679246900697; -8559977395174; 8955234132946; -6380555351008; 2958313332898; -806180804202; 98140696688]%Z.
Definition dz : list Z := zderiv qz.
Definition ddz : list Z := zderiv dz.
Definition resz : list Z := zadd (0 :: 0 :: map (Z.mul 4) ddz)%Z (zadd (0 :: map (Z.mul 8) dz)%Z (zadd (map (Z.mul (-30)) dz) qz)).
Lemma resz_ok z : zeval resz z = 4 * z * z * zeval ddz z + 8 * z * zeval dz z - 30 * zeval dz z + zeval qz z.
Proof. unfold resz. rewrite !zadd_ok, !zeval_cons, !zmulc_ok. ring. Qed.
Lemma res_bound z : 0 <= z <= 1 -> Rabs (zeval resz z) <= 191000.
Proof. apply (zunit_ok 128 191000 resz); [vm_compute; reflexivity|lia|cbn; lia]. Qed.

Definition asP : list Z := [39894228; 1328592; 225319; -157565; 916281; -2057706; 2635537; -1647633; 392377]%Z.
Definition difz : list Z := zadd (map (Z.mul (2 ^ 40)) asP) (map (Z.mul (-100000000)) qz).
Lemma dif_bound z : 0 <= z <= 1 -> Rabs (w40 * zeval asP z - 100000000 * zeval qz z) <= 21070000000000.
Proof.
  intros Hz. assert (C : zunit 128 21070000000000 difz = true) by (vm_compute; reflexivity). pose proof (zunit_ok _ _ _ C ltac:(lia) ltac:(cbn; lia) z Hz) as B.
  unfold difz in B. rewrite zadd_ok, !zmulc_ok in B. fold w40 in B. replace (w40 * zeval asP z - 100000000 * zeval qz z) with (w40 * zeval asP z + -100000000 * zeval qz z) by ring. exact B.
Qed.

Definition v (x : R) : R := zeval qz (15 / 4 / x) / w40.
Definition v1 (x : R) : R := - (15 / 4 / (x * x)) * zeval dz (15 / 4 / x) / w40.
Definition v2 (x : R) : R := (15 / 2 / (x * x * x) * zeval dz (15 / 4 / x) + 15 / 4 / (x * x) * (15 / 4 / (x * x)) * zeval ddz (15 / 4 / x)) / w40.
Lemma zarg_deriv p x : 0 < x -> is_derive (fun t => zeval p (15 / 4 / t)) x (- (15 / 4 / (x * x)) * zeval (zderiv p) (15 / 4 / x)).
Proof.
  intros Hx. apply (is_derive_comp (zeval p) (fun t => 15 / 4 / t) x); [apply is_derive_Reals, zeval_deriv|]. auto_derive; [lra|field; lra].
Qed.
Lemma div_deriv (f : R -> R) x l k : is_derive f x l -> is_derive (fun t => f t / k) x (l / k).
Proof. intros H. apply (is_derive_ext (fun t => / k * f t)); [intros t; unfold Rdiv; apply Rmult_comm|]. replace (l / k) with (/ k * l) by (unfold Rdiv; apply Rmult_comm). now apply (is_derive_scal f x (/ k)). Qed.
Lemma v_deriv x : 15 / 4 <= x -> is_derive v x (v1 x).
Proof. intros H. unfold v, v1. apply div_deriv. apply zarg_deriv. lra. Qed.
Lemma v1_deriv x : 15 / 4 <= x -> is_derive v1 x (v2 x).
Proof.
  intros H. unfold v1, v2. apply (div_deriv (fun t => - (15 / 4 / (t * t)) * zeval dz (15 / 4 / t))).
  replace (15 / 2 / (x * x * x) * zeval dz (15 / 4 / x) + 15 / 4 / (x * x) * (15 / 4 / (x * x)) * zeval ddz (15 / 4 / x)) with
    (15 / 2 / (x * x * x) * zeval dz (15 / 4 / x) + - (15 / 4 / (x * x)) * (- (15 / 4 / (x * x)) * zeval (zderiv dz) (15 / 4 / x))) by (unfold ddz; ring).
  apply (is_derive_mult (fun t => - (15 / 4 / (t * t))) (fun t => zeval dz (15 / 4 / t)) x); [auto_derive; [intros E0; nra|field; lra]|apply zarg_deriv; lra|intros; apply Rmult_comm].
Qed.
Lemma zarg_range x : 15 / 4 <= x -> 0 <= 15 / 4 / x <= 1.
Proof. intros H. assert (0 < / x) by (apply Rinv_0_lt_compat; lra). split; [unfold Rdiv; nra|]. apply (Rmult_le_reg_r x); [lra|]. unfold Rdiv. rewrite Rmult_assoc, Rinv_l by lra. lra. Qed.
Definition cres : R := 191000 / (4 * w40).
Lemma v_res x : 15 / 4 <= x -> Rabs (v2 x + 2 * v1 x + v x / (4 * x * x)) <= cres / (x * x).
Proof.
  intros H. pose proof w40_pos as W. pose proof (res_bound _ (zarg_range x H)) as B. rewrite resz_ok in B.
  replace (v2 x + 2 * v1 x + v x / (4 * x * x)) with ((4 * (15 / 4 / x) * (15 / 4 / x) * zeval ddz (15 / 4 / x) + 8 * (15 / 4 / x) * zeval dz (15 / 4 / x) - 30 * zeval dz (15 / 4 / x) + zeval qz (15 / 4 / x)) * / (4 * w40 * (x * x))).
  2:{ unfold v, v1, v2. field. lra. }
  assert (0 < / (4 * w40 * (x * x))) by (apply Rinv_0_lt_compat, Rmult_lt_0_compat; [lra|clear -H; nra]). rewrite Rabs_mult, (Rabs_right (/ (4 * w40 * (x * x)))) by lra.
  replace (cres / (x * x)) with (191000 * / (4 * w40 * (x * x))) by (unfold cres; field; lra). apply Rmult_le_compat_r; lra.
Qed.

(** Sums with terms that at least halve. *)
Lemma tail_gen t s M : (forall n, (M <= n)%nat -> 0 <= t (S n) <= t n / 2) -> infinite_sum t s -> sum_f_R0 t M <= s <= sum_f_R0 t M + 2 * t M.
Proof.
  intros H C. apply (limit_between (sum_f_R0 t) s _ _ M); [intros e He; now apply C|]. assert (B : forall n, (M <= n)%nat -> sum_f_R0 t M <= sum_f_R0 t n <= sum_f_R0 t M + 2 * (t M - t n)).
  { intros n Hn. induction Hn as [|n Hn IH]; [lra|]. cbn [sum_f_R0]. pose proof (H n Hn). lra. }
  intros n Hn. pose proof (B n Hn). assert (0 <= t n); [|lra]. destruct (Nat.eq_dec n M) as [->|]; [|destruct n as [|n]; [lia|]; pose proof (H n ltac:(lia)); lra]. pose proof (H M ltac:(lia)). lra.
Qed.
(** Terms and sums over Q: t (k+1) = t k * r k. *)
Fixpoint qsum (r : nat -> Q) (n : nat) : Q * Q := match n with O => (1, 1)%Q | S k => let '(t, s) := qsum r k in let t' := Qred (t * r k) in (t', Qred (s + t')) end.
Lemma qsum_ok (t : nat -> R) r n : t O = 1 -> (forall k, t (S k) = t k * Q2R (r k)) -> Q2R (fst (qsum r n)) = t n /\ Q2R (snd (qsum r n)) = sum_f_R0 t n.
Proof.
  intros H0 HS. induction n as [|n IH]; [cbn; rewrite H0; unfold Q2R; cbn; lra|]. cbn [qsum]. destruct (qsum r n) as [a b]. cbn [fst snd] in *. destruct IH as [I1 I2].
  assert (E : Q2R (Qred (a * r n)) = t (S n)) by (rewrite Q2R_red, Q2R_mult, I1, HS; reflexivity). split; [exact E|]. rewrite Q2R_red, Q2R_plus, E, I2. reflexivity.
Qed.
Definition rexp (k : nat) : Q := (15 # 4) / inject_Z (Z.of_nat (S k)).
Definition ri0 (k : nat) : Q := (225 # 64) / inject_Z (Z.of_nat (S k) * Z.of_nat (S k)).
Definition ri1 (k : nat) : Q := (225 # 64) / inject_Z (Z.of_nat (S k) * Z.of_nat (S (S k))).
Lemma Q2R_quot a z : (0 < z)%Z -> Q2R (a / inject_Z z) = Q2R a / IZR z.
Proof. intros H. rewrite Q2R_div by (unfold Qeq, inject_Z; cbn [Qnum Qden]; lia). now rewrite Q2R_inject. Qed.
Lemma bound_by (t : nat -> R) (r : nat -> Q) s M lo hi : t O = 1 -> (forall k, t (S k) = t k * Q2R (r k)) -> (forall k, 0 <= Q2R (r k)) -> (forall k, (M <= k)%nat -> Q2R (r k) <= / 2) -> infinite_sum t s ->
  Qle_bool lo (snd (qsum r M)) = true -> Qle_bool (snd (qsum r M) + 2 * fst (qsum r M))%Q hi = true -> Q2R lo <= s <= Q2R hi.
Proof.
  intros H0 HS P L C B1 B2. apply Qle_bool_iff, Qle_Rle in B1, B2. rewrite Q2R_plus, Q2R_mult in B2. destruct (qsum_ok t r M H0 HS) as [E1 E2]. rewrite E2 in B1, B2. rewrite E1 in B2. replace (Q2R 2) with 2 in B2 by (unfold Q2R; cbn; lra).
  assert (T : forall n, 0 <= t n) by (induction n as [|n IH]; [lra|rewrite HS; apply Rmult_le_pos; [exact IH|apply P]]).
  pose proof (tail_gen t s M) as A. destruct A as [A1 A2]; [|exact C|lra]. intros n Hn. rewrite HS. pose proof (T n). pose proof (P n). pose proof (L n Hn). split; [now apply Rmult_le_pos|]. unfold Rdiv. now apply Rmult_le_compat_l.
Qed.
Lemma S_pos k : 0 < INR (S k).
Proof. apply lt_0_INR. lia. Qed.
Lemma q154 : Q2R (15 # 4) = 15 / 4. Proof. unfold Q2R; cbn; lra. Qed.
Lemma q22564 : Q2R (225 # 64) = 225 / 64. Proof. unfold Q2R; cbn; lra. Qed.
Definition dec (z : Z) : Q := (z # 10000000000000).
Lemma dec_ok z : Q2R (dec z) = IZR z / 10000000000000.
Proof. reflexivity. Qed.
Lemma ratio_small a b c : 0 < a -> 0 < b -> 2 * a <= b * c -> 0 < c -> a / (b * c) <= / 2.
Proof. intros. apply (Rmult_le_reg_r (b * c)); [nra|]. unfold Rdiv. rewrite Rmult_assoc, Rinv_l by nra. nra. Qed.
Lemma exp_bound : 425210820000627 / 10000000000000 <= exp (15 / 4) <= 425210820000629 / 10000000000000.
Proof.
  pose proof (bound_by (fun k => (15 / 4) ^ k / INR (fact k)) rexp (exp (15 / 4)) 40 (dec 425210820000627) (dec 425210820000629)) as B. rewrite !dec_ok in B. apply B; clear B.
  - cbn. lra.
  - intros k. unfold rexp. rewrite Q2R_quot, q154, <- INR_IZR_INZ by lia. change (fact (S k)) with (S k * fact k)%nat. rewrite mult_INR. cbn [pow]. pose proof (fact_pos k). pose proof (S_pos k). field. lra.
  - intros k. unfold rexp. rewrite Q2R_quot, q154, <- INR_IZR_INZ by lia. pose proof (S_pos k). apply Rmult_le_pos; [lra|]. left. now apply Rinv_0_lt_compat.
  - intros k Hk. unfold rexp. rewrite Q2R_quot, q154, <- INR_IZR_INZ by lia. rewrite <- (Rmult_1_l (INR (S k))). assert (INR 41 <= INR (S k)) by (apply le_INR; lia). replace (INR 41) with 41 in * by (rewrite INR_IZR_INZ; reflexivity). apply ratio_small; lra.
  - unfold exp. destruct (exist_exp (15 / 4)) as (l & Hl). cbn [proj1_sig]. intros e He. destruct (Hl e He) as (N & HN). exists N. intros n Hn. specialize (HN n Hn). erewrite sum_eq; [exact HN|]. intros i _. unfold Rdiv. apply Rmult_comm.
  - vm_compute. reflexivity.
  - vm_compute. reflexivity.
Qed.
Lemma I0_bound : 91189458608445 / 10000000000000 <= I0 (15 / 4) <= 91189458608446 / 10000000000000.
Proof.
  destruct (bessel_exists (15 / 4)) as (s & Hs). rewrite <- (bessel0_I0 _ _ Hs).
  pose proof (bound_by (fun m => (15 / 4 * (15 / 4) / 4) ^ m / (INR (fact m) * INR (fact m))) ri0 s 25 (dec 91189458608445) (dec 91189458608446)) as B. rewrite !dec_ok in B. apply B; clear B.
  - cbn. lra.
  - intros k. unfold ri0. rewrite Q2R_quot, q22564, mult_IZR, <- INR_IZR_INZ by lia. change (fact (S k)) with (S k * fact k)%nat. rewrite mult_INR. cbn [pow]. pose proof (fact_pos k). pose proof (S_pos k). field. lra.
  - intros k. unfold ri0. rewrite Q2R_quot, q22564, mult_IZR, <- INR_IZR_INZ by lia. pose proof (S_pos k). apply Rmult_le_pos; [lra|]. left. apply Rinv_0_lt_compat. nra.
  - intros k Hk. unfold ri0. rewrite Q2R_quot, q22564, mult_IZR, <- INR_IZR_INZ by lia. assert (INR 26 <= INR (S k)) by (apply le_INR; lia). replace (INR 26) with 26 in * by (rewrite INR_IZR_INZ; reflexivity). apply ratio_small; nra.
  - exact Hs.
  - vm_compute. reflexivity.
  - vm_compute. reflexivity.
Qed.
Lemma F1_sum q : infinite_sum (fun k => q ^ k / (INR (fact k) * INR (fact (S k)))) (F1 q).
Proof.
  pose proof (Series_correct (fun k => q ^ k / (INR (fact k) * INR (fact (S k))))) as C. 
  assert (E : forall k, PS_derive ba k * q ^ k = q ^ k / (INR (fact k) * INR (fact (S k)))).
  { intros k. unfold PS_derive, ba. change (fact (S k)) with (S k * fact k)%nat. rewrite mult_INR. pose proof (fact_pos k). pose proof (S_pos k). field. lra. }
  assert (X : ex_series (fun k => q ^ k / (INR (fact k) * INR (fact (S k))))).
  { apply (ex_series_ext (fun k => PS_derive ba k * q ^ k)); [exact E|]. apply ex_pseries_R. apply CV_radius_inside. apply F1_radius. }
  apply C in X. apply is_series_Reals in X. unfold F1, PSeries. rewrite (Series_ext _ (fun k => q ^ k / (INR (fact k) * INR (fact (S k))))); [exact X|exact E].
Qed.
Lemma I1_bound : 77800152298243 / 10000000000000 <= I1 (15 / 4) <= 77800152298245 / 10000000000000.
Proof.
  unfold I1. pose proof (F1_sum (15 / 4 * (15 / 4) / 4)) as Hs.
  assert (B : Q2R (dec 41493414559063) <= F1 (15 / 4 * (15 / 4) / 4) <= Q2R (dec 41493414559064)); [|rewrite !dec_ok in B; lra].
  apply (bound_by (fun k => (15 / 4 * (15 / 4) / 4) ^ k / (INR (fact k) * INR (fact (S k)))) ri1 _ 25).
  - cbn. lra.
  - intros k. unfold ri1. rewrite Q2R_quot, q22564, mult_IZR, <- !INR_IZR_INZ by lia. change (fact (S (S k))) with (S (S k) * fact (S k))%nat. change (fact (S k)) with (S k * fact k)%nat. rewrite !mult_INR. cbn [pow]. pose proof (fact_pos k). pose proof (S_pos k). pose proof (S_pos (S k)). field. lra.
  - intros k. unfold ri1. rewrite Q2R_quot, q22564, mult_IZR, <- !INR_IZR_INZ by lia. pose proof (S_pos k). pose proof (S_pos (S k)). apply Rmult_le_pos; [lra|]. left. apply Rinv_0_lt_compat. nra.
  - intros k Hk. unfold ri1. rewrite Q2R_quot, q22564, mult_IZR, <- !INR_IZR_INZ by lia. assert (INR 26 <= INR (S k)) by (apply le_INR; lia). assert (INR 26 <= INR (S (S k))) by (apply le_INR; lia). replace (INR 26) with 26 in * by (rewrite INR_IZR_INZ; reflexivity). apply ratio_small; nra.
  - exact Hs.
  - vm_compute. reflexivity.
  - vm_compute. reflexivity.
Qed.
Lemma sqrt_bound : 1936491673103708 / 1000000000000000 <= sqrt (15 / 4) <= 1936491673103709 / 1000000000000000.
Proof.
  split.
  - rewrite <- (sqrt_Rsqr (1936491673103708 / 1000000000000000)) by lra. apply sqrt_le_1_alt. unfold Rsqr. lra.
  - rewrite <- (sqrt_Rsqr (1936491673103709 / 1000000000000000)) by lra. apply sqrt_le_1_alt. unfold Rsqr. lra.
Qed.
Lemma mul_bound a b x y c d : a <= x <= b -> c <= y <= d -> 0 <= a -> 0 <= c -> a * c <= x * y <= b * d.
Proof. intros. split; apply Rmult_le_compat; lra. Qed.
Lemma G_bound : 455419190203 / 10000000000000 <= G (15 / 4) <= 455419190204 / 10000000000000.
Proof.
  unfold G. rewrite exp_Ropp. pose proof exp_bound as [E1 E2]. pose proof sqrt_bound as S.
  assert (A : / (425210820000629 / 10000000000000) <= / exp (15 / 4) <= / (425210820000627 / 10000000000000)) by (split; apply Rinv_le_contravar; lra).
  pose proof (mul_bound _ _ _ _ _ _ S A ltac:(lra) ltac:(lra)). lra.
Qed.
Lemma at_one p : zeval p (15 / 4 / (15 / 4)) = IZR (fold_right Z.add 0%Z p).
Proof. replace (15 / 4 / (15 / 4)) with 1 by lra. induction p as [|c p IH]; [reflexivity|]. rewrite zeval_cons. cbn [fold_right]. rewrite plus_IZR, IH. ring. Qed.
Lemma start0 : Rabs (u (15 / 4) - v (15 / 4)) <= 2 / 10000000000.
Proof.
  unfold u, v. rewrite at_one. change (fold_right Z.add 0%Z qz) with 456620905143%Z. unfold w40. change (2 ^ 40)%Z with 1099511627776%Z.
  pose proof (mul_bound _ _ _ _ _ _ G_bound I0_bound ltac:(lra) ltac:(lra)). apply Rabs_le. lra.
Qed.
Lemma start1 : Rabs (u1 (15 / 4) - v1 (15 / 4)) <= 2 / 10000000000.
Proof.
  unfold u1, v1. rewrite at_one. change (fold_right Z.add 0%Z dz) with 23109938828%Z. unfold w40. change (2 ^ 40)%Z with 1099511627776%Z.
  pose proof I0_bound. pose proof I1_bound. pose proof G_bound as HG.
  assert (C : 1230711829070 / 10000000000000 <= - ((/ (2 * (15 / 4)) - 1) * I0 (15 / 4) + I1 (15 / 4)) <= 1230711829080 / 10000000000000) by lra.
  pose proof (mul_bound _ _ _ _ _ _ HG C ltac:(lra) ltac:(lra)) as P. rewrite <- Ropp_mult_distr_r in P. apply Rabs_le. lra.
Qed.
Lemma large_value x : 375 / 100 <= Rabs x -> evaluatePnebi0Polynom x = 2 * (/ 100000000 * zeval asP (15 / 4 / Rabs x)) / sqrt (Rabs x).
Proof.
  intros H. unfold evaluatePnebi0Polynom. rewrite abs_if. destruct (Rlt_dec (Rabs x / (375 / 100)) 1) as [L|_]; [exfalso; lra|].
  replace (1 / (Rabs x / (375 / 100))) with (15 / 4 / Rabs x) by (field; lra). unfold asP, zeval, fold_right. assert (0 < sqrt (Rabs x)) by (apply sqrt_lt_R0; lra). field; lra.
Qed.
Lemma large_accuracy x s : 375 / 100 <= Rabs x -> bessel0 x s -> Rabs (evaluatePnebi0Polynom x - 2 * exp (- Rabs x) * s) <= 2 / sqrt (Rabs x) * (2 / 10000000).
Proof.
  intros H Hs. assert (Es : s = I0 (Rabs x)) by (rewrite (bessel0_I0 _ _ Hs); unfold I0; f_equal; unfold Rabs; destruct (Rcase_abs x); field). set (y := Rabs x) in *. assert (Hy : 15 / 4 <= y) by lra.
  assert (S : 0 < sqrt y) by (apply sqrt_lt_R0; lra). rewrite (large_value x H). fold y. set (z := 15 / 4 / y).
  pose proof (near_u v v1 v2 cres _ _ v_deriv v1_deriv v_res start0 start1 y Hy) as N. pose proof (dif_bound z (zarg_range y Hy)) as D. pose proof w40_pos as W.
  assert (V : v y = zeval qz z / w40) by reflexivity.
  assert (D' : Rabs (/ 100000000 * zeval asP z - v y) <= 1917 / 10000000000).
  { replace (/ 100000000 * zeval asP z - v y) with ((w40 * zeval asP z - 100000000 * zeval qz z) * / (100000000 * w40)) by (rewrite V; field; lra). assert (0 < / (100000000 * w40)) by (apply Rinv_0_lt_compat; lra).
    rewrite Rabs_mult, (Rabs_right (/ (100000000 * w40))) by lra. apply (Rle_trans _ (21070000000000 * / (100000000 * w40))); [apply Rmult_le_compat_r; lra|]. unfold w40. change (2 ^ 40)%Z with 1099511627776%Z. lra. }
  assert (Cr : cres <= 435 / 10000000000) by (unfold cres, w40; change (2 ^ 40)%Z with 1099511627776%Z; lra).
  assert (E : 2 * exp (- y) * s = 2 * u y / sqrt y) by (unfold u, G; rewrite Es; field; lra). rewrite E.
  replace (2 * (/ 100000000 * zeval asP z) / sqrt y - 2 * u y / sqrt y) with (2 / sqrt y * ((/ 100000000 * zeval asP z - v y) + (v y - u y))) by (field; lra).
  assert (0 < 2 / sqrt y) by (apply Rmult_lt_0_compat; [lra|now apply Rinv_0_lt_compat]). rewrite Rabs_mult, (Rabs_right (2 / sqrt y)) by lra. apply Rmult_le_compat_l; [lra|]. rewrite Rabs_minus_sym in N.
  eapply Rle_trans; [apply Rabs_triang|]. lra.
Qed.
