(** * The shape of evaluatePnebi0Polynom: decreasing and convex on each side of 3.75, with a jump upwards there. *)
From Coq Require Import QArith Qreals Reals Lra Lia List ZArith Bool.
From Coquelicot Require Import Coquelicot.
From Verif Require Import FunctionsModel PnebiModel PnebiSpec PnebiProofs PolyBound PiBounds FastTrigProofs FastSinProofs BesselProofs BesselOde BesselLarge BesselOrders.
Import ListNotations.
Open Scope R_scope.

(** Lower bounds of an integer polynomial on [0, 1]. *)
Definition zabove (n a b : Z) (p : list Z) : bool :=
  let s := (2 * n)%Z in zcheck (Z.to_nat n) (zshift (zscale s p)) (a * s ^ Z.of_nat (length p - 1)) (b * s ^ Z.of_nat (length p - 1)).
Lemma zabove_ok n a b p : zabove n a b p = true -> (0 < n)%Z -> (0 < length p)%nat -> forall z, 0 <= z <= 1 -> IZR a <= zeval p z <= IZR b.
Proof.
  intros C Hn Hl z Hz. unfold zabove in C. pose proof (zcheck_ok _ _ _ _ C ltac:(lia) (IZR (2 * n) * z - 1)) as B.
  assert (I : INR (Z.to_nat n) = IZR n) by (rewrite INR_IZR_INZ, Z2Nat.id by lia; reflexivity). assert (Pn : 0 < IZR n) by (now apply IZR_lt). rewrite I, mult_IZR in B. specialize (B ltac:(nra)). rewrite zshift_ok in B.
  replace (2 * IZR n * z - 1 + 1) with (2 * IZR n * z) in B by ring. pose proof (zscale_ok (2 * n) p (2 * IZR n * z) ltac:(lia)) as S. rewrite mult_IZR in S. replace (2 * IZR n * z / (2 * IZR n)) with z in S by (field; lra).
  replace (Z.of_nat (length p)) with (Z.succ (Z.of_nat (length p - 1))) in S by lia. rewrite Z.pow_succ_r, mult_IZR in S by lia. rewrite !mult_IZR in B.
  assert (K : 0 < IZR ((2 * n) ^ Z.of_nat (length p - 1))) by (apply IZR_lt; apply Z.pow_pos_nonneg; lia). set (k := IZR ((2 * n) ^ Z.of_nat (length p - 1))) in *. rewrite mult_IZR in S.
  assert (E : zeval (zscale (2 * n) p) (2 * IZR n * z) = k * zeval p z) by (apply (Rmult_eq_reg_l (2 * IZR n)); [rewrite S; ring|lra]). rewrite E in B. clearbody k. split; apply (Rmult_le_reg_l k); auto; lra.
Qed.

(** The branch |x| < 3.75 as a function on [0, 3.75]: 2 exp (- x) b (x / 3.75) / 10^7. *)
Definition smallP : list Z := [10000000; 0; 35156229; 0; 30899424; 0; 12067492; 0; 2659732; 0; 360768; 0; 45813]%Z.
Definition small (x : R) : R := 2 * exp (- x) * (zeval smallP (x / (375 / 100)) / 10000000).
(** 15 b - 4 b' *)
Definition fallP : list Z := zadd (map (Z.mul 15) smallP) (map (Z.mul (-4)) (zderiv smallP)).
Definition fallPP : list Z := zadd (map (Z.mul 15) fallP) (map (Z.mul (-4)) (zderiv fallP)).
Definition slope (x : R) : R := 2 * exp (- x) * (zeval fallP (x / (375 / 100)) / 150000000).
Definition curv (x : R) : R := 2 * exp (- x) * (zeval fallPP (x / (375 / 100)) / 2250000000).
Lemma smallish_deriv p q c x : (forall z, zeval q z = 15 * zeval p z - 4 * zeval (zderiv p) z) ->
  derivable_pt_lim (fun x => 2 * exp (- x) * (zeval p (x / (375 / 100)) / c)) x (- (2 * exp (- x) * (zeval q (x / (375 / 100)) / (15 * c)))).
Proof.
  intros E. destruct (Req_dec c 0) as [->|Hc].
  { replace (- (2 * exp (- x) * (zeval q (x / (375 / 100)) / (15 * 0)))) with 0. 2:{ unfold Rdiv. rewrite Rmult_0_r, Rinv_0. ring. }
    apply (derivable_pt_lim_ext (fun _ => 0)); [intros y; unfold Rdiv; rewrite Rinv_0; ring|apply derivable_pt_lim_const]. }
  assert (D1 : derivable_pt_lim (fun x => 2 * exp (- x)) x (- (2 * exp (- x)))).
  { replace (- (2 * exp (- x))) with (2 * (exp (- x) * (-1))) by ring. apply (derivable_pt_lim_scal (fun x => exp (- x)) 2). apply (derivable_pt_lim_comp (fun x => - x) exp); [|apply derivable_pt_lim_exp].
    apply (derivable_pt_lim_opp id x 1). apply derivable_pt_lim_id. }
  assert (D2 : derivable_pt_lim (fun x => zeval p (x / (375 / 100)) / c) x (zeval (zderiv p) (x / (375 / 100)) * (4 / 15) / c)).
  { apply (derivable_pt_lim_ext (fun x => / c * zeval p (x / (375 / 100)))); [intros y; unfold Rdiv; ring|]. replace (zeval (zderiv p) (x / (375 / 100)) * (4 / 15) / c) with (/ c * (zeval (zderiv p) (x / (375 / 100)) * (4 / 15))) by (unfold Rdiv; ring).
    apply (derivable_pt_lim_scal (fun x => zeval p (x / (375 / 100)))). apply (derivable_pt_lim_comp (fun x => x / (375 / 100)) (zeval p)); [|apply zeval_deriv].
    apply (derivable_pt_lim_ext (fun x => 4 / 15 * id x)); [intros y; unfold id; field|]. pose proof (derivable_pt_lim_scal id (4 / 15) x 1 (derivable_pt_lim_id x)) as D. rewrite Rmult_1_r in D. exact D. }
  replace (- (2 * exp (- x) * (zeval q (x / (375 / 100)) / (15 * c)))) with (- (2 * exp (- x)) * (zeval p (x / (375 / 100)) / c) + 2 * exp (- x) * (zeval (zderiv p) (x / (375 / 100)) * (4 / 15) / c)).
  2:{ rewrite E. field. exact Hc. }
  apply (derivable_pt_lim_mult (fun x => 2 * exp (- x)) (fun x => zeval p (x / (375 / 100)) / c)); assumption.
Qed.
Lemma small_deriv x : derivable_pt_lim small x (- slope x).
Proof. unfold slope. replace 150000000 with (15 * 10000000) by lra. apply smallish_deriv. intros z. unfold fallP. rewrite zadd_ok, !zmulc_ok. ring. Qed.
Lemma slope_deriv x : derivable_pt_lim slope x (- curv x).
Proof. unfold curv. replace 2250000000 with (15 * 150000000) by lra. apply smallish_deriv. intros z. unfold fallPP. rewrite zadd_ok, !zmulc_ok. ring. Qed.
Lemma fall_bounds z : 0 <= z <= 1 -> 99000000 <= zeval fallP z <= 203000000.
Proof. apply (zabove_ok 64 99000000 203000000 fallP); [vm_compute; reflexivity|lia|cbn; lia]. Qed.
Lemma fallPP_bounds z : 0 <= z <= 1 -> 1000000000 <= zeval fallPP z <= 4000000000.
Proof. apply (zabove_ok 64 1000000000 4000000000 fallPP); [vm_compute; reflexivity|lia|cbn; lia]. Qed.
Lemma small_range x : 0 <= x <= 15 / 4 -> 0 <= x / (375 / 100) <= 1. Proof. intros H. lra. Qed.
Lemma small_eq x : Rabs x < 375 / 100 -> evaluatePnebi0Polynom x = small (Rabs x).
Proof.
  intros H. unfold evaluatePnebi0Polynom. rewrite abs_if. pose proof (Rabs_pos x). destruct (Rlt_dec (Rabs x / (375 / 100)) 1) as [_|L]; [|exfalso; lra].
  unfold small, smallP, zeval, fold_right. field.
Qed.
(** A function whose derivative is - g with g decreasing. *)
Lemma convex_gen f g a b : a <= b -> (forall x, a <= x <= b -> is_derive f x (- g x)) -> (forall x y, a <= x -> x <= y -> y <= b -> g y <= g x) -> g b * (b - a) <= f a - f b <= g a * (b - a).
Proof.
  intros Hab Df Hg. destruct (Req_dec a b) as [->|Ne]; [lra|]. destruct (MVT_cor2 f (fun x => - g x) a b ltac:(lra)) as (c & E & Hc); [intros c Hc; apply is_derive_Reals, Df; lra|].
  pose proof (Hg a c ltac:(lra) ltac:(lra) ltac:(lra)). pose proof (Hg c b ltac:(lra) ltac:(lra) ltac:(lra)). nra.
Qed.
Lemma slope_dec x y : 0 <= x -> x <= y -> y <= 15 / 4 -> slope y <= slope x.
Proof.
  intros H0 H1 H2. destruct (Req_dec x y) as [->|Ne]; [lra|]. destruct (MVT_cor2 slope (fun x => - curv x) x y ltac:(lra)) as (c & E & Hc); [intros c Hc; apply slope_deriv|].
  assert (0 <= curv c); [|nra]. unfold curv. pose proof (exp_pos (- c)). pose proof (fallPP_bounds _ (small_range c ltac:(lra))). apply Rmult_le_pos; lra.
Qed.
Lemma small_convex x y : 0 <= x -> x <= y -> y <= 15 / 4 -> slope y * (y - x) <= small x - small y <= slope x * (y - x).
Proof. intros H0 H1 H2. apply convex_gen; [lra|intros; apply is_derive_Reals, small_deriv|]. intros; apply slope_dec; lra. Qed.
Lemma slope_pos x : 0 <= x <= 15 / 4 -> 0 < slope x.
Proof. intros H. unfold slope. pose proof (exp_pos (- x)). pose proof (fall_bounds _ (small_range x ltac:(lra))). apply Rmult_lt_0_compat; lra. Qed.

(** The branch |x| >= 3.75. *)
Definition fallQ : list Z := zadd asP (0 :: map (Z.mul 2) (zderiv asP))%Z.
Definition large (x : R) : R := 2 * (/ 100000000 * zeval asP (15 / 4 / x)) / sqrt x.
Definition lslope (x : R) : R := / 100000000 * zeval fallQ (15 / 4 / x) / (x * sqrt x).
Lemma fallQ_ok z : zeval fallQ z = zeval asP z + z * (2 * zeval (zderiv asP) z).
Proof. unfold fallQ. rewrite zadd_ok, zeval_cons, zmulc_ok. ring. Qed.
Lemma fallQ_bounds z : 0 <= z <= 1 -> 39000000 <= zeval fallQ z <= 46000000.
Proof. apply (zabove_ok 64 39000000 46000000 fallQ); [vm_compute; reflexivity|lia|cbn; lia]. Qed.
Lemma fallQ1_bounds z : 0 <= z <= 1 -> 1000000 <= zeval (zderiv fallQ) z <= 10000000.
Proof. apply (zabove_ok 64 1000000 10000000 (zderiv fallQ)); [vm_compute; reflexivity|lia|cbn; lia]. Qed.
Lemma fallQ_inc a b : 0 <= a -> a <= b -> b <= 1 -> zeval fallQ a <= zeval fallQ b.
Proof.
  intros H0 H1 H2. destruct (Req_dec a b) as [->|Ne]; [lra|]. destruct (MVT_cor2 (zeval fallQ) (zeval (zderiv fallQ)) a b ltac:(lra)) as (c & E & Hc); [intros; apply zeval_deriv|].
  pose proof (fallQ1_bounds c ltac:(lra)). nra.
Qed.
Lemma large_eq x : 375 / 100 <= Rabs x -> evaluatePnebi0Polynom x = large (Rabs x).
Proof. apply large_value. Qed.
Lemma large_deriv x : 15 / 4 <= x -> is_derive large x (- lslope x).
Proof.
  intros Hx. assert (Ps : 0 < sqrt x) by (apply sqrt_lt_R0; lra). unfold large, lslope. rewrite fallQ_ok. set (d := zeval (zderiv asP) (15 / 4 / x)).
  apply (is_derive_ext (fun t => zeval asP (15 / 4 / t) * (/ 50000000 / sqrt t))); [intros t; unfold Rdiv; change (zeval asP (15 * / 4 * / t) * (/ 50000000 * / sqrt t) = 2 * (/ 100000000 * zeval asP (15 * / 4 * / t)) * / sqrt t); replace (/ 50000000) with (2 * / 100000000) by lra; ring|].
  replace (- (/ 100000000 * (zeval asP (15 / 4 / x) + 15 / 4 / x * (2 * d)) / (x * sqrt x))) with
    (- (15 / 4 / (x * x)) * d * (/ 50000000 / sqrt x) + zeval asP (15 / 4 / x) * (- / 100000000 / (x * sqrt x))) by (field; lra).
  apply (is_derive_mult (fun t => zeval asP (15 / 4 / t)) (fun t => / 50000000 / sqrt t) x); [apply zarg_deriv; lra| |intros; apply Rmult_comm].
  auto_derive; [split; lra|]. replace (sqrt x * sqrt x) with x by (symmetry; apply sqrt_sqrt; lra). field. lra.
Qed.
Lemma lslope_dec x y : 15 / 4 <= x -> x <= y -> lslope y <= lslope x.
Proof.
  intros H0 H1. unfold lslope. assert (15 / 4 / y <= 15 / 4 / x) by (apply Rmult_le_compat_l; [lra|]; apply Rinv_le_contravar; lra). pose proof (zarg_range x H0). pose proof (zarg_range y ltac:(lra)).
  pose proof (fallQ_inc (15 / 4 / y) (15 / 4 / x) ltac:(lra) ltac:(lra) ltac:(lra)). pose proof (fallQ_bounds _ (zarg_range y ltac:(lra))).
  assert (0 < sqrt x) by (apply sqrt_lt_R0; lra). assert (sqrt x <= sqrt y) by (apply sqrt_le_1; lra). assert (Pxy : 0 < x * sqrt x) by (apply Rmult_lt_0_compat; lra).
  apply Rmult_le_compat; [lra|left; apply Rinv_0_lt_compat; nra|lra|]. apply Rinv_le_contravar; [exact Pxy|]. apply Rmult_le_compat; lra.
Qed.
Lemma large_convex x y : 15 / 4 <= x -> x <= y -> lslope y * (y - x) <= large x - large y <= lslope x * (y - x).
Proof. intros H0 H1. apply convex_gen; [lra|intros; apply large_deriv; lra|]. intros; apply lslope_dec; lra. Qed.
Lemma lslope_pos x : 15 / 4 <= x -> 0 < lslope x.
Proof.
  intros H. unfold lslope. assert (0 < sqrt x) by (apply sqrt_lt_R0; lra). pose proof (fallQ_bounds _ (zarg_range x H)). apply Rdiv_lt_0_compat; [lra|]. apply Rmult_lt_0_compat; lra.
Qed.

(** ** At 3.75 *)
Lemma at_one' p : zeval p (15 / 4 / (375 / 100)) = IZR (fold_right Z.add 0%Z p).
Proof. rewrite <- at_one. f_equal. lra. Qed.
Lemma small_end : 42891409959 / 100000000000 <= small (15 / 4) <= 42891409960 / 100000000000.
Proof.
  unfold small. rewrite at_one'. replace (fold_right Z.add 0%Z smallP) with 91189458%Z by reflexivity. rewrite exp_Ropp. pose proof exp_bound as B. set (e := exp (15 / 4)) in *. assert (0 < e) by lra.
  assert (I : / (425210820000629 / 10000000000000) <= / e) by (apply Rinv_le_contravar; lra). assert (I' : / e <= / (425210820000627 / 10000000000000)) by (apply Rinv_le_contravar; lra). set (i := / e) in *. clearbody i e. lra.
Qed.
Lemma large_start : 42891410871 / 100000000000 <= large (15 / 4) <= 42891410872 / 100000000000.
Proof.
  unfold large. rewrite at_one. replace (fold_right Z.add 0%Z asP) with 41529430%Z by reflexivity. pose proof sqrt_bound as B. set (e := sqrt (15 / 4)) in *. assert (0 < e) by lra.
  assert (I : / (1936491673103709 / 1000000000000000) <= / e) by (apply Rinv_le_contravar; lra). assert (I' : / e <= / (1936491673103708 / 1000000000000000)) by (apply Rinv_le_contravar; lra). unfold Rdiv at 2 3 4. set (i := / e) in *. clearbody i e. lra.
Qed.
Lemma slopes_meet : 6 / 100 <= slope (15 / 4) /\ lslope (15 / 4) <= (1 + 2 / 1000000) * slope (15 / 4).
Proof.
  unfold slope, lslope. rewrite at_one, at_one'. replace (fold_right Z.add 0%Z fallP) with 200840278%Z by reflexivity. replace (fold_right Z.add 0%Z fallQ) with 45733302%Z by reflexivity. rewrite exp_Ropp.
  pose proof exp_bound as B. pose proof sqrt_bound as B'. set (e := exp (15 / 4)) in *. set (r := sqrt (15 / 4)) in *. clearbody e r.
  assert (I : / (425210820000629 / 10000000000000) <= / e) by (apply Rinv_le_contravar; lra). assert (I' : / r <= / (1936491673103708 / 1000000000000000)) by (apply Rinv_le_contravar; lra).
  replace (/ 100000000 * 45733302 / (15 / 4 * r)) with (45733302 / 375000000 * / r) by (field; lra). set (ie := / e) in *. set (ir := / r) in *. clearbody ie ir.
  split; lra.
Qed.
(** ** The continuous part and its slope *)
Definition jump : R := large (15 / 4) - small (15 / 4).
Lemma jump_bounds : 91 / 10000000000 <= jump <= 92 / 10000000000.
Proof. unfold jump. pose proof small_end. pose proof large_start. lra. Qed.
Definition cont (x : R) : R := if Rlt_dec x (15 / 4) then small x else large x - jump.
Definition sl (x : R) : R := if Rlt_dec x (15 / 4) then slope x else lslope x.
Lemma poly_cont x : 0 <= x -> cont x <= evaluatePnebi0Polynom x <= cont x + jump /\ (x < 15 / 4 -> evaluatePnebi0Polynom x = cont x) /\ (15 / 4 <= x -> evaluatePnebi0Polynom x = cont x + jump).
Proof.
  intros Hx. pose proof jump_bounds. unfold cont. destruct (Rlt_dec x (15 / 4)).
  - rewrite small_eq; rewrite (Rabs_right x) by lra; lra.
  - rewrite large_eq; rewrite (Rabs_right x) by lra; lra.
Qed.
Lemma sl_pos x : 0 <= x -> 0 < sl x.
Proof. intros H. unfold sl. destruct (Rlt_dec x (15 / 4)); [apply slope_pos; lra|apply lslope_pos; lra]. Qed.
Lemma cont_steep x y : 0 <= x -> x <= y -> cont x - cont y <= (1 + 2 / 1000000) * sl x * (y - x) /\ sl y * (y - x) <= (1 + 2 / 1000000) * (cont x - cont y).
Proof.
  intros H0 H1. pose proof (sl_pos x H0) as Px. pose proof (sl_pos y ltac:(lra)) as Py. unfold cont, sl in *. destruct (Rlt_dec x (15 / 4)), (Rlt_dec y (15 / 4)).
  - pose proof (small_convex x y ltac:(lra) ltac:(lra) ltac:(lra)). nra.
  - pose proof (small_convex x (15 / 4) ltac:(lra) ltac:(lra) ltac:(lra)) as S1. pose proof (large_convex (15 / 4) y ltac:(lra) ltac:(lra)) as L1. pose proof slopes_meet as (M1 & M2).
    pose proof (slope_dec x (15 / 4) ltac:(lra) ltac:(lra) ltac:(lra)) as S2. pose proof (lslope_dec (15 / 4) y ltac:(lra) ltac:(lra)) as L2. unfold jump. set (a := slope x) in *. set (b := slope (15 / 4)) in *. set (c := lslope (15 / 4)) in *. set (d := lslope y) in *.
    replace (small x - (large y - (large (15 / 4) - small (15 / 4)))) with ((small x - small (15 / 4)) + (large (15 / 4) - large y)) by ring.
    set (u := small x - small (15 / 4)) in *. set (w := large (15 / 4) - large y) in *. clearbody a b c d u w. assert (P1 : 0 <= 15 / 4 - x) by lra. assert (P2 : 0 <= y - 15 / 4) by lra. replace (y - x) with ((15 / 4 - x) + (y - 15 / 4)) by ring. set (p := 15 / 4 - x) in *. set (q := y - 15 / 4) in *. clearbody p q.
    assert (c * q <= (1 + 2 / 1000000) * a * q) by (apply Rmult_le_compat_r; lra). assert (d * p <= (1 + 2 / 1000000) * (b * p)) by (rewrite <- Rmult_assoc; apply Rmult_le_compat_r; lra). nra.
  - lra.
  - pose proof (large_convex x y ltac:(lra) ltac:(lra)). nra.
Qed.
(** ** The slope against the difference of the orders 0 and 1 *)
Definition relS : list Z := zadd (zadd (map (Z.mul 756) smallP) (0%Z :: map (Z.mul 2835) smallP)) (zadd (map (Z.mul (-40)) fallP) (zadd (0%Z :: map (Z.mul (-225)) fallP) (0%Z :: 0%Z :: map (Z.mul (-1125)) fallP))).
Lemma relS_pos z : 0 <= z <= 1 -> 0 <= zeval relS z.
Proof. intros H. apply (zabove_ok 256 0 100000000000000 relS); [vm_compute; reflexivity|lia|cbn; lia|exact H]. Qed.
Definition relL : list Z := zadd (zadd (map (Z.mul 5670) asP) (0%Z :: map (Z.mul 1512) asP)) (zadd (map (Z.mul (-4500)) fallQ) (zadd (0%Z :: map (Z.mul (-900)) fallQ) (0%Z :: 0%Z :: map (Z.mul (-160)) fallQ))).
Lemma relL_pos z : 0 <= z <= 1 -> 0 <= zeval relL z.
Proof. intros H. apply (zabove_ok 64 0 100000000000000 relL); [vm_compute; reflexivity|lia|cbn; lia|exact H]. Qed.
Lemma hb_compl x : 0 <= x -> 1 - hb x = (2 * x + 2) / (4 * (x * x) + 3 * x + 2).
Proof. intros H. unfold hb, hden. field. nra. Qed.
Lemma slope_rel x : 0 <= x -> sl x <= 63 / 50 * (evaluatePnebi0Polynom x * (1 - hb x)).
Proof.
  intros Hx. rewrite hb_compl by lra. assert (Pd : 0 < 4 * (x * x) + 3 * x + 2) by nra. apply (Rmult_le_reg_r (4 * (x * x) + 3 * x + 2)); [exact Pd|].
  replace (63 / 50 * (evaluatePnebi0Polynom x * ((2 * x + 2) / (4 * (x * x) + 3 * x + 2))) * (4 * (x * x) + 3 * x + 2)) with (63 / 50 * evaluatePnebi0Polynom x * (2 * x + 2)) by (field; lra).
  unfold sl. destruct (Rlt_dec x (15 / 4)) as [L|L].
  - rewrite small_eq; rewrite (Rabs_right x) by lra; [|lra]. unfold slope, small. pose proof (relS_pos _ (small_range x ltac:(lra))) as B. unfold relS in B. rewrite !zadd_ok, !zeval_cons, !zmulc_ok in B.
    set (t := x / (375 / 100)) in *. replace x with (15 / 4 * t) at 2 3 4 6 by (unfold t; field). pose proof (exp_pos (- x)) as Pe. set (e := exp (- x)) in *. set (f := zeval fallP t) in *. set (s := zeval smallP t) in *. clearbody t e f s.
    assert (K : f * (225 * t * t + 45 * t + 8) * 5 <= 189 * (15 * t + 4) * s) by lra.
    replace (2 * e * (f / 150000000) * (4 * (15 / 4 * t * (15 / 4 * t)) + 3 * (15 / 4 * t) + 2)) with (e / 1500000000 * (f * (225 * t * t + 45 * t + 8) * 5)) by field.
    replace (63 / 50 * (2 * e * (s / 10000000)) * (2 * (15 / 4 * t) + 2)) with (e / 1500000000 * (189 * (15 * t + 4) * s)) by field. apply Rmult_le_compat_l; lra.
  - rewrite large_eq; rewrite (Rabs_right x) by lra; [|lra]. unfold lslope, large. pose proof (relL_pos _ (zarg_range x ltac:(lra))) as B. unfold relL in B. rewrite !zadd_ok, !zeval_cons, !zmulc_ok in B.
    assert (Pr : 0 < sqrt x) by (apply sqrt_lt_R0; lra). set (r := sqrt x) in *. set (z := 15 / 4 / x) in *. assert (Ez : z * x = 15 / 4) by (unfold z; field; lra). set (q := zeval fallQ z) in *. set (p := zeval asP z) in *. clearbody r z q p.
    assert (K : q * (4500 + 900 * z + 160 * (z * z)) <= p * (5670 + 1512 * z)) by lra. assert (Px : 0 < x) by lra.
    assert (K2 : q * (4500 * (x * x) + 900 * (z * x) * x + 160 * (z * x) * (z * x)) <= p * (5670 * (x * x) + 1512 * (z * x) * x)).
    { apply (Rmult_le_compat_r (x * x)) in K; [|nra]. lra. }
    rewrite Ez in K2. assert (K3 : q * (4 * (x * x) + 3 * x + 2) <= 252 / 100 * p * (2 * x + 2) * x) by lra.
    assert (Pxr : 0 < x * r) by nra. apply (Rmult_le_reg_r (100000000 * (x * r))); [lra|].
    replace (/ 100000000 * q / (x * r) * (4 * (x * x) + 3 * x + 2) * (100000000 * (x * r))) with (q * (4 * (x * x) + 3 * x + 2)) by (field; lra).
    replace (63 / 50 * (2 * (/ 100000000 * p) / r) * (2 * x + 2) * (100000000 * (x * r))) with (252 / 100 * p * (2 * x + 2) * x) by (field; lra). exact K3.
Qed.
