(** * Error bound of fastAtan. *)
From Coq Require Import List ZArith Reals Lra Lia Bool Ratan.
From Verif Require Import Base FunctionsModel PolyBound PiBounds.
Import ListNotations.
Open Scope R_scope.

Definition atanP : list Z := [0; 9998660; 0; -3302995; 0; 1801410; 0; -851330; 0; 208351]%Z.
Lemma fastAtan_poly x : fastAtan x = / 10000000 * zeval atanP x.
Proof. unfold fastAtan, zeval, atanP, fold_right. field. Qed.

(** The derivative of fastAtan - atan is atanN / (10^7 (1 + x^2)). *)
Definition atanN : list Z := zadd [-10000000]%Z (zadd (zderiv atanP) (0 :: 0 :: zderiv atanP)%Z).
Definition atanE (x : R) : R := fastAtan x - atan x.
Lemma atanE_deriv x : derivable_pt_lim atanE x (zeval atanN x / (10000000 * (1 + x * x))).
Proof.
  assert (H : derivable_pt_lim (fun y => / 10000000 * zeval atanP y - atan y) x (/ 10000000 * zeval (zderiv atanP) x - / (1 + x ^ 2))).
  { apply (derivable_pt_lim_minus (fun y => / 10000000 * zeval atanP y) atan); [apply (derivable_pt_lim_scal (zeval atanP)); apply zeval_deriv|]. apply derivable_pt_lim_atan. }
  replace (zeval atanN x / (10000000 * (1 + x * x))) with (/ 10000000 * zeval (zderiv atanP) x - / (1 + x ^ 2)).
  - intros eps Heps. destruct (H eps Heps) as (d & Hd). exists d. intros k Hk0 Hk. unfold atanE. rewrite !fastAtan_poly. apply Hd; auto.
  - unfold atanN. rewrite !zadd_ok, !zeval_cons. change (zeval [] x) with 0. field. nra.
Qed.

(** The error in the units of a grid of step 1 / 512: y / 1024 is the argument. *)
Definition unitE : Z := (10000000 * 1024 ^ 9 / 2)%Z.
Definition F (y : R) : R := IZR unitE * atanE (y / 1024).
Definition gridN : list Z := zscale 1024 atanN.
Lemma F_deriv y : derivable_pt_lim F y (zeval gridN y / (2 * (1024 * 1024 + y * y))).
Proof.
  assert (H : derivable_pt_lim (fun z => IZR unitE * comp atanE (fun t => t / 1024) z) y (IZR unitE * (zeval atanN (y / 1024) / (10000000 * (1 + y / 1024 * (y / 1024))) * (1 / 1024)))).
  { apply (derivable_pt_lim_scal (comp atanE (fun t => t / 1024))). apply (derivable_pt_lim_comp (fun t => t / 1024) atanE); [|apply atanE_deriv].
    replace (1 / 1024) with (1 * / 1024 + y * 0) by lra. apply (derivable_pt_lim_mult id (fct_cte (/ 1024))); [apply derivable_pt_lim_id|apply derivable_pt_lim_const]. }
  replace (zeval gridN y / (2 * (1024 * 1024 + y * y))) with (IZR unitE * (zeval atanN (y / 1024) / (10000000 * (1 + y / 1024 * (y / 1024))) * (1 / 1024))); [exact H|].
  assert (S : 1024 * zeval gridN y = IZR (1024 ^ 11) * zeval atanN (y / 1024)) by (apply (zscale_ok 1024 atanN y); lia).
  replace (zeval gridN y) with (IZR (1024 ^ 11) * zeval atanN (y / 1024) / 1024) by lra. set (v := zeval atanN (y / 1024)).
  replace (IZR unitE) with (10000000 * IZR (1024 ^ 9) / 2) by (unfold unitE; change (10000000 * 1024 ^ 9 / 2)%Z with (5000000 * 1024 ^ 9)%Z; rewrite mult_IZR; lra).
  replace (IZR (1024 ^ 11)) with (1024 * 1024 * IZR (1024 ^ 9)) by (change (1024 ^ 11)%Z with (1024 * 1024 * 1024 ^ 9)%Z; rewrite !mult_IZR; reflexivity).
  set (K := IZR (1024 ^ 9)). field. nra.
Qed.

Fixpoint acheck (n : nat) (j : Z) (p : list Z) (lo hi eps : Z) : bool :=
  match n with
  | O => true
  | S k =>
    let '(nl, nu) := zrange p in
    let Da := (1024 * 1024 + (2 * j) * (2 * j))%Z in
    let Db := (1024 * 1024 + (2 * j + 2) * (2 * j + 2))%Z in
    let lo' := (lo + (if (0 <=? nl) then nl / Db else nl / Da))%Z in
    let hi' := (hi - (if (0 <=? nu) then - nu / Da else - nu / Db))%Z in
    ((- eps <=? lo) && (hi <=? eps) && (- eps <=? lo') && (hi' <=? eps))%Z && acheck k (j + 1) (zshift (zshift p)) lo' hi' eps
  end.

Lemma div_R a b : (0 < b)%Z -> IZR (a / b) <= IZR a / IZR b.
Proof.
  intros Hb. pose proof (Z.mul_div_le a b Hb) as H. apply IZR_le in H. rewrite mult_IZR in H. assert (0 < IZR b) by (now apply IZR_lt).
  apply (Rmult_le_reg_r (IZR b)); [auto|]. unfold Rdiv. rewrite Rmult_assoc, Rinv_l by lra. lra.
Qed.
Lemma acheck_ok eps n : forall j p lo hi, acheck n j p lo hi eps = true -> (0 < n)%nat -> (0 <= j)%Z ->
  (forall x, zeval p x = zeval gridN (x + IZR (2 * j + 1))) -> IZR lo <= F (IZR (2 * j)) <= IZR hi ->
  forall y, IZR (2 * j) <= y <= IZR (2 * j) + 2 * INR n -> - IZR eps <= F y <= IZR eps.
Proof.
  induction n as [|n IH]; intros j p lo hi H Hn Hj Hp HE y Hy; [lia|]. cbn [acheck] in H.
  pose proof (zrange_ok p) as P. destruct (zrange p) as [nl nu]. cbn [fst snd] in P.
  set (Da := (1024 * 1024 + (2 * j) * (2 * j))%Z) in *. set (Db := (1024 * 1024 + (2 * j + 2) * (2 * j + 2))%Z) in *.
  set (dl := (if (0 <=? nl)%Z then nl / Db else nl / Da)%Z) in *. set (du := (if (0 <=? nu)%Z then - nu / Da else - nu / Db)%Z) in *.
  apply andb_true_iff in H as [H H5]. apply andb_true_iff in H as [H H4]. apply andb_true_iff in H as [H H3]. apply andb_true_iff in H as [H1 H2].
  apply Z.leb_le, IZR_le in H1, H2, H3, H4. rewrite opp_IZR in H1, H3. rewrite plus_IZR in H3. rewrite minus_IZR in H4.
  set (a := IZR (2 * j)) in *. assert (Ea : IZR (2 * j + 1) = a + 1) by (unfold a; now rewrite plus_IZR). assert (Eb : IZR (2 * (j + 1)) = a + 2) by (unfold a; rewrite <- plus_IZR; f_equal; lia).
  assert (Ha : 0 <= a) by (unfold a; apply IZR_le; lia).
  assert (EDa : IZR Da = 1024 * 1024 + a * a) by (unfold Da, a; rewrite plus_IZR, !(mult_IZR (2 * j)), (mult_IZR 1024); reflexivity).
  assert (EDb : IZR Db = 1024 * 1024 + (a + 2) * (a + 2)) by (unfold Db, a; rewrite plus_IZR, (mult_IZR (2 * j + 2)), (mult_IZR 1024), (plus_IZR (2 * j) 2); reflexivity).
  assert (Da0 : (0 < Da)%Z) by (unfold Da; nia). assert (Db0 : (0 < Db)%Z) by (unfold Db; nia).
  assert (D : forall c, a <= c <= a + 2 -> IZR dl <= zeval gridN c / (1024 * 1024 + c * c) <= - IZR du).
  { intros c Hc. specialize (P (c - (a + 1)) ltac:(lra)). rewrite Hp, Ea in P. replace (c - (a + 1) + (a + 1)) with c in P by ring. set (N := zeval gridN c) in *.
    assert (C0 : 0 < 1024 * 1024 + a * a) by nra. assert (C1 : 1024 * 1024 + a * a <= 1024 * 1024 + c * c) by nra. assert (C2 : 1024 * 1024 + c * c <= 1024 * 1024 + (a + 2) * (a + 2)) by nra.
    rewrite <- EDa in *. rewrite <- EDb in C2. set (Dc := 1024 * 1024 + c * c) in *.
    assert (I1 : / Dc <= / IZR Da) by (apply Rinv_le_contravar; lra). assert (I2 : / IZR Db <= / Dc) by (apply Rinv_le_contravar; lra). assert (I3 : 0 < / IZR Db) by (apply Rinv_0_lt_compat; lra).
    split.
    - unfold dl. destruct (Z.leb_spec 0 nl) as [L|L].
      + eapply Rle_trans; [apply div_R; auto|]. apply IZR_le in L. unfold Rdiv. nra.
      + eapply Rle_trans; [apply div_R; auto|]. apply IZR_lt in L. unfold Rdiv. nra.
    - apply Ropp_le_cancel. rewrite Ropp_involutive. unfold du. destruct (Z.leb_spec 0 nu) as [L|L].
      + eapply Rle_trans; [apply div_R; auto|]. rewrite opp_IZR. apply IZR_le in L. unfold Rdiv. nra.
      + eapply Rle_trans; [apply div_R; auto|]. rewrite opp_IZR. apply IZR_lt in L. unfold Rdiv. nra. }
  assert (M : forall z, a <= z <= a + 2 -> IZR lo + (z - a) / 2 * IZR dl <= F z <= IZR hi - (z - a) / 2 * IZR du).
  { intros z Hz. destruct (Req_dec z a) as [->|Hne]; [lra|].
    destruct (MVT_cor2 F (fun c => zeval gridN c / (2 * (1024 * 1024 + c * c))) a z) as (c & Ec & Hc); [lra|intros; apply F_deriv|].
    specialize (D c ltac:(lra)). replace (zeval gridN c / (2 * (1024 * 1024 + c * c))) with (zeval gridN c / (1024 * 1024 + c * c) / 2) in Ec by (field; nra). nra. }
  destruct (Rle_dec y (a + 2)) as [Hle|Hgt].
  - specialize (M y ltac:(lra)). set (s := (y - a) / 2) in *. assert (0 <= s <= 1) by (unfold s; lra). nra.
  - rewrite S_INR in Hy. destruct n as [|n]; [cbn [INR] in Hy; lra|]. eapply (IH (j + 1)%Z _ _ _ H5); [lia|lia| | |rewrite Eb; lra].
    + intros x. rewrite !zshift_ok, Hp. f_equal. rewrite Ea. replace (2 * (j + 1) + 1)%Z with (2 * j + 1 + 2)%Z by lia. rewrite plus_IZR, Ea. ring.
    + specialize (M (a + 2) ltac:(lra)). rewrite Eb, plus_IZR, minus_IZR. lra.
Qed.

Definition gridEps : Z := (15 * 5 * 1024 ^ 9)%Z.
Lemma fastAtan_pos_lemma x : 0 <= x <= 1 -> Rabs (fastAtan x - atan x) <= 15 / 1000000.
Proof.
  intros Hx. assert (C : acheck 512 0 (zshift gridN) 0 0 gridEps = true) by (vm_compute; reflexivity).
  assert (U : IZR unitE = 5000000 * IZR (1024 ^ 9)) by (change unitE with (5000000 * 1024 ^ 9)%Z; now rewrite mult_IZR).
  assert (V : IZR gridEps = 15 * 5 * IZR (1024 ^ 9)) by (unfold gridEps; now rewrite !mult_IZR).
  assert (K : 0 < IZR (1024 ^ 9)) by (apply IZR_lt; reflexivity).
  assert (E0 : F (IZR (2 * 0)) = 0). { unfold F, atanE. change (IZR (2 * 0)) with 0. replace (0 / 1024) with 0 by lra. rewrite atan_0. unfold fastAtan. lra. }
  pose proof (acheck_ok gridEps 512 0 _ 0 0 C ltac:(lia) ltac:(lia)) as B.
  specialize (B ltac:(intros t; apply zshift_ok) ltac:(rewrite E0; lra) (x * 1024)).
  assert (I : INR 512 = 512) by (rewrite INR_IZR_INZ; reflexivity). change (IZR (2 * 0)) with 0 in B. rewrite I in B. specialize (B ltac:(lra)).
  unfold F in B. replace (x * 1024 / 1024) with x in B by lra. fold (atanE x). rewrite U, V in B. apply Rabs_le. set (k := IZR (1024 ^ 9)) in *. nra.
Qed.
Lemma fastAtan_odd x : fastAtan (- x) = - fastAtan x.
Proof. unfold fastAtan. field. Qed.
Lemma fastAtan_lemma x : -1 <= x <= 1 -> Rabs (fastAtan x - atan x) <= 15 / 1000000.
Proof.
  intros Hx. destruct (Rle_dec 0 x); [apply fastAtan_pos_lemma; lra|]. rewrite <- (Ropp_involutive x). rewrite fastAtan_odd, atan_opp.
  replace (- fastAtan (- x) - - atan (- x)) with (- (fastAtan (- x) - atan (- x))) by ring. rewrite Rabs_Ropp. apply fastAtan_pos_lemma. lra.
Qed.
