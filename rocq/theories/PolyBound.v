(** * Bounds of polynomials with integer coefficients on a grid, by computation. *)
From Coq Require Import List ZArith Reals Lra Lia Bool.
Import ListNotations.
Open Scope R_scope.

Definition zeval (p : list Z) (x : R) : R := fold_right (fun c acc => IZR c + x * acc) 0 p.
Lemma zeval_cons c p x : zeval (c :: p) x = IZR c + x * zeval p x.
Proof. reflexivity. Qed.
Fixpoint zadd (p q : list Z) : list Z :=
  match p, q with
  | [], _ => q
  | _, [] => p
  | a :: p', b :: q' => (a + b)%Z :: zadd p' q'
  end.
Lemma zadd_ok p : forall q x, zeval (zadd p q) x = zeval p x + zeval q x.
Proof.
  induction p as [|a p IH]; intros [|b q] x; cbn [zadd]; try (change (zeval [] x) with 0; lra).
  rewrite !zeval_cons, IH, plus_IZR. lra.
Qed.
(** p (x + 1) *)
Fixpoint zshift (p : list Z) : list Z := match p with [] => [] | c :: p' => let q := zshift p' in zadd (c :: q) q end.
Lemma zshift_ok p x : zeval (zshift p) x = zeval p (x + 1).
Proof. induction p as [|c p IH]; [reflexivity|]. cbn [zshift]. rewrite zadd_ok, !zeval_cons, IH. ring. Qed.
(** s^d p (y / s) for the degree d. *)
Fixpoint zscale (s : Z) (p : list Z) : list Z := match p with [] => [] | c :: p' => (c * s ^ Z.of_nat (length p'))%Z :: zscale s p' end.
Lemma zscale_ok s p y : (0 < s)%Z -> IZR s * zeval (zscale s p) y = IZR (s ^ Z.of_nat (length p)) * zeval p (y / IZR s).
Proof.
  intros Hs. assert (0 < IZR s) by (now apply IZR_lt). induction p as [|c p IH]; [cbn; ring|]. cbn [zscale]. rewrite !zeval_cons, mult_IZR.
  cbn [length]. rewrite Nat2Z.inj_succ, Z.pow_succ_r, mult_IZR by lia.
  transitivity (IZR s * (IZR c * IZR (s ^ Z.of_nat (length p))) + y * (IZR s * zeval (zscale s p) y)); [ring|]. rewrite IH. field. lra.
Qed.
Definition zmag (p : list Z) : Z := fold_right (fun c acc => (Z.abs c + acc)%Z) 0%Z p.
Lemma zmag_ok p x : -1 <= x <= 1 -> Rabs (zeval p x) <= IZR (zmag p).
Proof.
  intros Hx. induction p as [|c p IH]; [cbn; rewrite Rabs_R0; lra|]. change (zmag (c :: p)) with (Z.abs c + zmag p)%Z. rewrite zeval_cons, plus_IZR, abs_IZR.
  eapply Rle_trans; [apply Rabs_triang|]. rewrite Rabs_mult. assert (Rabs x <= 1) by (apply Rabs_le; lra). pose proof (Rabs_pos x). pose proof (Rabs_pos (zeval p x)). nra.
Qed.
(** Bounds on [-1, 1]. *)
Definition zrange (p : list Z) : Z * Z := match p with [] => (0, 0) | c :: q => let r := zmag q in (c - r, c + r) end%Z.
Lemma zrange_ok p x : -1 <= x <= 1 -> IZR (fst (zrange p)) <= zeval p x <= IZR (snd (zrange p)).
Proof.
  intros Hx. destruct p as [|c q]; [cbn; lra|]. cbn [zrange fst snd]. rewrite zeval_cons, minus_IZR, plus_IZR. pose proof (zmag_ok q x Hx) as Hm.
  assert (A : Rabs (x * zeval q x) <= IZR (zmag q)). { rewrite Rabs_mult. assert (Rabs x <= 1) by (apply Rabs_le; lra). pose proof (Rabs_pos x). pose proof (Rabs_pos (zeval q x)). nra. }
  unfold Rabs in A. destruct (Rcase_abs (x * zeval q x)); lra.
Qed.
(** Bounds on the n intervals [-1, 1], [1, 3], .. *)
Fixpoint zcheck (n : nat) (p : list Z) (lo hi : Z) : bool :=
  match n with
  | O => true
  | S k => (lo <=? fst (zrange p))%Z && (snd (zrange p) <=? hi)%Z && zcheck k (zshift (zshift p)) lo hi
  end.
Lemma zcheck_ok lo hi n : forall p, zcheck n p lo hi = true -> (0 < n)%nat -> forall x, -1 <= x <= 2 * INR n - 1 -> IZR lo <= zeval p x <= IZR hi.
Proof.
  induction n as [|n IH]; intros p H Hn x Hx; [lia|]. cbn [zcheck] in H. apply andb_true_iff in H as [H H3]. apply andb_true_iff in H as [H1 H2].
  apply Z.leb_le, IZR_le in H1, H2. destruct (Rle_dec x 1) as [Hle|Hgt].
  - pose proof (zrange_ok p x ltac:(lra)). lra.
  - rewrite S_INR in Hx. destruct n as [|n]; [cbn [INR] in Hx; lra|]. specialize (IH _ H3 ltac:(lia) (x - 2) ltac:(lra)). rewrite !zshift_ok in IH. replace (x - 2 + 1 + 1) with x in IH by ring. exact IH.
Qed.
(** The derivative. *)
Fixpoint zderiv (p : list Z) : list Z := match p with [] => [] | [_] => [] | c :: q => zadd q (0%Z :: zderiv q) end.
Lemma zeval_deriv p x : derivable_pt_lim (zeval p) x (zeval (zderiv p) x).
Proof.
  induction p as [|c p IH]; [apply (derivable_pt_lim_const 0)|].
  replace (zeval (zderiv (c :: p)) x) with (zeval (zadd p (0%Z :: zderiv p)) x) by (destruct p; [cbn; ring|reflexivity]). rewrite zadd_ok, zeval_cons.
  replace (zeval p x + (0 + x * zeval (zderiv p) x)) with (0 + (1 * zeval p x + x * zeval (zderiv p) x)) by ring.
  apply (derivable_pt_lim_plus (fct_cte (IZR c)) (fun y => y * zeval p y)); [apply derivable_pt_lim_const|].
  apply (derivable_pt_lim_mult id (zeval p)); [apply derivable_pt_lim_id|exact IH].
Qed.
