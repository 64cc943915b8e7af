(** * Decimal bounds of pi, by Machin's series of the standard library evaluated over Q. *)
From Coq Require Import QArith Qabs Qreals Reals Lra Lia Machin Ratan.
Open Scope R_scope.

Lemma Q2R_red q : Q2R (Qred q) = Q2R q.
Proof. apply Qeq_eqR. apply Qred_correct. Qed.
Fixpoint qpow (q : Q) (n : nat) : Q := match n with O => 1%Q | S k => Qred (q * qpow q k) end.
Lemma qpow_ok q n : Q2R (qpow q n) = Q2R q ^ n.
Proof. induction n as [|n IH]; cbn [qpow pow]; [unfold Q2R; cbn; lra|]. rewrite Q2R_red, Q2R_mult, IH. reflexivity. Qed.

Definition qseq (q : Q) (n : nat) : Q := (qpow q (2 * n + 1) / inject_Z (Z.of_nat (2 * n + 1)))%Q.
Lemma Q2R_inject z : Q2R (inject_Z z) = IZR z.
Proof. unfold Q2R, inject_Z. cbn [Qnum Qden]. rewrite Rinv_1. lra. Qed.
Lemma qseq_ok q n : Q2R (qseq q n) = Ratan_seq (Q2R q) n.
Proof.
  unfold qseq, Ratan_seq. rewrite Q2R_div; [rewrite qpow_ok, Q2R_inject, <- INR_IZR_INZ; reflexivity|]. unfold Qeq, inject_Z. cbn [Qnum Qden]. lia.
Qed.
Definition qtg (n : nat) : Q := Qred (qpow (-1 # 1) n * (2 * qseq (1 # 3) n + qseq (1 # 7) n)).
Lemma qtg_ok n : Q2R (qtg n) = tg_alt PI_2_3_7_tg n.
Proof.
  unfold qtg, tg_alt, PI_2_3_7_tg. rewrite Q2R_red, Q2R_mult, Q2R_plus, Q2R_mult, !qseq_ok, qpow_ok.
  replace (Q2R (-1 # 1)) with (-1) by (unfold Q2R; cbn; lra). replace (Q2R 2) with 2 by (unfold Q2R; cbn; lra). replace (Q2R (1 # 3)) with (/ 3) by (unfold Q2R; cbn; lra). replace (Q2R (1 # 7)) with (/ 7) by (unfold Q2R; cbn; lra).
  reflexivity.
Qed.
Fixpoint qsums (n : nat) : Q := match n with O => qtg 0 | S k => Qred (qsums k + qtg (S k)) end.
Lemma qsums_ok n : Q2R (qsums n) = sum_f_R0 (tg_alt PI_2_3_7_tg) n.
Proof. induction n as [|n IH]; cbn [qsums sum_f_R0]; [apply qtg_ok|]. rewrite Q2R_red, Q2R_plus, IH, qtg_ok. reflexivity. Qed.

Lemma PI_bounds : 314159265358 / 100000000000 < PI < 314159265359 / 100000000000.
Proof.
  pose proof (PI_2_3_7_ineq 7) as [H1 H2]. rewrite <- !qsums_ok in H1, H2.
  assert (L : (314159265358 # 400000000000 < qsums (S (2 * 7)))%Q) by (vm_compute; reflexivity).
  assert (U : (qsums (2 * 7) < 314159265359 # 400000000000)%Q) by (vm_compute; reflexivity).
  apply Qlt_Rlt in L. apply Qlt_Rlt in U. unfold Q2R in L at 1. unfold Q2R in U at 2. cbn [Qnum Qden] in L, U. lra.
Qed.
