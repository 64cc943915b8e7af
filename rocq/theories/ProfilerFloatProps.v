(** * Property theorems: profiler statistics in double arithmetic (C222-C223). *)
From Coq Require Import Reals ZArith List Lra Lia.
From Verif Require Import DoubleModel DoubleSpec ProfilerFloatModel ProfilerFloatSpec ProfilerFloatProofs.
Import ListNotations.
Open Scope R_scope.

(** C222: false of the code: after 1 and 2^-60 the average is 0 and the accumulated squares are negative. *)
Theorem C222_between_refuted : exists x l, Forall is_time (x :: l) /\ favg (fstats x l) < fmin (fstats x l) /\ fvar (fstats x l) < 0.
Proof. exact outside_lemma. Qed.
Print Assumptions C222_between_refuted.
(** What holds: within three units of 2^-53 of the largest time (missing: exactly between). *)
Theorem C222_between_partial : forall x l, Forall is_time (x :: l) ->
  fmin (fstats x l) - 3 * / 2 ^ 53 * fmax (fstats x l) <= favg (fstats x l) <= fmax (fstats x l) + 3 * / 2 ^ 53 * fmax (fstats x l).
Proof. intros x l H. apply stats_lemma. exact H. Qed.
Print Assumptions C222_between_partial.

(** C223 *)
Theorem C223_statistics : forall x l, Forall is_time (x :: l) -> let s := fstats x l in
  fcount s = Z.of_nat (length (x :: l)) /\ least (x :: l) (fmin s) /\ greatest (x :: l) (fmax s) /\ 0 <= favg s /\
  fmin s - 3 * / 2 ^ 53 * fmax s <= favg s <= fmax s + 3 * / 2 ^ 53 * fmax s.
Proof. exact stats_lemma. Qed.
Print Assumptions C223_statistics.
Example C223_case : Forall is_time [12; 5 / 4; 3] /\ fmin (fstats 12 [5 / 4; 3]) = 5 / 4 /\ fmax (fstats 12 [5 / 4; 3]) = 12.
Proof.
  assert (P : 12 <= powerRZ 2 1000).
  { apply Rle_trans with (2 ^ 4); [lra|]. change (powerRZ 2 1000) with (2 ^ Pos.to_nat 1000). apply Rle_pow; [lra|]. apply Nat.leb_le. vm_compute. reflexivity. }
  split; [|split].
  - repeat apply Forall_cons; try apply Forall_nil; (split; [|lra]).
    + exists 12%Z, 0%Z. split; [cbn; lra|lia].
    + exists 5%Z, (-2)%Z. split; [change (powerRZ 2 (-2)) with (/ (2 * (2 * 1))); lra|lia].
    + exists 3%Z, 0%Z. split; [cbn; lra|lia].
  - unfold fstats. cbn [fold_left fupdate fnew fmin fmax]. destruct (Rlt_dec (5 / 4) 12); [|lra]. destruct (Rlt_dec 3 (5 / 4)); lra.
  - unfold fstats. cbn [fold_left fupdate fnew fmin fmax]. destruct (Rlt_dec 12 (5 / 4)); [lra|]. destruct (Rlt_dec 12 3); lra.
Qed.
