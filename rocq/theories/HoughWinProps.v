(** * Properties of peak windows in float arithmetic. *)
From Coq Require Import Reals ZArith Lra Lia.
From Verif Require Import Base HoughModel AssocFloatSpec HoughWinModel HoughWinSpec HoughWinProofs.
Open Scope R_scope.

(** C244: the quotient may round down to a whole number of bins. *)
Theorem C244_covers_refuted : exists w res k, is_float w /\ is_float res /\ 0 <= w /\ 0 < res /\ windowf w res = Ret k /\ res * IZR k < w.
Proof. exact short_lemma. Qed.
Print Assumptions C244_covers_refuted.
(** It covers the extent up to rounding, never has a bin too many by more than that, and grows with the extent. *)
Theorem C244_covers_partial : forall w res, 0 <= w -> 0 < res -> w <= res * 1073741824 ->
  exists k, windowf w res = Ret k /\ (0 <= k)%Z /\ covers_nearly (powerRZ 2 (-24)) w res k /\
    (forall w' k', 0 <= w' <= w -> windowf w' res = Ret k' -> (k' <= k)%Z).
Proof. exact window_lemma. Qed.
Print Assumptions C244_covers_partial.
Example C244_case : 0 <= 7 / 2 /\ 0 < 1 / 2 /\ 7 / 2 <= 1 / 2 * 1073741824 /\ windowf (7 / 2) (1 / 2) = Ret 7%Z.
Proof. refine (conj _ (conj _ (conj _ _))); try lra. replace (7 / 2) with (IZR 7 * (1 / 2)) by lra. apply whole_lemma; [lra|lia]. Qed.

(** C245 *)
Theorem C245_whole_bins : forall res n, res <> 0 -> (Z.abs n < 2 ^ 24)%Z -> windowf (IZR n * res) res = Ret n.
Proof. exact whole_lemma. Qed.
Print Assumptions C245_whole_bins.
Theorem C245_detectors : forall tr pr rr a b c, tr <> 0 -> pr <> 0 -> rr <> 0 -> (Z.abs a < 2 ^ 24)%Z -> (Z.abs b < 2 ^ 24)%Z -> (Z.abs c < 2 ^ 24)%Z ->
  planeWindowsf (IZR a * tr) (IZR b * pr) (IZR c * rr) tr pr rr = Ret (a, b, c) /\ lineWindowsf (IZR a * tr) (IZR c * rr) tr rr = Ret (a, c).
Proof. intros tr pr rr a b c T P R A B C. eapply both_lemma; apply whole_lemma; assumption. Qed.
Print Assumptions C245_detectors.
Example C245_case : 1 / 10 <> 0 /\ (Z.abs 5 < 2 ^ 24)%Z.
Proof. split; [lra|lia]. Qed.
