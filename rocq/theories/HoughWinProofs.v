(** * Proofs about windows in float arithmetic. *)
From Coq Require Import Reals ZArith Lra Lia.
From Flocq Require Import Core.
From Verif Require Import Base DoubleModel DoubleProofs SingleModel SingleProofs AssocFloatSpec AssocFloatProofs HoughModel HoughWinModel HoughWinSpec.
Open Scope R_scope.

Lemma int_part_int n : Int_part (IZR n) = n.
Proof. unfold Int_part. rewrite <- (tech_up (IZR n) (n + 1)); [lia|rewrite plus_IZR; lra|rewrite plus_IZR; lra]. Qed.
Lemma cast_whole n : (- 2 ^ 31 <= n < 2 ^ 31)%Z -> cast_int (IZR n) = Ret n.
Proof.
  intros H. unfold cast_int. assert (T : truncR (IZR n) = n).
  { unfold truncR. destruct (Rle_dec 0 (IZR n)); [apply int_part_int|]. rewrite <- opp_IZR, int_part_int. lia. }
  rewrite T. replace ((- 2 ^ 31 <=? n)%Z && (n <? 2 ^ 31)%Z)%bool with true; [reflexivity|]. symmetry. apply andb_true_intro. split; [apply Z.leb_le|apply Z.ltb_lt]; lia.
Qed.
Lemma ceil_bounds x : x <= IZR (ceilR x) < x + 1.
Proof. unfold ceilR. rewrite opp_IZR. destruct (base_Int_part (- x)) as [A B]. lra. Qed.
Lemma ceil_le x y : x <= y -> (ceilR x <= ceilR y)%Z.
Proof. intros H. pose proof (ceil_bounds x) as [_ A]. pose proof (ceil_bounds y) as [B _]. assert (IZR (ceilR x) < IZR (ceilR y + 1)) by (rewrite plus_IZR; lra). apply lt_IZR in H0. lia. Qed.
Lemma ceil_int n : ceilR (IZR n) = n.
Proof. unfold ceilR. rewrite <- opp_IZR, int_part_int. lia. Qed.
Lemma pow24 : powerRZ 2 (-24) = V. Proof. unfold V. rewrite <- (bpow_powerRZ radix2). cbn. lra. Qed.

Lemma window_value w res : 0 <= w -> 0 < res -> w <= res * 1073741824 -> windowf w res = Ret (ceilR (single (w / res))) /\ (0 <= ceilR (single (w / res)) <= 1073741824)%Z.
Proof.
  intros W R L. assert (Q : 0 <= w / res <= 1073741824).
  { split; [apply Rmult_le_pos; [lra|left; apply Rinv_0_lt_compat, R]|]. apply Rmult_le_reg_r with res; [exact R|]. unfold Rdiv. rewrite Rmult_assoc, Rinv_l by lra. lra. }
  assert (S : 0 <= single (w / res) <= 1073741824).
  { split; [apply single_pos; lra|]. apply single_upper; [|lra]. replace 1073741824 with (IZR 1 * bpow radix2 30) by (cbn; lra). apply sformat; lia. }
  assert (C : (0 <= ceilR (single (w / res)) <= 1073741824)%Z).
  { rewrite <- (ceil_int 0), <- (ceil_int 1073741824). split; apply ceil_le; lra. }
  split; [|exact C]. unfold windowf. destruct (Req_EM_T res 0); [lra|]. apply cast_whole. lia.
Qed.
Lemma window_lemma w res : 0 <= w -> 0 < res -> w <= res * 1073741824 ->
  exists k, windowf w res = Ret k /\ (0 <= k)%Z /\ covers_nearly (powerRZ 2 (-24)) w res k /\
    (forall w' k', 0 <= w' <= w -> windowf w' res = Ret k' -> (k' <= k)%Z).
Proof.
  intros W R L. destruct (window_value w res W R L) as [E C]. exists (ceilR (single (w / res))). split; [exact E|]. split; [lia|]. split.
  - rewrite pow24. unfold covers_nearly. pose proof (ceil_bounds (single (w / res))) as B. pose proof (abs_le_inv _ _ (single_err (w / res))) as S. assert (Q : 0 <= w / res) by (apply Rmult_le_pos; [lra|left; apply Rinv_0_lt_compat, R]).
    rewrite (Rabs_pos_eq _ Q) in S. set (k := IZR (ceilR (single (w / res)))) in *. assert (X : w = res * (w / res)) by (field; lra). set (x := w / res) in *. rewrite X. split.
    + replace ((1 - V) * (res * x)) with (res * (x - V * x)) by ring. apply Rmult_le_compat_l; lra.
    + replace ((1 + V) * (res * x)) with (res * (x + V * x)) by ring. apply Rmult_lt_compat_l; lra.
  - intros w' k' W' E'. destruct (window_value w' res ltac:(lra) R ltac:(lra)) as [E2 _]. rewrite E2 in E'. injection E' as <-. apply ceil_le, single_le. apply Rmult_le_compat_r; [left; apply Rinv_0_lt_compat, R|lra].
Qed.
Lemma whole_lemma res n : res <> 0 -> (Z.abs n < 2 ^ 24)%Z -> windowf (IZR n * res) res = Ret n.
Proof.
  intros R N. unfold windowf. destruct (Req_EM_T res 0); [lra|]. replace (IZR n * res / res) with (IZR n) by (field; exact R). rewrite single_id by (apply sformat_int; exact N). rewrite ceil_int. apply cast_whole. lia.
Qed.
Lemma both_lemma tw pw rw tr pr rr a b c : windowf tw tr = Ret a -> windowf pw pr = Ret b -> windowf rw rr = Ret c ->
  planeWindowsf tw pw rw tr pr rr = Ret (a, b, c) /\ lineWindowsf tw rw tr rr = Ret (a, c).
Proof. intros A B C. unfold planeWindowsf, lineWindowsf. rewrite A, B, C. split; reflexivity. Qed.

Lemma short_lemma : exists w res k, is_float w /\ is_float res /\ 0 <= w /\ 0 < res /\ windowf w res = Ret k /\ res * IZR k < w.
Proof.
  exists (6291457 / 2097152), (8388609 / 8388608), 3%Z. split; [exists 6291457%Z, (-21)%Z; split; [rewrite <- (bpow_powerRZ radix2); cbn; lra|lia]|].
  split; [exists 8388609%Z, (-23)%Z; split; [rewrite <- (bpow_powerRZ radix2); cbn; lra|lia]|]. split; [lra|]. split; [lra|]. split; [|lra].
  unfold windowf. destruct (Req_EM_T (8388609 / 8388608) 0); [lra|]. assert (S : single (6291457 / 2097152 / (8388609 / 8388608)) = 3).
  { replace (6291457 / 2097152 / (8388609 / 8388608)) with (25165828 / 8388609) by (field; lra). replace 3 with (IZR 12582912 * bpow radix2 (-22)) by (cbn; lra). apply single_near; [lia| |].
    - rewrite Rabs_pos_eq by lra. cbn. lra.
    - cbn. apply Rabs_lt. lra. }
  rewrite S, ceil_int. apply cast_whole. lia.
Qed.
