(** * Proofs: profiler statistics in double arithmetic. *)
From Coq Require Import Reals ZArith List Lra Lia Psatz.
From Flocq Require Import Core Relative Plus_error.
From Verif Require Import DoubleModel DoubleSpec DoubleProofs ProfilerFloatModel ProfilerFloatSpec.
Import ListNotations.
Open Scope R_scope.

#[local] Existing Instance prec53.
Notation format := (generic_format radix2 fexp).
Lemma U_pos : 0 < U. Proof. unfold U. apply Rinv_0_lt_compat. lra. Qed.
Lemma U_small : U <= / 1000. Proof. unfold U. apply Rinv_le_contravar; lra. Qed.

Lemma fadd_err a b : format a -> format b -> exists e, Rabs e <= U /\ fadd a b = (a + b) * (1 + e).
Proof.
  intros Fa Fb. destruct (FLT_plus_error_N_ex radix2 (-1074) 53 (fun x => negb (Z.even x)) a b Fa Fb) as (e & He & E). exists e. split; [|exact E].
  eapply Rle_trans; [exact He|]. assert (Eu : u_ro radix2 53 = U) by (unfold u_ro; rewrite U_bpow; reflexivity). rewrite Eu. pose proof U_pos.
  apply Rmult_le_reg_r with (1 + U); [lra|]. unfold Rdiv. rewrite Rmult_assoc, Rinv_l by lra. nra.
Qed.
Lemma fsub_err a b : format a -> format b -> exists e, Rabs e <= U /\ fsub a b = (a - b) * (1 + e).
Proof. intros Fa Fb. apply (fadd_err a (- b) Fa). now apply generic_format_opp. Qed.

Lemma count_ge c : (1 <= c)%Z -> 1 <= rnd (IZR c).
Proof. intros H. rewrite <- (rnd_id 1) by (apply (format_int 1); lia). apply rnd_le. now apply IZR_le. Qed.
(** Dividing by at least one does not increase the magnitude. *)
Lemma fdiv_shrink d c : format d -> 1 <= c -> (0 <= d -> 0 <= fdiv d c <= d) /\ (d <= 0 -> d <= fdiv d c <= 0).
Proof.
  intros Fd Hc. assert (I : 0 < / c <= 1). { split; [apply Rinv_0_lt_compat; lra|]. rewrite <- Rinv_1. apply Rinv_le_contravar; lra. }
  unfold fdiv, Rdiv. split; intros H; split.
  - rewrite <- rnd_0. apply rnd_le. nra.
  - rewrite <- (rnd_id d Fd) at 2. apply rnd_le. nra.
  - rewrite <- (rnd_id d Fd) at 1. apply rnd_le. nra.
  - rewrite <- rnd_0. apply rnd_le. nra.
Qed.

(** One step of the average. *)
Definition next (a t c : R) : R := fadd a (fdiv (fsub t a) c).
Lemma next_bounds a t c m M : format a -> format t -> 1 <= c -> 0 <= m -> m <= t <= M -> 0 <= a -> m - 3 * U * M <= a <= M + 3 * U * M ->
  0 <= next a t c /\ m - 3 * U * M <= next a t c <= M + 3 * U * M.
Proof.
  intros Fa Ft Hc Hm Ht H0 Ha. pose proof U_pos as Up. pose proof U_small as Us. unfold next.
  assert (Fd : format (fsub t a)) by apply rnd_format. assert (M0 : 0 <= M) by lra. assert (UM : 0 <= U * M) by nra.
  destruct (Rle_dec a t) as [Hle|Hle].
  - assert (D0 : 0 <= fsub t a) by (unfold fsub; rewrite <- rnd_0; apply rnd_le; lra).
    destruct (fdiv_shrink _ c Fd Hc) as [Q _]. specialize (Q D0). set (q := fdiv (fsub t a) c) in *.
    assert (L : a <= fadd a q) by (unfold fadd; rewrite <- (rnd_id a Fa) at 1; apply rnd_le; lra).
    assert (Hq : fadd a q <= fadd a (fsub t a)) by (unfold fadd; apply rnd_le; lra).
    destruct (fadd_err a (fsub t a) Fa Fd) as (e2 & He2 & E2). destruct (fsub_err t a Ft Fa) as (e1 & He1 & E1).
    apply abs_le_inv in He1, He2. rewrite E2, E1 in Hq.
    assert (X : a + (t - a) * (1 + e1) <= M * (1 + U)) by nra. assert (X0 : 0 <= a + (t - a) * (1 + e1)) by nra.
    assert (Y : (a + (t - a) * (1 + e1)) * (1 + e2) <= M * (1 + U) * (1 + U)) by nra.
    assert (Z : M * (1 + U) * (1 + U) <= M + 3 * U * M) by nra. lra.
  - assert (D0 : fsub t a <= 0) by (unfold fsub; rewrite <- rnd_0; apply rnd_le; lra).
    destruct (fdiv_shrink _ c Fd Hc) as [_ Q]. specialize (Q D0). set (q := fdiv (fsub t a) c) in *.
    assert (L : fadd a q <= a) by (unfold fadd; rewrite <- (rnd_id a Fa) at 2; apply rnd_le; lra).
    assert (Hq : fadd a (fsub t a) <= fadd a q) by (unfold fadd; apply rnd_le; lra).
    assert (Dm : - a <= fsub t a).
    { unfold fsub. rewrite <- (rnd_id (- a)) by (now apply generic_format_opp). apply rnd_le. lra. }
    assert (P0 : 0 <= fadd a (fsub t a)) by (unfold fadd; rewrite <- rnd_0; apply rnd_le; lra).
    destruct (fadd_err a (fsub t a) Fa Fd) as (e2 & He2 & E2). destruct (fsub_err t a Ft Fa) as (e1 & He1 & E1).
    apply abs_le_inv in He1, He2. rewrite E1 in Dm. rewrite E2, E1 in Hq, P0.
    set (X := a + (t - a) * (1 + e1)) in *. assert (X0 : 0 <= X) by (unfold X; lra). assert (X1 : X <= a) by (unfold X; nra).
    assert (X2 : t - U * a <= X).
    { unfold X. assert (W : (a - t) * e1 <= a * U) by (eapply Rle_trans; [apply (Rmult_le_compat_l (a - t) e1 U); lra|apply Rmult_le_compat_r; lra]). lra. }
    assert (Ua : U * a <= U * M + U * (3 * U * M)) by (rewrite <- Rmult_plus_distr_l; apply Rmult_le_compat_l; lra).
    assert (UU : U * (3 * U * M) <= / 4 * (U * M)) by (replace (U * (3 * U * M)) with (3 * U * (U * M)) by ring; apply Rmult_le_compat_r; lra).
    assert (Y : X - U * X <= X * (1 + e2)) by nra. assert (UX : U * X <= U * a) by nra. lra.
Qed.
Lemma next_format a t c : format (next a t c). Proof. apply rnd_format. Qed.

(** The invariant. *)
Record ok (l : list R) (s : fstat) : Prop := {
  ok_count : fcount s = Z.of_nat (length l); ok_pos : l <> [];
  ok_min : least l (fmin s); ok_max : greatest l (fmax s); ok_fmt : format (favg s); ok_0 : 0 <= favg s;
  ok_avg : fmin s - 3 * U * fmax s <= favg s <= fmax s + 3 * U * fmax s }.

Lemma ok_new x : is_time x -> ok [x] (fnew x).
Proof.
  intros [D [H0 H1]]. pose proof U_pos. constructor; cbn [fnew favg fmin fmax fcount length].
  - reflexivity.
  - discriminate.
  - split; [now left|]. intros y [->|[]]. lra.
  - split; [now left|]. intros y [->|[]]. lra.
  - now apply double_format.
  - exact H0.
  - nra.
Qed.
Lemma ok_step l s t : Forall is_time l -> is_time t -> ok l s -> ok (l ++ [t]) (fupdate s t).
Proof.
  intros Hl [Dt [T0 T1]] [C NE [Mi1 Mi2] [Ma1 Ma2] F A0 A]. pose proof U_pos as Up. rewrite Forall_forall in Hl.
  pose proof (Hl _ Mi1) as [_ [m0 _]]. assert (mM : fmin s <= fmax s) by auto.
  set (m' := if Rlt_dec t (fmin s) then t else fmin s). set (M' := if Rlt_dec (fmax s) t then t else fmax s).
  assert (B : 0 <= m' /\ m' <= t <= M' /\ m' <= fmin s /\ fmax s <= M').
  { unfold m', M'. destruct (Rlt_dec t (fmin s)), (Rlt_dec (fmax s) t); lra. }
  destruct B as (B0 & B1 & B2 & B3).
  assert (N : 0 <= favg (fupdate s t) /\ m' - 3 * U * M' <= favg (fupdate s t) <= M' + 3 * U * M').
  { change (favg (fupdate s t)) with (next (favg s) t (rnd (IZR (fcount s)))). apply next_bounds; auto.
    - now apply double_format.
    - apply count_ge. rewrite C. destruct l; [congruence|]. cbn [length]. lia.
    - nra. }
  constructor.
  - cbn [fupdate fcount]. rewrite app_length, C. cbn [length]. lia.
  - destruct l; discriminate.
  - change (fmin (fupdate s t)) with m'. split.
    + unfold m'. destruct (Rlt_dec t (fmin s)); apply in_or_app; [right; now left|now left].
    + intros x Hx. apply in_app_or in Hx as [Hx|[<-|[]]]; [|lra]. specialize (Mi2 x Hx). lra.
  - change (fmax (fupdate s t)) with M'. split.
    + unfold M'. destruct (Rlt_dec (fmax s) t); apply in_or_app; [right; now left|now left].
    + intros x Hx. apply in_app_or in Hx as [Hx|[<-|[]]]; [|lra]. specialize (Ma2 x Hx). lra.
  - apply next_format.
  - apply N.
  - apply N.
Qed.
Lemma ok_fold l : forall pre s, Forall is_time pre -> Forall is_time l -> ok pre s -> ok (pre ++ l) (fold_left fupdate l s).
Proof.
  induction l as [|t l IH]; intros pre s Hp Hl Hs; [now rewrite app_nil_r|]. inversion_clear Hl as [|? ? Ht Hl']. cbn [fold_left].
  replace (pre ++ t :: l) with ((pre ++ [t]) ++ l) by (rewrite <- app_assoc; reflexivity). apply IH; auto; [apply Forall_app; auto|now apply ok_step].
Qed.
Lemma stats_lemma x l : Forall is_time (x :: l) ->
  let s := fstats x l in fcount s = Z.of_nat (length (x :: l)) /\ least (x :: l) (fmin s) /\ greatest (x :: l) (fmax s) /\ 0 <= favg s /\
  fmin s - 3 * / 2 ^ 53 * fmax s <= favg s <= fmax s + 3 * / 2 ^ 53 * fmax s.
Proof.
  intros H. cbv zeta. inversion_clear H as [|? ? Hx Hl]. pose proof (ok_fold l [x] (fnew x) ltac:(auto) Hl (ok_new x Hx)) as [C _ Mi Ma _ A0 A].
  assert (EU : U = / 2 ^ 53) by (unfold U; f_equal; lra). rewrite EU in A. fold (fstats x l) in *. cbn [app] in *. auto 6.
Qed.

(** The average of 1 and 2^-60 is 0. *)
Lemma outside_lemma : exists x l, Forall is_time (x :: l) /\ favg (fstats x l) < fmin (fstats x l) /\ fvar (fstats x l) < 0.
Proof.
  assert (B60 : bpow radix2 (-60) = / 1152921504606846976) by reflexivity. set (t := bpow radix2 (-60)) in *.
  assert (Ft : format t) by (apply generic_format_bpow; unfold fexp, FLT_exp; lia).
  assert (F1 : format 1) by (apply (format_int 1); lia).
  assert (E1 : fsub t 1 = -1).
  { unfold fsub. change (rnd (t - 1) = -1). replace (t - 1) with (- (1 - t)) by ring. unfold rnd. rewrite round_NE_opp. f_equal. fold (rnd (1 - t)).
    pose proof (rnd_near (1 - t) (2 ^ 53) (-53) ltac:(lia)) as N. rewrite N; [change (bpow radix2 (-53)) with (/ 9007199254740992); change (IZR (2 ^ 53)) with 9007199254740992; lra| |].
    - change (52 + -53)%Z with (-1)%Z. change (53 + -53)%Z with 0%Z. change (bpow radix2 (-1)) with (/ 2). change (bpow radix2 0) with 1. rewrite Rabs_pos_eq; rewrite B60; lra.
    - change (- -53)%Z with 53%Z. change (bpow radix2 53) with 9007199254740992. change (IZR (2 ^ 53)) with 9007199254740992. rewrite B60. rewrite Rabs_left; lra. }
  assert (Fm1 : format (-1)) by (apply (format_int (-1)); lia).
  assert (E2 : fdiv (-1) (rnd (IZR 1)) = -1) by (rewrite (rnd_id 1) by auto; unfold fdiv; replace (-1 / 1) with (-1) by field; now apply rnd_id).
  assert (E3 : fadd 1 (-1) = 0) by (unfold fadd; replace (1 + -1) with 0 by ring; apply rnd_0).
  exists 1, [t]. split; [|].
  - assert (P : 1 <= powerRZ 2 1000) by (change 2 with (IZR radix2); rewrite <- bpow_powerRZ; change 1 with (bpow radix2 0); apply bpow_le; lia).
    constructor; [|constructor; [|constructor]].
    + split; [|lra]. exists 1%Z, 0%Z. split; [cbn; ring|]. lia.
    + split; [exists 1%Z, (-60)%Z; split; [unfold t; rewrite bpow_powerRZ; cbn [radix2 radix_val]; ring|lia]|]. rewrite B60. split; [lra|]. eapply Rle_trans; [|exact P]. lra.
  - unfold fstats. cbn [fold_left]. unfold fupdate, fnew. cbn [favg fvar fmin fmax fcount]. rewrite E1, E2, E3. split.
    + destruct (Rlt_dec t 1); rewrite B60 in *; lra.
    + assert (E4 : fsub t 0 = t) by (unfold fsub; replace (t - 0) with t by ring; now apply rnd_id). rewrite E4.
      assert (E5 : fmul t (-1) = - t) by (unfold fmul; replace (t * -1) with (- t) by ring; apply rnd_id; now apply generic_format_opp). rewrite E5.
      unfold fadd. replace (0 + - t) with (- t) by ring. rewrite rnd_id by (now apply generic_format_opp). rewrite B60. lra.
Qed.
