(** * Proofs about the Hough transform in float arithmetic. *)
From Coq Require Import Reals ZArith Bool Lra Lia Psatz.
From Flocq Require Import Core Relative.
From Verif Require Import Base PiBounds DoubleModel DoubleSpec DoubleProofs DoubleTrig SingleModel SingleProofs GeoFloatProofs GisFloatModel GisFloatSpec GisFloatProofs HoughModel HoughSpec HoughProofs HoughFloatModel HoughFloatSpec.
Open Scope R_scope.

(** ** Bins *)
Lemma VV_small : 0 < V * V <= V / 1000000. Proof. numv. Qed.
Lemma mul_err x y A B : Rabs x <= A -> Rabs y <= B -> err (V * (A * B) + V * V) (single (x * y)) (x * y) /\ Rabs (x * y) <= A * B.
Proof.
  intros HA HB. assert (P : Rabs (x * y) <= A * B) by (rewrite Rabs_mult; apply Rmult_le_compat; auto; apply Rabs_pos). split; [|exact P]. now apply single_rel.
Qed.
Lemma rho_err n p B : within3 (1 + 1 / 1000) n -> within3 B p -> err (9 * (V * B) + 8 * (V * V)) (rhof n p) (dot3 n p) /\ Rabs (dot3 n p) <= 301 / 100 * B.
Proof.
  destruct n as [[a b] c], p as [[x y] z]. intros (A1 & A2 & A3) (X1 & X2 & X3). unfold rhof, dot3. pose proof (Rabs_pos x) as B0. pose proof V_pos as V0. pose proof VV_small as VV.
  assert (VB : 0 <= V * B) by (apply Rmult_le_pos; lra). assert (VVB : 0 <= V * (V * B) <= V * B / 1000000) by (split; [apply Rmult_le_pos; lra|nra]). assert (VVV : 0 <= V * (V * V) <= V * V / 1000000) by (split; nra).
  assert (VVVB : 0 <= V * (V * (V * B)) <= V * (V * B)) by (split; [apply Rmult_le_pos; lra|nra]). assert (VVVV : 0 <= V * (V * (V * V)) <= V * (V * V)) by (split; nra).
  destruct (mul_err a x _ _ A1 X1) as [E1 P1]. destruct (mul_err b y _ _ A2 X2) as [E2 P2]. destruct (mul_err c z _ _ A3 X3) as [E3 P3].
  assert (P12 : Rabs (a * x + b * y) <= 2002 / 1000 * B) by (eapply Rle_trans; [apply Rabs_triang|]; lra).
  assert (P : Rabs (a * x + b * y + c * z) <= 3003 / 1000 * B) by (eapply Rle_trans; [apply Rabs_triang|]; lra).
  split; [|lra].
  eassert (S1 : err (4.1 * (V * B) + 3.1 * (V * V)) _ _) by (apply (serr_add _ _ _ _ _ _ _ _ E1 E2 P12); lra).
  apply (serr_add _ _ _ _ _ _ _ _ S1 E3 P). lra.
Qed.
Lemma quotient_err e a v r : 0 < r -> err e a v -> err (e / r) (a / r) (v / r).
Proof.
  intros R0 E. unfold err in *. replace (a / r - v / r) with ((a - v) * / r) by (field; lra). rewrite Rabs_mult, Rabs_inv, (Rabs_right r) by lra. apply Rmult_le_compat_r; [left; now apply Rinv_0_lt_compat|exact E].
Qed.
Lemma place_dot n p m r : place n p m r = (dot3 n p - m) / r. Proof. destruct n as [[a b] c], p as [[x y] z]. reflexivity. Qed.
Lemma place_err n p B m M r : 0 < r -> within3 (1 + 1 / 1000) n -> within3 B p -> Rabs m <= M ->
  err (blur B M r) (single (single (rhof n p - m) / r)) (place n p m r).
Proof.
  intros R0 Hn Hp Hm. destruct (rho_err n p B Hn Hp) as [E D]. rewrite place_dot. assert (B0 : 0 <= B) by (destruct p as [[x y] z]; destruct Hp as [H _]; pose proof (Rabs_pos x); lra). pose proof (Rabs_pos m) as M0.
  pose proof V_pos as V0. pose proof VV_small as VV. set (rho := rhof n p) in *. set (d := dot3 n p) in *. clearbody rho d.
  assert (VB : 0 <= V * B) by (apply Rmult_le_pos; lra). assert (VM : 0 <= V * M) by (apply Rmult_le_pos; lra). assert (VVB : 0 <= V * (V * B) <= V * B / 1000000) by (split; [apply Rmult_le_pos; lra|nra]). assert (VVM : 0 <= V * (V * M) <= V * M / 1000000) by (split; [apply Rmult_le_pos; lra|nra]). assert (VVV : 0 <= V * (V * V) <= V * V / 1000000) by (split; nra).
  destruct (err_shift _ _ _ m E) as [_ E1]. assert (D1 : Rabs (d - m) <= 301 / 100 * B + M). { apply abs_le_inv in D, Hm. apply Rabs_le. lra. }
  assert (E2 : err (12.1 * (V * B) + V * M + 9.1 * (V * V)) (single (rho - m)) (d - m)) by (apply (serr_rnd _ _ _ _ _ E1 D1); lra).
  pose proof (quotient_err _ _ _ r R0 E2) as E3. assert (D2 : Rabs ((d - m) / r) <= (301 / 100 * B + M) / r).
  { unfold Rdiv at 1. rewrite Rabs_mult, Rabs_inv, (Rabs_right r) by lra. apply Rmult_le_compat_r; [left; now apply Rinv_0_lt_compat|exact D1]. }
  apply (serr_rnd _ _ _ _ _ E3 D2). unfold blur. apply (Rmult_le_reg_r r); [exact R0|].
  replace (((B + M) / 2 ^ 19 + (1 + r) / 2 ^ 44) / r * r) with ((B + M) / 2 ^ 19 + (1 + r) / 2 ^ 44) by (field; lra).
  set (e := 12.1 * (V * B) + V * M + 9.1 * (V * V)) in *. replace ((e / r + V * ((301 / 100 * B + M) / r + e / r) + V * V) * r) with (e + V * (301 / 100 * B + M + e) + V * V * r) by (field; lra).
  assert (X : (B + M) / 2 ^ 19 = 32 * (V * B) + 32 * (V * M)) by (unfold V; lra). assert (Y : (1 + r) / 2 ^ 44 = 16 * (V * V) + 16 * (V * V * r)) by (unfold V; lra). rewrite X, Y.
  assert (0 <= V * V * r) by (apply Rmult_le_pos; lra). unfold e. lra.
Qed.
Lemma bin_quotient m r rho k : r <> 0 -> binf m r rho = Ret k -> truncR (single (single (rho - m) / r)) = k.
Proof. intros H. unfold binf, cast_int. destruct (Req_EM_T r 0); [contradiction|]. destruct (_ && _)%bool; [intros [=]; assumption|discriminate]. Qed.
Lemma bin_of m r rho k : r <> 0 -> truncR (single (single (rho - m) / r)) = k -> (- 2 ^ 31 <= k < 2 ^ 31)%Z -> binf m r rho = Ret k.
Proof.
  intros H E K. unfold binf, cast_int. destruct (Req_EM_T r 0); [contradiction|]. rewrite E. replace ((- 2 ^ 31 <=? k) && (k <? 2 ^ 31))%Z with true; [reflexivity|].
  symmetry. apply andb_true_intro. split; [apply Z.leb_le|apply Z.ltb_lt]; lia.
Qed.
Lemma sure_vote n p B m M r k : 0 < r -> within3 (1 + 1 / 1000) n -> within3 B p -> Rabs m <= M -> (0 <= k < 2 ^ 31)%Z ->
  IZR k + blur B M r <= place n p m r < IZR k + 1 - blur B M r -> binf m r (rhof n p) = Ret k.
Proof.
  intros R0 Hn Hp Hm K [L H]. pose proof (place_err n p B m M r R0 Hn Hp Hm) as E. unfold err in E. apply abs_le_inv in E. apply bin_of; [lra| |lia].
  apply trunc_code; [lia|]. assert (IZR 0 <= IZR k) by (apply IZR_le; lia). unfold code_bin, in_bin. destruct (Z.eq_dec k 0) as [->|N]; [left; split; [reflexivity|lra]|right; split; [lia|lra]].
Qed.
Lemma vote_place n p B m M r k : 0 < r -> within3 (1 + 1 / 1000) n -> within3 B p -> Rabs m <= M -> (0 <= k)%Z -> binf m r (rhof n p) = Ret k ->
  IZR k - (if (k =? 0)%Z then 1 else 0) - blur B M r <= place n p m r <= IZR k + 1 + blur B M r.
Proof.
  intros R0 Hn Hp Hm K E. pose proof (place_err n p B m M r R0 Hn Hp Hm) as P. unfold err in P. apply abs_le_inv in P. apply bin_quotient in E; [|lra].
  apply trunc_code in E; [|exact K]. destruct E as [[-> E]|[N E]]; [rewrite Z.eqb_refl; lra|]. rewrite (proj2 (Z.eqb_neq k 0)) by lia. unfold in_bin in E. lra.
Qed.
Lemma bin_monotone m r rho rho' k k' : 0 < r -> rho <= rho' -> binf m r rho = Ret k -> binf m r rho' = Ret k' -> (k <= k')%Z.
Proof.
  intros R0 L E E'. apply bin_quotient in E; [|lra]. apply bin_quotient in E'; [|lra]. subst.
  assert (Q : single (single (rho - m) / r) <= single (single (rho' - m) / r)).
  { apply single_le. apply Rmult_le_compat_r; [left; now apply Rinv_0_lt_compat|]. apply single_le. lra. }
  revert Q. generalize (single (single (rho - m) / r)) (single (single (rho' - m) / r)). intros a b Q.
  assert (I : forall x y, x <= y -> (Int_part x <= Int_part y)%Z).
  { intros x y H. destruct (base_Int_part x) as [H1 _]. destruct (base_Int_part y) as [_ H2]. apply Z.lt_succ_r, lt_IZR. unfold Z.succ. rewrite plus_IZR. lra. }
  unfold truncR. destruct (Rle_dec 0 a), (Rle_dec 0 b); [now apply I|lra| |assert (Int_part (- b) <= Int_part (- a))%Z by (apply I; lra); lia].
  assert (0 <= Int_part (- a))%Z. { assert (Int_part 0 <= Int_part (- a))%Z by (apply I; lra). replace (Int_part 0) with 0%Z in H; [exact H|]. symmetry. apply Int_part_iff. lra. }
  assert (0 <= Int_part b)%Z. { assert (Int_part 0 <= Int_part b)%Z by (apply I; lra). replace (Int_part 0) with 0%Z in H0; [exact H0|]. symmetry. apply Int_part_iff. lra. }
  lia.
Qed.
Lemma bin_defined n p B m M r : 0 < r -> within3 (1 + 1 / 1000) n -> within3 B p -> Rabs m <= M -> Rabs (place n p m r) + blur B M r <= 2147483647 -> exists k, binf m r (rhof n p) = Ret k.
Proof.
  intros R0 Hn Hp Hm H. pose proof (place_err n p B m M r R0 Hn Hp Hm) as P. set (o := place n p m r) in *. set (o' := single _) in P. assert (C : - 2147483649 < o' < 2147483648).
  { unfold err in P. assert (T : Rabs o' <= 2147483647). { replace o' with (o + (o' - o)) by ring. eapply Rle_trans; [apply Rabs_triang|]. lra. } apply abs_le_inv in T. lra. }
  destruct (cast_exact o') as [[_ E]|[E _]]; [|contradiction]. exists (truncR o'). unfold binf. destruct (Req_EM_T r 0); [lra|]. exact E.
Qed.

(** ** The reported planes *)
Lemma height_err m M r k : 0 < r -> Rabs m <= M -> (0 <= k)%Z -> r * IZR k <= 2 * M -> Rabs (heightf m r k + (r * IZR k + m)) <= M / 2 ^ 21 + (1 + r) / 2 ^ 44.
Proof.
  intros R0 Hm K HK. pose proof V_pos as V0. pose proof VV_small as VV. pose proof (Rabs_pos m) as M0. assert (K0 : 0 <= IZR k) by (apply (IZR_le 0); lia).
  assert (VM : 0 <= V * M) by (apply Rmult_le_pos; lra). assert (VVM : 0 <= V * (V * M) <= V * M / 1000000) by (split; [apply Rmult_le_pos; lra|nra]). assert (VVr : 0 <= V * V * r) by (apply Rmult_le_pos; lra). assert (VVVr : 0 <= V * (V * V * r) <= V * V * r / 1000000) by (split; [apply Rmult_le_pos; lra|nra]). assert (VVV : 0 <= V * (V * V) <= V * V / 1000000) by (split; nra).
  assert (VVVM : 0 <= V * (V * (V * M)) <= V * (V * M)) by (split; [apply Rmult_le_pos; lra|nra]). assert (VVVVr : 0 <= V * (V * (V * V * r)) <= V * (V * V * r)) by (split; [apply Rmult_le_pos; lra|nra]). assert (VVVV : 0 <= V * (V * (V * V)) <= V * (V * V)) by (split; nra).
  pose proof (single_err (IZR k)) as E. rewrite (Rabs_right (IZR k)) in E by lra. unfold heightf. set (f := single (IZR k)) in *. clearbody f.
  assert (E1 : err (2 * (V * M) + V * V * r) (r * f) (r * IZR k)).
  { unfold err. replace (r * f - r * IZR k) with (r * (f - IZR k)) by ring. rewrite Rabs_mult, (Rabs_right r) by lra. assert (r * Rabs (f - IZR k) <= r * (V * IZR k + V * V)) by (apply Rmult_le_compat_l; lra). nra. }
  assert (E2 : err (4.1 * (V * M) + 1.1 * (V * V * r) + V * V) (single (r * f)) (r * IZR k)) by (apply (serr_rnd _ _ _ (2 * M) _ E1); [rewrite Rabs_right; nra|lra]).
  destruct (err_shift _ _ _ m E2) as [E3 _]. assert (D : Rabs (r * IZR k + m) <= 3 * M). { assert (0 <= r * IZR k) by nra. apply abs_le_inv in Hm. apply Rabs_le. lra. }
  assert (E4 : err (7.2 * (V * M) + 1.2 * (V * V * r) + 2.1 * (V * V)) (single (single (r * f) + m)) (r * IZR k + m)) by (apply (serr_rnd _ _ _ (3 * M) _ E3 D); lra).
  unfold err in E4. replace (- single (single (r * f) + m) + (r * IZR k + m)) with (- (single (single (r * f) + m) - (r * IZR k + m))) by ring. rewrite Rabs_Ropp.
  eapply Rle_trans; [exact E4|]. unfold V in *. lra.
Qed.

Lemma vote_distance_f n p B m M r k : 0 < r -> within3 (1 + 1 / 1000) n -> within3 B p -> Rabs m <= M -> (0 <= k)%Z -> r * IZR k <= 2 * M -> binf m r (rhof n p) = Ret k ->
  Rabs (dot3 n p + heightf m r k) <= r + (B + 2 * M) / 2 ^ 19 + (1 + r) / 2 ^ 43.
Proof.
  intros R0 Hn Hp Hm K HK E. pose proof (vote_place n p B m M r k R0 Hn Hp Hm K E) as P. pose proof (height_err m M r k R0 Hm K HK) as H. apply abs_le_inv in H. rewrite place_dot in P.
  set (d := dot3 n p) in *. clearbody d. set (u := blur B M r) in *. assert (Eu : u * r = (B + M) / 2 ^ 19 + (1 + r) / 2 ^ 44) by (unfold u, blur; field; lra). clearbody u.
  assert (P1 : (IZR k - 1 - u) * r <= d - m <= (IZR k + 1 + u) * r).
  { replace (d - m) with ((d - m) / r * r) by (field; lra). split; apply Rmult_le_compat_r; try lra. destruct (k =? 0)%Z; lra. }
  pose proof (Rabs_pos m). apply Rabs_le. lra.
Qed.
Lemma on_plane n p B m M r k : 0 < r -> within3 (1 + 1 / 1000) n -> within3 B p -> Rabs m <= M -> (0 < k < 2 ^ 31)%Z -> r * IZR k <= 2 * M -> (B + 2 * M) / 2 ^ 19 + (1 + r) / 2 ^ 43 < r ->
  dot3 n p + heightf m r k = 0 -> binf m r (rhof n p) = Ret (k - 1)%Z \/ binf m r (rhof n p) = Ret k.
Proof.
  intros R0 Hn Hp Hm K HK S E. pose proof (place_err n p B m M r R0 Hn Hp Hm) as P. pose proof (height_err m M r k R0 Hm ltac:(lia) HK) as H. apply abs_le_inv in H. rewrite place_dot in P.
  set (d := dot3 n p) in *. clearbody d. set (o := single _) in P. unfold err in P. apply abs_le_inv in P. set (u := blur B M r) in *. assert (Eu : u * r = (B + M) / 2 ^ 19 + (1 + r) / 2 ^ 44) by (unfold u, blur; field; lra). clearbody u.
  assert (O : IZR k - 1 < o < IZR k + 1).
  { pose proof (Rabs_pos m). assert (Q : (d - m) / r * r = d - m) by (field; lra). split; apply (Rmult_lt_reg_r r); try lra; [|].
    - apply Rlt_le_trans with (((d - m) / r - u) * r); [replace (((d - m) / r - u) * r) with ((d - m) / r * r - u * r) by ring; rewrite Q, Eu; lra|apply Rmult_le_compat_r; lra].
    - apply Rle_lt_trans with (((d - m) / r + u) * r); [apply Rmult_le_compat_r; lra|replace (((d - m) / r + u) * r) with ((d - m) / r * r + u * r) by ring; rewrite Q, Eu; lra]. }
  destruct (Rlt_or_le o (IZR k)) as [L|L]; [left|right]; (apply bin_of; [lra| |lia]); fold o; apply trunc_code; try lia; unfold code_bin, in_bin.
  - rewrite minus_IZR. destruct (Z.eq_dec k 1) as [->|N]; [left; split; [reflexivity|lra]|right; split; [lia|lra]].
  - right. split; [lia|lra].
Qed.

(** ** The table of normals *)
Lemma single_normal x : / 2 ^ 126 <= Rabs x -> err (V * Rabs x) (single x) x.
Proof.
  intros H. pose proof (relative_error_N_FLT radix2 (-149) 24 ltac:(reflexivity) (fun n => negb (Z.even n)) x) as E. replace (/ 2 * bpow radix2 (- (24) + 1)) with V in E by (unfold V; cbn; lra).
  apply E. replace (bpow radix2 (-149 + 24 - 1)) with (/ 2 ^ 126); [exact H|]. cbn. lra.
Qed.

Lemma step_err c C i n : err (5 * U) c C -> 1 <= C <= 7 -> (0 <= i < n)%Z -> (n < 2 ^ 31)%Z -> err (301 / 100 * V * C) (anglef (single (fdiv c (IZR n))) i 0) (C * IZR i / IZR n).
Proof.
  intros Hc HC HI HN. unfold anglef. pose proof V_pos as V0. assert (N1 : 1 <= IZR n < 2147483648) by (split; [apply (IZR_le 1); lia|apply (IZR_lt n 2147483648); lia]). assert (I0 : 0 <= IZR i <= IZR n) by (split; [apply (IZR_le 0); lia|apply IZR_le; lia]).
  set (N := IZR n) in *. set (I := IZR i) in *. clearbody N I. assert (ES : exists s, s = C / N) by (eexists; reflexivity). destruct ES as [s ES]. assert (S0 : 1 / 2147483648 < s <= C).
  { rewrite ES. split; [apply Rlt_le_trans with (1 / N); [unfold Rdiv; apply Rmult_lt_compat_l; [lra|apply Rinv_lt_contravar; nra]|unfold Rdiv; apply Rmult_le_compat_r; [left; apply Rinv_0_lt_compat; lra|lra]]|].
    apply (Rmult_le_reg_r N); [lra|]. unfold Rdiv. rewrite Rmult_assoc, Rinv_l by lra. nra. }
  assert (Q : err (5 * U * s) (c / N) s).
  { apply (err_weaken (5 * U / N)); [rewrite ES; apply quotient_err; [lra|exact Hc]|]. rewrite ES. unfold Rdiv. rewrite <- Rmult_assoc. apply Rmult_le_compat_r; [left; apply Rinv_0_lt_compat; lra|]. assert (0 < U) by num. nra. }
  assert (T1 : err (7 * U * s) (fdiv c N) s).
  { apply (err_rnd _ _ _ s _ Q); [rewrite Rabs_right; lra|]. assert (U0 : 0 < U < 1 / 100000000000) by num. assert (US : 0 <= U * s) by (apply Rmult_le_pos; lra). assert (X1 : U * (U * s) <= 1 / 100 * (U * s)) by (apply Rmult_le_compat_r; lra). assert (X2 : U * U <= U * (s / 10)) by (apply Rmult_le_compat_l; lra). lra. }
  assert (T2 : err (1001 / 1000 * V * s) (single (fdiv c N)) s).
  { pose proof (err_bound _ s _ _ T1 ltac:(rewrite Rabs_right; lra)) as W. set (q := fdiv c N) in *. clearbody q. assert (US : 7 * U * s <= V * s / 10000000) by (assert (7 * U <= V / 10000000) by numv; nra).
    assert (QL : / 2 ^ 126 <= Rabs q).
    { unfold err in T1. apply abs_le_inv in T1. assert (VS : 0 <= V * s <= s / 10) by (split; [apply Rmult_le_pos; lra|]; apply Rle_trans with (1 / 10 * s); [apply Rmult_le_compat_r; lra|lra]). rewrite Rabs_right by lra. apply Rle_trans with (1 / 2147483648 / 2); [lra|lra]. }
    apply (err_weaken _ _ _ _ (err_trans _ _ _ _ _ (single_normal q QL) T1)). assert (V * Rabs q <= V * (s + 7 * U * s)) by (apply Rmult_le_compat_l; lra). assert (VS : 0 <= V * s) by (apply Rmult_le_pos; lra). assert (V * (7 * U * s) <= V * (V * s / 10000000)) by (apply Rmult_le_compat_l; lra). assert (V * (V * s) <= 1 / 1000 * (V * s)) by (apply Rmult_le_compat_r; lra). lra. }
  set (st := single (fdiv c N)) in *. clearbody st. pose proof (single_err I) as F. rewrite (Rabs_right I) in F by lra. set (f := single I) in *. clearbody f.
  assert (SI : 0 <= s * I <= C). { split; [apply Rmult_le_pos; lra|]. rewrite ES. apply (Rmult_le_reg_r N); [lra|]. replace (C / N * I * N) with (C * I) by (field; lra). nra. }
  assert (P : err (2003 / 1000 * V * C) (st * f) (s * I)).
  { unfold err in *. replace (st * f - s * I) with ((st - s) * I + st * (f - I)) by ring. eapply Rle_trans; [apply Rabs_triang|]. rewrite !Rabs_mult, (Rabs_right I) by lra.
    assert (Rabs st <= 1001 / 1000 * s). { replace st with ((st - s) + s) by ring. eapply Rle_trans; [apply Rabs_triang|]. rewrite (Rabs_right s) by lra. assert (V * s <= 1 / 10000 * s) by (apply Rmult_le_compat_r; lra). lra. }
    assert (A1 : Rabs (st - s) * I <= 1001 / 1000 * V * s * I) by (apply Rmult_le_compat_r; lra).
    assert (A2 : Rabs st * Rabs (f - I) <= 1001 / 1000 * s * (V * I + V * V)) by (apply Rmult_le_compat; try apply Rabs_pos; lra).
    assert (V * (s * I) <= V * C) by (apply Rmult_le_compat_l; lra). assert (V * V * s <= V / 1000000 * C) by (apply Rmult_le_compat; [numv|lra|numv|lra]). assert (0 <= V * C) by (apply Rmult_le_pos; lra). lra. }
  rewrite Rplus_0_r, (single_id (single _)) by apply single_format. replace (C * I / N) with (s * I) by (rewrite ES; field; lra).
  apply (serr_rnd _ _ _ C _ P); [rewrite Rabs_right; lra|]. assert (VV : V * V <= V / 1000000) by numv. assert (V * V * C <= V / 1000000 * C) by (apply Rmult_le_compat_r; lra). assert (V * 1 <= V * C) by (apply Rmult_le_compat_l; lra). lra.
Qed.

Lemma theta_err nt it : (0 <= it < nt)%Z -> (nt < 2 ^ 31)%Z -> err (4.8 * V) (anglef (thetaStepf nt) it 0) (PI / 2 * IZR it / IZR nt).
Proof.
  intros H H'. pose proof PI_digits as P. assert (E : err (5 * U) (fmul (1 / 2) M_PI) (PI / 2)).
  { replace (PI / 2) with (1 / 2 * PI) by field. apply (err_mul 0 (U * (2 / 1)) _ _ _ _ (1 / 2) 4); [apply err_refl; lra|apply M_PI_near|apply Rabs_le; lra|apply Rabs_le; lra|num]. }
  apply (err_weaken _ _ _ _ (step_err _ _ _ _ E ltac:(lra) H H')). pose proof V_pos. nra.
Qed.
Lemma phi_err np ip : (0 <= ip < np)%Z -> (np < 2 ^ 31)%Z -> err (19 * V) (anglef (phiStepf np) ip 0) (2 * PI * IZR ip / IZR np).
Proof.
  intros H H'. pose proof PI_digits as P. assert (E : err (5 * U) (fmul 2 M_PI) (2 * PI)).
  { apply (err_weaken (4 * U)); [|num]. unfold fmul. replace (rnd (2 * M_PI)) with (2 * M_PI). - destruct M_PI_near as [N _]. unfold err in *. replace (2 * M_PI - 2 * PI) with (2 * (M_PI - PI)) by ring. rewrite Rabs_mult, (Rabs_right 2) by lra. lra.
    - symmetry. rewrite M_PI_value. replace (2 * (IZR 7074237752028440 * bpow radix2 (-51))) with (IZR 7074237752028440 * bpow radix2 (-50)) by (cbn; lra). apply rnd_id. apply format_scaled; lia. }
  apply (err_weaken _ _ _ _ (step_err _ _ _ _ E ltac:(lra) H H')). pose proof V_pos. nra.
Qed.
Lemma normal_near wide sinf cosf theta phi t f : accurate sinf sin -> accurate cosf cos -> err (5 * V) t theta -> err (19 * V) f phi ->
  close3 (/ 2 ^ 19) (normalf wide sinf cosf t f) (direction theta phi).
Proof.
  intros Hs Hc HT HP. pose proof V_pos as V0. unfold normalf, direction, close3. pose proof (COS_bound theta). pose proof (SIN_bound theta). pose proof (COS_bound phi). pose proof (SIN_bound phi).
  pose proof (lib_err cosf cos _ _ _ Hc cos_lip HT) as C. pose proof (lib_err sinf sin _ _ _ Hs sin_lip' HT) as S. pose proof (lib_err cosf cos _ _ _ Hc cos_lip HP) as CP. pose proof (lib_err sinf sin _ _ _ Hs sin_lip' HP) as SP.
  assert (C' : err (7.1 * V) (single (cosf t)) (cos theta)) by (apply (serr_rnd _ _ _ 1 _ C); [apply Rabs_le; lra|numv]).
  assert (S' : err (7.1 * V) (single (sinf t)) (sin theta)) by (apply (serr_rnd _ _ _ 1 _ S); [apply Rabs_le; lra|numv]).
  eassert (X : err (29 * V) _ _) by (apply (werr_mul wide _ _ _ _ _ _ 1 1 _ C' CP); [apply Rabs_le; lra|apply Rabs_le; lra|numv]).
  eassert (Y : err (29 * V) _ _) by (apply (werr_mul wide _ _ _ _ _ _ 1 1 _ C' SP); [apply Rabs_le; lra|apply Rabs_le; lra|numv]).
  assert (XB : Rabs (cos theta * cos phi) <= 1) by (apply Rabs_le; nra). assert (YB : Rabs (cos theta * sin phi) <= 1) by (apply Rabs_le; nra).
  replace (/ 2 ^ 19) with (32 * V) by (unfold V; lra). split; [|split].
  - apply (serr_rnd _ _ _ 1 _ X); [exact XB|numv].
  - apply (serr_rnd _ _ _ 1 _ Y); [exact YB|numv].
  - apply (err_weaken _ _ _ _ S'). lra.
Qed.
Lemma near_unit e n u : 0 <= e <= 1 / 1000 -> close3 e n u -> unit3 u -> within3 (1 + 1 / 1000) n /\ let '(a, b, c) := n in Rabs (a * a + b * b + c * c - 1) <= 7 * e.
Proof.
  destruct n as [[a b] c], u as [[x y] z]. intros E (A & B & C) U. unfold unit3 in U. cbn in A, B, C. assert (X : -1 <= x <= 1) by nra. assert (Y : -1 <= y <= 1) by nra. assert (Z : -1 <= z <= 1) by nra.
  apply abs_le_inv in A, B, C. split; [repeat split; apply Rabs_le; lra|].
  assert (Q : forall s t, -1 <= t <= 1 -> - e <= s - t <= e -> - (2 * e + e * e) <= s * s - t * t <= 2 * e + e * e) by (intros s t T D; nra).
  pose proof (Q a x X A). pose proof (Q b y Y B). pose proof (Q c z Z C). apply Rabs_le. nra.
Qed.
Lemma direction_unit theta phi : unit3 (direction theta phi).
Proof. unfold unit3, direction. pose proof (sin2_cos2 theta) as A. pose proof (sin2_cos2 phi) as B. unfold Rsqr in *. nra. Qed.

(** ** A point of a reported plane that votes for the bin below *)
Definition seventh : R := 9586981 / 67108864.
Lemma seventh_float : single (1 / 7) = seventh.
Proof. replace seventh with (IZR 9586981 * bpow radix2 (-26)) by (unfold seventh; cbn; lra). apply single_near; [lia| |]; cbn; [rewrite Rabs_right; lra|apply Rabs_def1; lra]. Qed.
Lemma seventh_plane : heightf 0 seventh 7 = -1.
Proof.
  unfold heightf. rewrite (single_whole 7) by lia. assert (E : single (seventh * 7) = 1).
  { replace 1 with (IZR 8388608 * bpow radix2 (-23)) by (cbn; lra). apply single_near; [lia| |]; unfold seventh; cbn; [rewrite Rabs_right; lra|apply Rabs_def1; lra]. }
  rewrite E, Rplus_0_r, (single_whole 1) by lia. reflexivity.
Qed.
Lemma seventh_bin : binf 0 seventh 1 = Ret 6%Z.
Proof.
  apply bin_of; [unfold seventh; lra| |lia]. rewrite Rminus_0_r, (single_whole 1) by lia. assert (E : single (1 / seventh) = IZR 14680063 * bpow radix2 (-21)).
  { apply single_near; [lia| |]; unfold seventh; cbn; [rewrite Rabs_right; lra|apply Rabs_def1; lra]. }
  rewrite E. apply trunc_code; [lia|]. right. split; [lia|]. unfold in_bin. cbn. lra.
Qed.
Lemma axis_normal wide sinf cosf : accurate sinf sin -> accurate cosf cos -> normalf wide sinf cosf 0 0 = (1, 0, 0).
Proof.
  intros [_ S] [_ C]. unfold normalf, wmul. rewrite S, C, sin_0, cos_0. rewrite (single_whole 1) by lia. rewrite (Rmult_1_l 1). rewrite single_0. destruct wide; unfold fmul.
  - rewrite Rmult_1_l, Rmult_0_r, (rnd_id 1) by (apply (format_int 1); lia). rewrite rnd_0, single_0, (single_whole 1) by lia. reflexivity.
  - rewrite Rmult_0_r, single_0, !(single_whole 1) by lia. rewrite single_0. reflexivity.
Qed.
Lemma axis_rho : rhof (1, 0, 0) (1, 0, 0) = 1.
Proof. unfold rhof. rewrite Rmult_1_l, Rmult_0_l, single_0, !Rplus_0_r, !(single_whole 1) by lia. reflexivity. Qed.
Lemma table_within wide sinf cosf t f : accurate sinf sin -> accurate cosf cos -> within3 (1 + 1 / 1000) (normalf wide sinf cosf t f).
Proof.
  intros Hs Hc. pose proof V_pos as V0. assert (E : forall x w, 0 <= w -> err w x x) by (intros x w H; unfold err; rewrite Rminus_diag_eq, Rabs_R0 by reflexivity; exact H).
  pose proof (normal_near wide sinf cosf t f t f Hs Hc (E t (5 * V) ltac:(lra)) (E f (19 * V) ltac:(lra))) as N. apply (near_unit (/ 2 ^ 19) _ _ ltac:(lra) N (direction_unit t f)).
Qed.
Lemma start_err n r : 0 <= r -> (0 <= n)%Z -> Rabs (rhoStartf n r - (- (IZR (n ÷ 2) * r))) <= 3 * V * (IZR (n ÷ 2) * r) + 2 * (V * V) * (1 + r).
Proof.
  intros R0 N0. unfold rhoStartf. assert (K0 : 0 <= IZR (n ÷ 2)) by (apply (IZR_le 0), Z.quot_pos; lia). rewrite opp_IZR, single_opp. set (k := IZR (n ÷ 2)) in *. clearbody k. pose proof V_pos as V0.
  replace (- single k * r) with (- (single k * r)) by ring. rewrite single_opp. replace (- single (single k * r) - - (k * r)) with (- (single (single k * r) - k * r)) by ring. rewrite Rabs_Ropp.
  pose proof (single_err k) as E. rewrite (Rabs_right k) in E by lra. set (f := single k) in *. clearbody f. set (q := k * r). assert (Q0 : 0 <= q) by (apply Rmult_le_pos; lra). assert (VQ : 0 <= V * q) by (apply Rmult_le_pos; lra).
  assert (VVr : 0 <= V * V * r) by (apply Rmult_le_pos; [numv|lra]). assert (VVQ : V * (V * q) <= 1 / 1000 * (V * q)) by (apply Rmult_le_compat_r; lra). assert (VVVr : V * (V * V * r) <= 1 / 1000 * (V * V * r)) by (apply Rmult_le_compat_r; lra).
  assert (P : err (V * q + V * V * r) (f * r) q).
  { unfold err, q. replace (f * r - k * r) with ((f - k) * r) by ring. rewrite Rabs_mult, (Rabs_right r) by lra. apply Rle_trans with ((V * k + V * V) * r); [apply Rmult_le_compat_r; lra|lra]. }
  apply (serr_rnd _ _ _ q _ P); [rewrite Rabs_right; lra|]. assert (0 < V * V) by numv. lra.
Qed.

Lemma no_resolution rhoMin rho : binf rhoMin 0 rho = UB.
Proof. unfold binf. destruct (Req_EM_T 0 0); [reflexivity|contradiction]. Qed.
