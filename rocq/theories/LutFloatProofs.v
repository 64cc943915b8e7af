(** * Proofs about the table lookup in double arithmetic. *)
From Coq Require Import List Reals ZArith Arith Lra Lia Bool.
From Flocq Require Import Core Relative Plus_error.
From Verif Require Import Base BaseLemmas FunctionsModel FunctionsSpec FunctionsProofs PnebiModel PnebiSpec PnebiProofs DoubleModel DoubleSpec DoubleProofs LutFloatModel LutFloatSpec.
Import ListNotations.
Open Scope R_scope.
#[local] Existing Instance prec53.
#[local] Instance fexp_valid : Valid_exp fexp := FLT_exp_valid (-1074) 53.

Notation fmt := (generic_format radix2 fexp).
Lemma rnd_1 : rnd 1 = 1. Proof. apply rnd_id. apply (format_int 1). lia. Qed.

(** Differences of doubles have a relative error. *)
Lemma sub_rel x y : fmt x -> fmt y -> exists e, Rabs e <= U /\ fsub x y = (x - y) * (1 + e).
Proof.
  intros Fx Fy. destruct (FLT_plus_error_N_ex radix2 (-1074) 53 (fun n => negb (Z.even n)) x (- y)) as [e [He E]].
  - exact Fx.
  - apply generic_format_opp. exact Fy.
  - exists e. split; [|exact E]. eapply Rle_trans; [exact He|]. unfold u_ro. replace (/ 2 * bpow radix2 (- (53) + 1)) with U by (rewrite U_bpow; reflexivity).
    unfold U. apply Rmult_le_reg_r with (1 + / 9007199254740992); [lra|]. unfold Rdiv. rewrite Rmult_assoc, Rinv_l by lra. lra.
Qed.

Lemma weight_ok lx ux X : fmt lx -> fmt ux -> fmt X -> lx <= X < ux ->
  0 <= weightf lx ux X <= 1 /\ Rabs (weightf lx ux X - (X - lx) / (ux - lx)) <= 4 * U.
Proof.
  intros Fl Fu FX H. unfold weightf, fdiv.
  destruct (sub_rel X lx FX Fl) as [e1 [B1 E1]]. destruct (sub_rel ux lx Fu Fl) as [e2 [B2 E2]].
  apply abs_le_inv in B1, B2. assert (Us : 0 < U < / 1000000) by (unfold U; lra).
  assert (N : 0 <= fsub X lx). { unfold fsub. rewrite <- rnd_0. apply rnd_le. lra. }
  assert (L : fsub X lx <= fsub ux lx). { unfold fsub. apply rnd_le. lra. }
  assert (D : 0 < fsub ux lx). { rewrite E2. apply Rmult_lt_0_compat; lra. }
  set (n := fsub X lx) in *. set (d := fsub ux lx) in *.
  assert (Q : 0 <= n / d <= 1).
  { split; [apply Rmult_le_pos; [exact N|left; apply Rinv_0_lt_compat; exact D]|]. apply Rmult_le_reg_r with d; [exact D|]. unfold Rdiv. rewrite Rmult_assoc, Rinv_l by lra. lra. }
  split; [split; [rewrite <- rnd_0; apply rnd_le; lra|rewrite <- rnd_1; apply rnd_le; lra]|].
  set (w0 := (X - lx) / (ux - lx)).
  assert (W : 0 <= w0 <= 1).
  { unfold w0. split; [apply Rmult_le_pos; [lra|left; apply Rinv_0_lt_compat; lra]|]. apply Rmult_le_reg_r with (ux - lx); [lra|]. unfold Rdiv. rewrite Rmult_assoc, Rinv_l by lra. lra. }
  assert (E : n / d - w0 = w0 * ((e1 - e2) / (1 + e2))). { unfold w0. rewrite E1, E2. field. lra. }
  assert (B : Rabs (n / d - w0) <= 5 / 2 * U).
  { rewrite E, Rabs_mult, (Rabs_right w0) by lra. apply Rle_trans with (1 * Rabs ((e1 - e2) / (1 + e2))); [apply Rmult_le_compat_r; [apply Rabs_pos|lra]|]. rewrite Rmult_1_l.
    unfold Rdiv. rewrite Rabs_mult, (Rabs_right (/ (1 + e2))) by (left; apply Rinv_0_lt_compat; lra).
    apply Rmult_le_reg_r with (1 + e2); [lra|]. rewrite Rmult_assoc, Rinv_l, Rmult_1_r by lra.
    apply Rabs_le. assert (9 / 10 <= 1 + e2) by lra. split; [|]; assert (5 * / 2 * U * (9 / 10) <= 5 * / 2 * U * (1 + e2)) by (apply Rmult_le_compat_l; lra); lra. }
  pose proof (rnd_err (n / d)) as R. rewrite (Rabs_right (n / d)) in R by lra.
  assert (U * (n / d) <= U * 1) by (apply Rmult_le_compat_l; lra). assert (U * U <= U * / 1000000) by (apply Rmult_le_compat_l; lra).
  apply abs_le_inv in R, B. apply Rabs_le. lra.
Qed.

Lemma interp_err w a b M : 0 <= w <= 1 -> Rabs a <= M -> Rabs b <= M ->
  Rabs (interpf w a b - ((1 - w) * a + w * b)) <= 4 * U * M + 4 * (U * U).
Proof.
  intros W A B. unfold interpf, fadd, fmul, fsub. assert (M0 : 0 <= M) by (pose proof (Rabs_pos a); lra).
  set (q := rnd (1 - w)).
  assert (Q : 0 <= q <= 1). { unfold q. split; [rewrite <- rnd_0; apply rnd_le; lra|rewrite <- rnd_1 at 2; apply rnd_le; lra]. }
  pose proof (rnd_err (1 - w)) as E1. fold q in E1. rewrite (Rabs_right (1 - w)) in E1 by lra.
  pose proof (rnd_err (q * a)) as E2. pose proof (rnd_err (w * b)) as E3.
  set (p := rnd (q * a)) in *. set (r := rnd (w * b)) in *. pose proof (rnd_err (p + r)) as E4. set (v := rnd (p + r)) in *.
  rewrite (Rabs_mult q a), (Rabs_right q) in E2 by lra. rewrite (Rabs_mult w b), (Rabs_right w) in E3 by lra.
  assert (QA : q * Rabs a <= q * M) by (apply Rmult_le_compat_l; lra).
  assert (WB : w * Rabs b <= w * M) by (apply Rmult_le_compat_l; lra).
  assert (Us : 0 < U < / 1000000) by (unfold U; lra). assert (UU : 0 <= U * U <= U * / 1000000) by (split; [nra|apply Rmult_le_compat_l; lra]).
  assert (E1' : Rabs (q - (1 - w)) <= U * (1 + / 1000000)). { assert (U * (1 - w) <= U * 1) by (apply Rmult_le_compat_l; lra). lra. }
  assert (S1 : q + w <= 1 + / 1000). { apply abs_le_inv in E1'. lra. }
  assert (D1 : Rabs ((q - (1 - w)) * a) <= U * (1 + / 1000000) * M).
  { rewrite Rabs_mult. apply Rmult_le_compat; try apply Rabs_pos; assumption. }
  assert (P : Rabs p <= q * M + U * (q * M) + U * U).
  { assert (U * (q * Rabs a) <= U * (q * M)) by (apply Rmult_le_compat_l; lra).
    assert (T := Rabs_triang (q * a) (p - q * a)). replace (q * a + (p - q * a)) with p in T by ring. rewrite (Rabs_mult q a), (Rabs_right q) in T by lra. lra. }
  assert (R : Rabs r <= w * M + U * (w * M) + U * U).
  { assert (U * (w * Rabs b) <= U * (w * M)) by (apply Rmult_le_compat_l; lra).
    assert (T := Rabs_triang (w * b) (r - w * b)). replace (w * b + (r - w * b)) with r in T by ring. rewrite (Rabs_mult w b), (Rabs_right w) in T by lra. lra. }
  set (s := (q + w) * M).
  assert (S : 0 <= s <= (1 + / 1000) * M) by (unfold s; split; [apply Rmult_le_pos; lra|apply Rmult_le_compat_r; lra]).
  assert (PR : Rabs (p + r) <= s + U * s + 2 * (U * U)).
  { assert (T := Rabs_triang p r). unfold s. lra. }
  assert (E2' : Rabs (p - q * a) + Rabs (r - w * b) <= U * s + 2 * (U * U)).
  { assert (U * (q * Rabs a) <= U * (q * M)) by (apply Rmult_le_compat_l; lra). assert (U * (w * Rabs b) <= U * (w * M)) by (apply Rmult_le_compat_l; lra). unfold s. lra. }
  assert (E4' : Rabs (v - (p + r)) <= U * (s + U * s + 2 * (U * U)) + U * U).
  { assert (U * Rabs (p + r) <= U * (s + U * s + 2 * (U * U))) by (apply Rmult_le_compat_l; lra). lra. }
  replace (v - ((1 - w) * a + w * b)) with ((v - (p + r)) + ((p - q * a) + (r - w * b)) + (q - (1 - w)) * a) by ring.
  assert (T1 := Rabs_triang ((v - (p + r)) + ((p - q * a) + (r - w * b))) ((q - (1 - w)) * a)).
  assert (T2 := Rabs_triang (v - (p + r)) ((p - q * a) + (r - w * b))).
  assert (T3 := Rabs_triang (p - q * a) (r - w * b)).
  assert (X1 : U * s <= U * ((1 + / 1000) * M)) by (apply Rmult_le_compat_l; lra).
  assert (X2 : U * (U * s) <= / 1000000 * (U * s)) by (apply Rmult_le_compat_r; [apply Rmult_le_pos; lra|lra]).
  assert (X3 : U * (U * U) <= / 1000000 * (U * U)) by (apply Rmult_le_compat_r; lra).
  assert (X4 : 0 <= U * M) by (apply Rmult_le_pos; lra).
  lra.
Qed.

Lemma between_mix w a b : 0 <= w <= 1 -> Rmin a b <= (1 - w) * a + w * b <= Rmax a b.
Proof.
  intros W. destruct (Rle_or_lt a b) as [L|L].
  - rewrite Rmin_left, Rmax_right by lra. nra.
  - rewrite Rmin_right, Rmax_left by lra. nra.
Qed.

(** The value of order k at X >= 0. *)
Definition looked_upf (t : list node) (k : nat) (X v : R) : Prop :=
  exists i lo, nth_error t i = Some lo /\ fst lo <= X /\
    match nth_error t (S i) with
    | None => v = at_ (snd lo) k
    | Some up => X < fst up /\ v = interpf (weightf (fst lo) (fst up) X) (at_ (snd lo) k) (at_ (snd up) k)
    end.
Lemma evalf_looked t k x : is_table (nodes t) (orderMax t) -> (0 <= k < Z.of_nat (orderMax t))%Z ->
  exists v, evalf t k x = Ret v /\ looked_upf (nodes t) (Z.to_nat k) (Rabs x) v.
Proof.
  intros HT Hk. destruct (ub_node _ _ (Rabs x) HT (Rabs_pos x)) as (i & lo & EU & El & Hlo & Llo & Hup).
  unfold evalf. destruct (nodes t) as [|p r] eqn:EN; [destruct i; discriminate El|]. rewrite <- EN in *. rewrite abs_if.
  replace ((0 <=? k)%Z && (k <? Z.of_nat (orderMax t))%Z)%bool with true by (symmetry; apply andb_true_iff; split; [apply Z.leb_le|apply Z.ltb_lt]; lia).
  rewrite EU. assert (VL : vread (nodes t) i = Ret lo) by (now apply vread_Ret). rewrite VL. cbn [obind]. destruct lo as [lx ly]. cbn [fst snd] in *.
  assert (Va : vread ly (Z.to_nat k) = Ret (at_ ly (Z.to_nat k))) by (apply vread_Ret, at_nth; lia). rewrite Va. cbn [obind].
  destruct (nth_error (nodes t) (S i)) as [[ux uy]|] eqn:Eu.
  - destruct (Hup _ eq_refl) as [Hx Lu]. cbn [fst snd] in *. assert (Vb : vread uy (Z.to_nat k) = Ret (at_ uy (Z.to_nat k))) by (apply vread_Ret, at_nth; lia). rewrite Vb. cbn [obind].
    eexists. split; [reflexivity|]. exists i, (lx, ly). split; [exact El|]. split; [exact Hlo|]. rewrite Eu. cbn [fst snd]. auto.
  - eexists. split; [reflexivity|]. exists i, (lx, ly). split; [exact El|]. split; [exact Hlo|]. rewrite Eu. reflexivity.
Qed.
Lemma mixf_ok w a b : forall y, length a = length b -> (length a <= length y)%nat -> length (mixf w a b y) = length y /\
  (forall k, (k < length a)%nat -> at_ (mixf w a b y) k = interpf w (at_ a k) (at_ b k)) /\ (forall k, (length a <= k)%nat -> at_ (mixf w a b y) k = at_ y k).
Proof.
  revert b. induction a as [|p a IH]; intros [|q b] [|z y] H1 H2; cbn [length] in *; try lia; cbn [mixf length].
  - split; [reflexivity|]. split; [intros k Hk; lia|reflexivity].
  - split; [reflexivity|]. split; [intros k Hk; lia|reflexivity].
  - destruct (IH b y) as (I1 & I2 & I3); [lia|lia|]. split; [lia|]. split; intros [|k] Hk; try lia; [reflexivity|apply I2; lia|apply I3; lia].
Qed.
Lemma evalAllf_looked t x y0 : is_table (nodes t) (orderMax t) ->
  exists y, evalAllf t x y0 = Ret y /\ length y = Nat.max (length y0) (orderMax t + 1) /\
    (forall k, (k <= orderMax t)%nat -> looked_upf (nodes t) k (Rabs x) (at_ y k)) /\ (forall k, (orderMax t < k)%nat -> at_ y k = at_ y0 k).
Proof.
  intros HT. destruct (ub_node _ _ (Rabs x) HT (Rabs_pos x)) as (i & lo & EU & El & Hlo & Llo & Hup).
  unfold evalAllf. destruct (nodes t) as [|p r] eqn:EN; [destruct i; discriminate El|]. rewrite <- EN in *. rewrite abs_if. fold (grown y0 (orderMax t + 1)).
  pose proof (grown_length y0 (orderMax t + 1)) as LG. pose proof (at_grown y0 (orderMax t + 1)) as AG. set (g := grown y0 (orderMax t + 1)) in *.
  rewrite EU. assert (VL : vread (nodes t) i = Ret lo) by (now apply vread_Ret). rewrite VL. cbn [obind]. destruct lo as [lx ly]. cbn [fst snd] in *.
  destruct (nth_error (nodes t) (S i)) as [[ux uy]|] eqn:Eu.
  - destruct (Hup _ eq_refl) as [Hx Lu]. cbn [fst snd] in *. destruct (mixf_ok (weightf lx ux (Rabs x)) ly uy g) as (M1 & M2 & M3); [lia|lia|]. eexists. split; [reflexivity|]. split; [lia|]. split.
    + intros k Hk. exists i, (lx, ly). split; [exact El|]. split; [exact Hlo|]. rewrite Eu. cbn [fst snd]. split; [exact Hx|]. apply M2. lia.
    + intros k Hk. rewrite M3 by lia. apply AG.
  - destruct (copy_ok ly g ltac:(lia)) as (r' & E & L & A & B). rewrite E. eexists. split; [reflexivity|]. split; [lia|]. split.
    + intros k Hk. exists i, (lx, ly). split; [exact El|]. split; [exact Hlo|]. rewrite Eu. apply A. cbn [snd]. lia.
    + intros k Hk. rewrite B by lia. apply AG.
Qed.
(** The segment found is the one that holds X. *)
Lemma segment_unique t n k X v i a : is_table t n -> looked_upf t k X v -> nth_error t i = Some a -> fst a <= X ->
  (forall b, nth_error t (S i) = Some b -> X < fst b) ->
  match nth_error t (S i) with
  | None => v = at_ (snd a) k
  | Some b => v = interpf (weightf (fst a) (fst b) X) (at_ (snd a) k) (at_ (snd b) k)
  end.
Proof.
  intros HT (j & lo & E & H & M) Ea Ha Hb.
  assert (i = j) as <-.
  { destruct (Nat.lt_total i j) as [L|[->|L]]; [|reflexivity|].
    - exfalso. destruct (nth_error_ex t (S i)) as (c & Ec); [apply nth_error_lt in E; lia|]. specialize (Hb c Ec). destruct (Nat.eq_dec (S i) j) as [<-|]; [rewrite Ec in E; injection E as <-; lra|].
      pose proof (table_inc t n HT (S i) j c lo ltac:(lia) Ec E). lra.
    - exfalso. destruct (nth_error_ex t (S j)) as (c & Ec); [apply nth_error_lt in Ea; lia|]. rewrite Ec in M. destruct M as [M _]. destruct (Nat.eq_dec (S j) i) as [<-|]; [rewrite Ec in Ea; injection Ea as <-; lra|].
      pose proof (table_inc t n HT (S j) i c a ltac:(lia) Ec Ea). lra. }
  rewrite E in Ea. injection Ea as <-. destruct (nth_error t (S i)); [apply M|exact M].
Qed.
Lemma at_double y k : Forall is_double y -> fmt (at_ y k).
Proof.
  intros F. unfold at_. destruct (nth_in_or_default k y 0) as [I|E]; [|rewrite E; apply format_0].
  apply double_format. rewrite Forall_forall in F. exact (F _ I).
Qed.
Lemma interp_0 lx ux a b : fmt a -> interpf (weightf lx ux lx) a b = a.
Proof.
  intros Fa. unfold interpf, weightf, fdiv, fsub, fmul, fadd. replace (lx - lx) with 0 by ring. rewrite rnd_0. unfold Rdiv. rewrite Rmult_0_l, rnd_0.
  rewrite Rminus_0_r, rnd_1, Rmult_1_l, Rmult_0_l, rnd_0, Rplus_0_r. rewrite !(rnd_id a Fa). reflexivity.
Qed.

(** ** Properties *)
Lemma nodes_core t n k X v i a : is_table t n -> double_table t -> looked_upf t k X v -> nth_error t i = Some a ->
  X = fst a \/ (fst a <= X /\ length t = S i) -> v = at_ (snd a) k.
Proof.
  intros HT HD Lv Ea Hx. assert (G : fst a <= X) by (destruct Hx as [->|[G _]]; lra).
  assert (Hb : forall b, nth_error t (S i) = Some b -> X < fst b).
  { intros b Eb. destruct Hx as [->|[_ L]]; [exact (table_inc _ _ HT i (S i) a b ltac:(lia) Ea Eb)|]. apply nth_error_lt in Eb. lia. }
  pose proof (segment_unique _ _ _ _ _ i a HT Lv Ea G Hb) as S. destruct (nth_error t (Datatypes.S i)) as [b|] eqn:Eb; [|exact S].
  destruct Hx as [Hx|[_ L]]; [|apply nth_error_lt in Eb; lia]. rewrite S, Hx. apply interp_0. apply at_double. apply (HD i a Ea).
Qed.
Lemma nodes_lemma t k x i a : is_table (nodes t) (orderMax t) -> double_table (nodes t) -> (0 <= k < Z.of_nat (orderMax t))%Z ->
  nth_error (nodes t) i = Some a -> Rabs x = fst a \/ (fst a <= Rabs x /\ length (nodes t) = S i) ->
  evalf t k x = Ret (at_ (snd a) (Z.to_nat k)).
Proof.
  intros HT HD Hk Ea Hx. destruct (evalf_looked t k x HT Hk) as (v & Ev & Lv). rewrite Ev. f_equal. exact (nodes_core _ _ _ _ _ i a HT HD Lv Ea Hx).
Qed.
Lemma even_lemma t k x : evalf t k (- x) = evalf t k x.
Proof. unfold evalf. rewrite !abs_if, Rabs_Ropp. reflexivity. Qed.
Lemma powers : powerRZ 2 (-53) = U /\ powerRZ 2 (-106) = U * U.
Proof. split; rewrite <- (bpow_powerRZ radix2); unfold U; cbn; lra. Qed.
Lemma segment_core t n k X v i a b : is_table t n -> double_table t -> fmt X -> looked_upf t k X v ->
  nth_error t i = Some a -> nth_error t (S i) = Some b -> fst a <= X < fst b ->
  let p := at_ (snd a) k in let q := at_ (snd b) k in
  exists V, on_line (fst a) p (fst b) q X V /\
    Rabs (v - V) <= 12 * powerRZ 2 (-53) * size2 p q + 4 * powerRZ 2 (-106) /\
    Rmin p q - (4 * powerRZ 2 (-53) * size2 p q + 4 * powerRZ 2 (-106)) <= v <= Rmax p q + (4 * powerRZ 2 (-53) * size2 p q + 4 * powerRZ 2 (-106)).
Proof.
  intros HT HD FX Lv Ea Eb Hx p q.
  pose proof (segment_unique _ _ _ _ _ i a HT Lv Ea ltac:(lra) ltac:(intros b' Eb'; rewrite Eb in Eb'; injection Eb' as <-; lra)) as S. rewrite Eb in S. fold p q in S.
  destruct (weight_ok (fst a) (fst b) X) as [W E]; [apply double_format, (HD i a Ea)|apply double_format, (HD _ b Eb)|exact FX|exact Hx|].
  destruct powers as [-> ->]. set (w := weightf (fst a) (fst b) X) in *. set (w0 := (X - fst a) / (fst b - fst a)) in *. set (M := size2 p q).
  assert (Bp : Rabs p <= M) by apply Rmax_l. assert (Bq : Rabs q <= M) by apply Rmax_r.
  pose proof (interp_err w p q M W Bp Bq) as I. rewrite <- S in I.
  exists ((1 - w0) * p + w0 * q). split; [unfold on_line, w0; field; lra|]. split.
  - replace (v - ((1 - w0) * p + w0 * q)) with ((v - ((1 - w) * p + w * q)) + (w - w0) * (q - p)) by ring.
    assert (T := Rabs_triang (v - ((1 - w) * p + w * q)) ((w - w0) * (q - p))). rewrite (Rabs_mult (w - w0)) in T.
    assert (Q : Rabs (q - p) <= 2 * M). { assert (T2 := Rabs_triang q (- p)). rewrite Rabs_Ropp in T2. unfold Rminus. lra. }
    assert (Rabs (w - w0) * Rabs (q - p) <= 4 * U * (2 * M)) by (apply Rmult_le_compat; try apply Rabs_pos; assumption). lra.
  - pose proof (between_mix w p q W). apply abs_le_inv in I. lra.
Qed.
Lemma segment_lemma t k x i a b : is_table (nodes t) (orderMax t) -> double_table (nodes t) -> is_double x -> (0 <= k < Z.of_nat (orderMax t))%Z ->
  nth_error (nodes t) i = Some a -> nth_error (nodes t) (S i) = Some b -> fst a <= Rabs x < fst b ->
  let p := at_ (snd a) (Z.to_nat k) in let q := at_ (snd b) (Z.to_nat k) in
  exists v V, evalf t k x = Ret v /\ on_line (fst a) p (fst b) q (Rabs x) V /\
    Rabs (v - V) <= 12 * powerRZ 2 (-53) * size2 p q + 4 * powerRZ 2 (-106) /\
    Rmin p q - (4 * powerRZ 2 (-53) * size2 p q + 4 * powerRZ 2 (-106)) <= v <= Rmax p q + (4 * powerRZ 2 (-53) * size2 p q + 4 * powerRZ 2 (-106)).
Proof.
  intros HT HD Dx Hk Ea Eb Hx p q. destruct (evalf_looked t k x HT Hk) as (v & Ev & Lv).
  assert (FX : fmt (Rabs x)) by (apply generic_format_abs, double_format, Dx).
  destruct (segment_core _ _ _ _ _ i a b HT HD FX Lv Ea Eb Hx) as (V & H). exists v, V. split; [exact Ev|exact H].
Qed.
Lemma agree_lemma t x y0 : is_table (nodes t) (orderMax t) -> exists y, evalAllf t x y0 = Ret y /\ length y = Nat.max (length y0) (orderMax t + 1) /\
  (forall k, (k < orderMax t)%nat -> evalf t (Z.of_nat k) x = Ret (at_ y k)) /\ (forall k, (orderMax t < k)%nat -> at_ y k = at_ y0 k) /\
  (double_table (nodes t) -> forall k i a, (k <= orderMax t)%nat -> nth_error (nodes t) i = Some a ->
     (Rabs x = fst a \/ (fst a <= Rabs x /\ length (nodes t) = S i) -> at_ y k = at_ (snd a) k) /\
     (forall b, is_double x -> nth_error (nodes t) (S i) = Some b -> fst a <= Rabs x < fst b ->
        exists V, on_line (fst a) (at_ (snd a) k) (fst b) (at_ (snd b) k) (Rabs x) V /\
          Rabs (at_ y k - V) <= 12 * powerRZ 2 (-53) * size2 (at_ (snd a) k) (at_ (snd b) k) + 4 * powerRZ 2 (-106))).
Proof.
  intros HT. destruct (evalAllf_looked t x y0 HT) as (y & E & L & A & B). exists y. split; [exact E|]. split; [exact L|]. split; [|split; [exact B|]].
  - intros k Hk. destruct (evalf_looked t (Z.of_nat k) x HT ltac:(lia)) as (v & Ev & Lv). rewrite Ev. rewrite Nat2Z.id in Lv. f_equal.
    destruct (A k ltac:(lia)) as (i & lo & El & Hlo & M).
    assert (Hb : forall b, nth_error (nodes t) (S i) = Some b -> Rabs x < fst b) by (intros b Eb; rewrite Eb in M; apply M).
    pose proof (segment_unique _ _ _ _ _ i lo HT Lv El Hlo Hb) as S. destruct (nth_error (nodes t) (Datatypes.S i)) as [b|]; [destruct M as [_ M]|]; congruence.
  - intros HD k i a Hk Ea. split.
    + intros Hx. exact (nodes_core _ _ _ _ _ i a HT HD (A k Hk) Ea Hx).
    + intros b Dx Eb Hx. assert (FX : fmt (Rabs x)) by (apply generic_format_abs, double_format, Dx).
      destruct (segment_core _ _ _ _ _ i a b HT HD FX (A k Hk) Ea Eb Hx) as (V & H1 & H2 & _). exists V. split; assumption.
Qed.

(** ** A value outside *)
Definition WA : R := 9007199254740985 / 9007199254740992.
Lemma WA_eq : WA = IZR 9007199254740985 * bpow radix2 (-53).
Proof. unfold WA. cbn. lra. Qed.
Lemma wit_p : rnd (5 / 8 * WA) = 5629499534213116 / 9007199254740992.
Proof.
  rewrite (rnd_near (5 / 8 * WA) 5629499534213116 (-53)); [cbn; lra|lia| |].
  - unfold WA. rewrite Rabs_right by lra. cbn. lra.
  - unfold WA. apply Rabs_def1; cbn; lra.
Qed.
Lemma wit_r : rnd (3 / 8 * WA) = 6755399441055739 / 18014398509481984.
Proof.
  rewrite (rnd_near (3 / 8 * WA) 6755399441055739 (-54)); [cbn; lra|lia| |].
  - unfold WA. rewrite Rabs_right by lra. cbn. lra.
  - unfold WA. apply Rabs_def1; cbn; lra.
Qed.
Lemma rnd_tie y m e : (-1074 <= e)%Z -> bpow radix2 (52 + e) <= Rabs y < bpow radix2 (53 + e) -> y * bpow radix2 (- e) = IZR m + / 2 -> Z.odd m = true ->
  rnd y = IZR (m + 1) * bpow radix2 e.
Proof.
  intros E B N O. unfold rnd, round, F2R, scaled_mantissa. cbn [Fnum Fexp].
  assert (M : mag radix2 y = (53 + e)%Z :> Z). { apply mag_unique. replace (53 + e - 1)%Z with (52 + e)%Z by lia. exact B. }
  assert (C : cexp radix2 (FLT_exp (-1074) 53) y = e). { unfold cexp, FLT_exp. rewrite M. lia. }
  rewrite C, N. f_equal. f_equal. unfold Znearest.
  assert (F : Zfloor (IZR m + / 2) = m). { apply Zfloor_imp. rewrite plus_IZR. lra. }
  rewrite F. rewrite Rcompare_Eq by lra. rewrite <- Z.negb_odd, O. cbn [negb]. apply Zceil_imp. rewrite plus_IZR. replace (m + 1 - 1)%Z with m by lia. lra.
Qed.
Lemma wit_s : rnd (5629499534213116 / 9007199254740992 + 6755399441055739 / 18014398509481984) = 9007199254740986 / 9007199254740992.
Proof.
  rewrite (rnd_tie _ 9007199254740985 (-53)); [cbn; lra|lia| | |reflexivity].
  - rewrite Rabs_right by lra. cbn. lra.
  - cbn. lra.
Qed.
Lemma dyadic m e : (Z.abs m < 2 ^ 53)%Z -> (-1074 <= e <= 971)%Z -> is_double (IZR m * powerRZ 2 e).
Proof. intros A B. exists m, e. auto. Qed.
Lemma wit_interp : interpf (weightf 0 1 (3 / 8)) WA WA = 9007199254740986 / 9007199254740992.
Proof.
  assert (W : weightf 0 1 (3 / 8) = 3 / 8).
  { unfold weightf, fdiv, fsub. rewrite !Rminus_0_r, rnd_1. assert (F : fmt (3 / 8)) by (replace (3 / 8) with (IZR 3 * bpow radix2 (-3)) by (cbn; lra); apply format_scaled; lia).
    rewrite (rnd_id (3 / 8)) by exact F. unfold Rdiv at 1. rewrite Rinv_1, Rmult_1_r. apply rnd_id, F. }
  rewrite W. unfold interpf, fadd, fmul, fsub. replace (1 - 3 / 8) with (5 / 8) by lra.
  rewrite (rnd_id (5 / 8)) by (replace (5 / 8) with (IZR 5 * bpow radix2 (-3)) by (cbn; lra); apply format_scaled; lia).
  rewrite wit_p, wit_r. exact wit_s.
Qed.
Definition flat : lut := {| nodes := [(0, [WA; WA]); (1, [WA; WA])]; orderMax := 1 |}.
Lemma flat_table : is_table (nodes flat) (orderMax flat).
Proof.
  split; [eexists _, _; reflexivity|]. split.
  - intros [|[|[|i]]] a b; cbn; try discriminate. intros A B. injection A as <-. injection B as <-. cbn. lra.
  - intros [|[|[|i]]] a; cbn; try discriminate; intros A; injection A as <-; reflexivity.
Qed.
Lemma flat_double : double_table (nodes flat).
Proof.
  assert (D0 : is_double 0) by (replace 0 with (IZR 0 * powerRZ 2 0) by (cbn; lra); apply dyadic; lia).
  assert (D1 : is_double 1) by (replace 1 with (IZR 1 * powerRZ 2 0) by (cbn; lra); apply dyadic; lia).
  assert (DW : is_double WA) by (replace WA with (IZR 9007199254740985 * powerRZ 2 (-53)) by (rewrite <- (bpow_powerRZ radix2); unfold WA; cbn; lra); apply dyadic; lia).
  intros [|[|[|i]]] a; cbn; try discriminate; intros A; injection A as <-; cbn [fst snd]; (split; [assumption|repeat constructor; assumption]).
Qed.
Lemma eighths : is_double (3 / 8).
Proof. replace (3 / 8) with (IZR 3 * powerRZ 2 (-3)) by (rewrite <- (bpow_powerRZ radix2); cbn; lra). apply dyadic; lia. Qed.
Lemma outside_lemma : exists t k x i a b v, is_table (nodes t) (orderMax t) /\ double_table (nodes t) /\ is_double x /\ (0 <= k < Z.of_nat (orderMax t))%Z /\
  nth_error (nodes t) i = Some a /\ nth_error (nodes t) (S i) = Some b /\ fst a <= Rabs x < fst b /\
  evalf t k x = Ret v /\ at_ (snd a) (Z.to_nat k) < v /\ at_ (snd b) (Z.to_nat k) < v.
Proof.
  exists flat, 0%Z, (3 / 8), 0%nat, (0, [WA; WA]), (1, [WA; WA]), (9007199254740986 / 9007199254740992).
  split; [exact flat_table|]. split; [exact flat_double|]. split; [exact eighths|]. split; [cbn; lia|]. split; [reflexivity|]. split; [reflexivity|].
  rewrite Rabs_right by lra. cbn [fst snd]. split; [lra|]. split; [|cbn; unfold WA; lra].
  destruct (evalf_looked flat 0 (3 / 8) flat_table ltac:(cbn; lia)) as (v & Ev & Lv). rewrite Ev. f_equal. rewrite Rabs_right in Lv by lra.
  pose proof (segment_unique _ _ _ _ _ 0%nat (0, [WA; WA]) flat_table Lv eq_refl ltac:(cbn; lra) ltac:(intros b Eb; injection Eb as <-; cbn; lra)) as S.
  cbn in S. rewrite S. exact wit_interp.
Qed.
