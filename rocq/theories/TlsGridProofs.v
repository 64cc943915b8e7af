(** * Measurements on a grid. *)
From Coq Require Import List ZArith Reals QArith Qabs Bool Lia Lra Sorting.Sorted Permutation.
From Coq Require Import Floats.SpecFloat.
From Flocq Require Import Core BinarySingleNaN.
From Verif Require Import Base IntervalModel TlsFloatModel TlsFloatSpec TlsFloatProofs IeeeProofs.
From Verif Require TlsModel TlsSpec TlsProofs.
Import ListNotations.
Open Scope outcome_scope.

(** An IEEE arithmetic with any weights. *)
Definition ieee_arith (prec emax : Z) (w : spec_float -> spec_float) : arith :=
  mkArith spec_float (fun z => SpecFloat.binary_normalize prec emax z 0 false) (SFadd prec emax) (SFsub prec emax) (SFmul prec emax) (SFdiv prec emax)
    SFabs SFltb nan_bit w.

(** min_element never moves to a NaN. *)
Lemma lt_not_nan x y : SFltb x y = true -> nan_bit x = false.
Proof. destruct x; [easy..| |easy]. discriminate. Qed.
Lemma min_loop_nan prec emax w : let A := ieee_arith prec emax w in forall (l pre : list A) bi b i,
  length pre = i -> nth_error pre bi = Some b -> nan_bit b = false ->
  exists c, nth_error (pre ++ l) (min_loop A bi b i l) = Some c /\ nan_bit c = false.
Proof.
  intros A. induction l as [|x l IH]; intros pre bi b i L N H; cbn [min_loop].
  - exists b. now rewrite app_nil_r.
  - replace (pre ++ x :: l) with ((pre ++ [x]) ++ l) by now rewrite <- app_assoc.
    assert (L' : length (pre ++ [x]) = S i) by (rewrite app_length, Nat.add_comm; cbn; f_equal; exact L).
    destruct (ltb A x b) eqn:C.
    + apply IH; [exact L'| |exact (lt_not_nan _ _ C)]. rewrite nth_error_app2 by (subst i; apply Nat.le_refl). rewrite <- L at 1. now rewrite Nat.sub_diag.
    + apply IH; [exact L'| |exact H]. rewrite nth_error_app1; [exact N|]. apply nth_error_Some. congruence.
Qed.

Lemma nan_cost prec emax w s : let A := ieee_arith prec emax w in nan_bit (div A (vw A s) (cw A s)) = true -> nan_bit (snd (candidate A s)) = true.
Proof.
  intros A H. unfold candidate. cbn [snd]. destruct (div A (vw A s) (cw A s)); try discriminate.
  assert (E1 : forall x : A, mul A x S754_nan = S754_nan) by (intros []; reflexivity).
  assert (E2 : forall x : A, add A S754_nan x = S754_nan) by (intros []; reflexivity).
  assert (E3 : forall x : A, sub A S754_nan x = S754_nan) by (intros []; reflexivity).
  repeat (rewrite E1 || rewrite E2 || rewrite E3). reflexivity.
Qed.

Lemma skipn_nth {B} (d : B) : forall l j, (j < length l)%nat -> skipn j l = nth j l d :: skipn (S j) l.
Proof. induction l as [|a l IH]; intros [|j] H; cbn in *; try lia; [reflexivity|]. apply IH. lia. Qed.

Section Grid.
Context (prec emax : Z) (Hp : Prec_gt_0 prec) (Hm : Prec_lt_emax prec emax) (w : spec_float -> spec_float).
Notation A := (ieee_arith prec emax w).
Notation st := (stands prec emax).
Notation bp := (bpow radix2).
Context (e k m M : Z) (zs : list Z) (values ranges : list spec_float) (G : on_grid prec emax e k m zs values ranges).
Context (HW : forall r, st r (bp k) -> st (w r) (bp (-2 * k))).
Context (HM : (0 <= M)%Z /\ (m + e <= M)%Z /\ (2 * M + 4 < emax)%Z /\ (prec + k + 2 < emax)%Z).
Context (HE : (3 - emax - prec <= e)%Z /\ (3 - emax - prec <= e - 2 * k)%Z /\ (3 - emax - prec <= - 2 * k)%Z /\ (prec - 2 * k < emax)%Z /\ (prec + e - 2 * k < emax)%Z).

Let n := length values.
Let vq := map inject_Z zs.
Let rq := repeat (inject_Z (2 ^ (k - e))) n.

Lemma len_zs : length zs = n.
Proof. destruct G as (F & _). unfold n. clear - F. induction F; cbn; congruence. Qed.
Lemma len_vq : length vq = n.
Proof. unfold vq. rewrite map_length. exact len_zs. Qed.
Lemma pos_p : (0 < prec)%Z. Proof. exact Hp. Qed.

Lemma rq_nth i : (i < n)%nat -> TlsSpec.rng rq i = inject_Z (2 ^ (k - e)).
Proof.
  intros H. unfold TlsSpec.rng, rq. revert i H. induction n as [|q IH]; intros i H; [lia|]. destruct i; cbn; [reflexivity|apply IH; lia].
Qed.
Lemma vq_nth i : TlsSpec.val vq i = inject_Z (nth i zs 0%Z).
Proof. unfold TlsSpec.val, vq. change 0%Q with (inject_Z 0). apply map_nth. Qed.
Lemma rho_pos : (0 < 2 ^ (k - e))%Z.
Proof. destruct G as (_ & _ & _ & H & _). apply Z.pow_pos_nonneg; lia. Qed.
Lemma positive : TlsSpec.positive_ranges vq rq.
Proof.
  split; [unfold rq; rewrite repeat_length, len_vq; reflexivity|]. rewrite len_vq. intros i Hi. rewrite rq_nth by exact Hi.
  change 0%Q with (inject_Z 0). rewrite <- Zlt_Qlt. exact rho_pos.
Qed.
Lemma value_ok i : (i < n)%nat -> exists v r, nth_error values i = Some v /\ nth_error ranges i = Some r /\
  st v (IZR (nth i zs 0%Z) * bp e) /\ st r (bp k) /\ (Z.abs (nth i zs 0%Z) + 2 ^ (k - e) <= 2 ^ m)%Z.
Proof.
  intros Hi. destruct G as (F & L & R & _ & _ & Z & _).
  destruct (nth_error values i) as [v|] eqn:Ev; [|apply nth_error_None in Ev; unfold n in Hi; lia].
  destruct (nth_error ranges i) as [r|] eqn:Er; [|apply nth_error_None in Er; unfold n in Hi; lia].
  exists v, r. repeat split; try reflexivity.
  1-3: assert (S : st v (IZR (nth i zs 0%Z) * bp e)).
  1,3,5: clear - F Ev; revert i Ev; induction F; intros [|i] Ev; try discriminate; cbn in *; [now inversion Ev; subst|now apply IHF].
  1-3: apply S.
  1-3: rewrite Forall_forall in R; apply R, nth_error_In with i; exact Er.
  rewrite Forall_forall in Z. apply Z, nth_In. rewrite len_zs. exact Hi.
Qed.

(** The end points. *)
Definition keyq (t : Z) : Q :=
  let i := Z.to_nat (Z.abs t - 1) in if (0 <? t)%Z then TlsSpec.val vq i - TlsSpec.rng rq i else TlsSpec.val vq i + TlsSpec.rng rq i.
Definition tokey (x : A * Z) : Q * Z := (keyq (snd x), snd x).
Definition good (x : A * Z) : Prop := exists y, keyq (snd x) == inject_Z y /\ st (fst x) (IZR y * bp e).

Lemma grid_bound z : (Z.abs z <= 2 ^ prec)%Z -> forall q, (3 - emax - prec <= q)%Z -> (prec + q < emax)%Z ->
  generic_format radix2 (FLT_exp (3 - emax - prec) prec) (IZR z * bp q) /\ (Rabs (IZR z * bp q) < bp emax)%R.
Proof.
  intros H q H1 H2. pose proof pos_p. split; [now apply grid|]. apply (power_fits emax q z prec); lia || assumption.
Qed.
Lemma m_le : (2 ^ m <= 2 ^ prec)%Z.
Proof.
  destruct G as (_ & _ & _ & _ & Hm' & _ & H & _ & H0). assert (0 < 2 ^ m)%Z by (apply Z.pow_pos_nonneg; lia). nia.
Qed.
Lemma rho_bp : (IZR (2 ^ (k - e)) * bp e = bp k)%R.
Proof. destruct G as (_ & _ & _ & H & _). rewrite (IZR_Zpower radix2) by lia. rewrite <- bpow_plus. f_equal. lia. Qed.

Lemma endpoints_map : forall vs rs i, (0 <= i)%Z -> length rs = length vs -> (Z.to_nat i + length vs = n)%nat ->
  (forall j, nth_error vs j = nth_error values (Z.to_nat i + j)) -> (forall j, nth_error rs j = nth_error ranges (Z.to_nat i + j)) ->
  map tokey (endpoints A i vs rs) = TlsModel.endpoints i (skipn (Z.to_nat i) vq) (skipn (Z.to_nat i) rq) /\ Forall good (endpoints A i vs rs).
Proof.
  assert (Hn : (Z.of_nat n < 2 ^ 31)%Z) by (destruct G as (_ & _ & _ & _ & _ & _ & _ & H & _); exact H).
  induction vs as [|v vs IH]; intros [|r rs] i Hi Hl Hk Hv Hr; try discriminate.
  - cbn in Hk. rewrite skipn_all2 by (rewrite len_vq; lia). split; [reflexivity|constructor].
  - cbn [length] in Hl, Hk. set (j := Z.to_nat i) in *.
    assert (Ej : Z.to_nat (i + 1) = S j) by (unfold j; lia).
    assert (Sv : skipn j vq = TlsSpec.val vq j :: skipn (S j) vq).
    { apply skipn_nth. rewrite len_vq. lia. }
    assert (Sr : skipn j rq = TlsSpec.rng rq j :: skipn (S j) rq).
    { apply skipn_nth. unfold rq. rewrite repeat_length. lia. }
    rewrite Sv, Sr. cbn [endpoints TlsModel.endpoints map].
    destruct (IH rs (i + 1)%Z) as [E F]; [lia|congruence|lia| | |].
    + intros q. specialize (Hv (S q)). cbn in Hv. rewrite Hv. f_equal. lia.
    + intros q. specialize (Hr (S q)). cbn in Hr. rewrite Hr. f_equal. lia.
    + rewrite Ej in E. rewrite E.
      replace (- i - 1)%Z with (- (i + 1))%Z by lia. rewrite (TlsProofs.to_int_neg (i + 1)), (TlsProofs.to_int_id (i + 1)) by lia.
      assert (I1 : Z.to_nat (Z.abs (i + 1) - 1) = j) by (unfold j; lia).
      assert (I2 : Z.to_nat (Z.abs (- (i + 1)) - 1) = j) by (unfold j; lia).
      split.
      * unfold tokey at 1 2. cbn [snd fst]. unfold keyq. rewrite I1, I2. rewrite (proj2 (Z.ltb_lt 0 (i + 1))) by lia. rewrite (proj2 (Z.ltb_ge 0 (- (i + 1)))) by lia. reflexivity.
      * destruct (value_ok j) as (v' & r' & E1 & E2 & S1 & S2 & B); [lia|].
        specialize (Hv 0%nat). specialize (Hr 0%nat). rewrite Nat.add_0_r in Hv, Hr. cbn in Hv, Hr. rewrite E1 in Hv. rewrite E2 in Hr. injection Hv as ->. injection Hr as ->.
        pose proof m_le as ML. pose proof rho_pos as RP. assert (EK : (e <= k)%Z) by (destruct G as (_ & _ & _ & H & _); exact H).
        constructor; [|constructor; [|exact F]].
        -- exists (nth j zs 0 - 2 ^ (k - e))%Z. cbn [snd fst]. unfold keyq. rewrite I1. rewrite (proj2 (Z.ltb_lt 0 (i + 1))) by lia.
           rewrite vq_nth, rq_nth by lia. split; [unfold Z.sub; rewrite inject_Z_plus, inject_Z_opp; reflexivity|].
           destruct (grid_bound (nth j zs 0 - 2 ^ (k - e)) ltac:(lia) e) as [X1 X2]; [lia|destruct HM; lia|].
           replace (IZR (nth j zs 0%Z - 2 ^ (k - e)) * bp e)%R with (IZR (nth j zs 0%Z) * bp e - bp k)%R in * by (rewrite minus_IZR, <- rho_bp; ring). now apply sub_exact.
        -- exists (nth j zs 0 + 2 ^ (k - e))%Z. cbn [snd fst]. unfold keyq. rewrite I2. rewrite (proj2 (Z.ltb_ge 0 (- (i + 1)))) by lia.
           rewrite vq_nth, rq_nth by lia. split; [rewrite inject_Z_plus; reflexivity|].
           destruct (grid_bound (nth j zs 0 + 2 ^ (k - e)) ltac:(lia) e) as [X1 X2]; [lia|destruct HM; lia|].
           replace (IZR (nth j zs 0%Z + 2 ^ (k - e)) * bp e)%R with (IZR (nth j zs 0%Z) * bp e + bp k)%R in * by (rewrite plus_IZR, <- rho_bp; ring). now apply add_exact.
Qed.

(** The exact sums and those of the program. *)
Definition rel (s : sums A) (q : TlsModel.sums) : Prop :=
  card A s = TlsModel.card q /\ (Z.abs (TlsModel.card q) <= 2 ^ prec)%Z /\ st (cw A s) (IZR (TlsModel.card q) * bp (-2 * k)) /\
  exists y, TlsModel.sumXi q == inject_Z y /\ (Z.abs y <= 2 ^ prec)%Z /\ st (vw A s) (IZR y * bp (e - 2 * k)).
Definition small (q : TlsModel.sums) : Prop :=
  (Z.abs (TlsModel.card q) <= 2 ^ prec)%Z /\ exists y, TlsModel.sumXi q == inject_Z y /\ (Z.abs y <= 2 ^ prec)%Z.

Lemma int_ok z : (Z.abs z <= 2 ^ prec)%Z -> st (of_int A z) (IZR z).
Proof. intros H. apply int_exact; assumption. Qed.
Lemma one_le : (1 <= 2 ^ prec)%Z.
Proof. pose proof pos_p. change 1%Z with (2 ^ 0)%Z. apply Z.pow_le_mono_r; lia. Qed.
Lemma two_le : (2 <= 2 ^ prec)%Z.
Proof. pose proof pos_p. change 2%Z with (2 ^ 1)%Z at 1. apply Z.pow_le_mono_r; lia. Qed.

Lemma step_rel s q t q1 : rel s q -> tag_ok n t -> TlsModel.step vq rq q t = Ret q1 -> small q1 ->
  exists s1, step A values ranges s t = Ret s1 /\ rel s1 q1.
Proof.
  intros (R1 & R2 & R3 & y & R4 & R5 & R6) [T1 T2] Q (S1 & y1 & S2 & S3).
  set (i := Z.to_nat (Z.abs t - 1)). assert (Hi : (i < n)%nat) by (unfold i; lia).
  destruct (value_ok i Hi) as (v & r & E1 & E2 & V & W & B). pose proof m_le as ML. pose proof one_le as OL. pose proof rho_pos as RP.
  unfold step. unfold zread. rewrite (proj2 (Z.ltb_ge _ _)) by lia. fold i. unfold vread. change (num A) with spec_float. rewrite E1, E2. cbn [obind].
  unfold TlsModel.step, TlsModel.zread in Q. rewrite (proj2 (Z.ltb_ge _ _)) in Q by lia. fold i in Q.
  unfold vread in Q. rewrite (nth_error_nth' vq 0%Q (n := i)), (nth_error_nth' rq 0%Q (n := i)) in Q by (rewrite ?len_vq; unfold rq; rewrite ?repeat_length; exact Hi).
  cbn [obind] in Q. injection Q as <-. cbn [TlsModel.card TlsModel.sumXi] in S1, S2.
  change (nth i vq 0%Q) with (TlsSpec.val vq i) in S2. rewrite vq_nth in S2.
  set (c := if (0 <? t)%Z then 1%Z else (-1)%Z) in *. assert (C : (c = 1 \/ c = -1)%Z) by (unfold c; destruct (0 <? t)%Z; auto).
  eexists. split; [reflexivity|].
  assert (Ey : (y1 = y + c * nth i zs 0)%Z).
  { apply inject_Z_injective. rewrite inject_Z_plus, inject_Z_mult, <- R4. symmetry. exact S2. }
  assert (K : st (mul A (of_int A c) (w r)) (IZR c * bp (-2 * k))).
  { apply mul_exact; [exact Hp|exact Hm|apply int_ok; lia|now apply HW|..]; apply (grid_bound c ltac:(lia) (-2 * k)); lia. }
  split; [cbn [card TlsModel.card]; now rewrite R1|]. split; [exact S1|]. cbn [cw vw TlsModel.card TlsModel.sumXi]. split.
  - destruct (grid_bound _ S1 (-2 * k)) as [X1 X2]; [lia|lia|]. rewrite plus_IZR, Rmult_plus_distr_r in *. now apply add_exact.
  - exists y1. change (nth i vq 0%Q) with (TlsSpec.val vq i). rewrite vq_nth. split; [exact S2|]. split; [exact S3|]. subst y1.
    destruct (grid_bound _ S3 (e - 2 * k)) as [X1 X2]; [lia|lia|].
    assert (P : st (mul A (mul A (of_int A c) (w r)) v) (IZR (c * nth i zs 0%Z) * bp (e - 2 * k))).
    { destruct (grid_bound (c * nth i zs 0) ltac:(lia) (e - 2 * k)) as [Y1 Y2]; [lia|lia|].
      replace (IZR (c * nth i zs 0%Z) * bp (e - 2 * k))%R with (IZR c * bp (-2 * k) * (IZR (nth i zs 0%Z) * bp e))%R in *
        by (rewrite mult_IZR; unfold Z.sub; rewrite bpow_plus; replace (- (2 * k))%Z with (-2 * k)%Z by lia; ring).
      now apply mul_exact. }
    replace (IZR (y + c * nth i zs 0%Z) * bp (e - 2 * k))%R with (IZR y * bp (e - 2 * k) + IZR (c * nth i zs 0%Z) * bp (e - 2 * k))%R in * by (rewrite plus_IZR; ring).
    now apply add_exact.
Qed.

Lemma sweep_rel : forall es s q tq, rel s q -> (forall x, In x es -> tag_ok n (snd x)) -> TlsModel.sweep vq rq q (map tokey es) = Ret tq ->
  (forall x, In x tq -> small (fst x)) ->
  exists t, sweep A values ranges s es = Ret t /\ Forall2 (fun c x => exists s', c = candidate A s' /\ rel s' (fst x)) t tq.
Proof.
  induction es as [|[x t] es IH]; intros s q tq R T Q S; cbn [map sweep TlsModel.sweep tokey snd] in *.
  - injection Q as <-. exists []. split; [reflexivity|constructor].
  - destruct (TlsModel.step vq rq q t) as [q1| | |] eqn:Q1; cbn [obind] in Q; try discriminate.
    destruct (TlsModel.candidate q1) as [c| | |]; cbn [obind] in Q; try discriminate.
    destruct (TlsModel.sweep vq rq q1 (map tokey es)) as [r| | |] eqn:Q2; cbn [obind] in Q; try discriminate. injection Q as <-.
    destruct (step_rel s q t q1 R (T (x, t) (or_introl eq_refl)) Q1 (S (q1, c) (or_introl eq_refl))) as (s1 & -> & R1). cbn [obind].
    destruct (IH s1 q1 r R1 (fun y h => T y (or_intror h)) Q2 (fun y h => S y (or_intror h))) as (tt & -> & F). cbn [obind].
    eexists. split; [reflexivity|]. constructor; [now exists s1|exact F].
Qed.

(** The first candidate has a cost. *)
Lemma ranges_sum : forall rs c x, Forall (fun r => st r (bp k)) rs -> (0 <= c)%Z -> (c + Z.of_nat (length rs) <= 2 ^ prec)%Z -> st x (IZR c * bp k) ->
  st (fold_left (add A) rs x) (IZR (c + Z.of_nat (length rs)) * bp k).
Proof.
  induction rs as [|r rs IH]; intros c x F Hc H X; cbn [fold_left length] in *.
  - now rewrite Z.add_0_r.
  - inversion F as [|? ? Fr Frs]; subst. replace (c + Z.of_nat (S (length rs)))%Z with ((c + 1) + Z.of_nat (length rs))%Z by lia.
    apply IH; [exact Frs|lia|lia|].
    destruct (grid_bound (c + 1) ltac:(lia) k) as [X1 X2]; [destruct G as (_ & _ & _ & ? & _); lia|lia|].
    replace (IZR (c + 1) * bp k)%R with (IZR c * bp k + bp k)%R in * by (rewrite plus_IZR; ring). now apply add_exact.
Qed.
Lemma n_le : (Z.of_nat n <= 2 ^ prec)%Z.
Proof.
  destruct G as (_ & _ & _ & _ & Hm' & _ & H & _). assert (1 <= 2 ^ m)%Z by (change 1%Z with (2 ^ 0)%Z; apply Z.pow_le_mono_r; lia). unfold n. nia.
Qed.
Lemma fin_of z q : (Z.abs z <= 2 ^ q)%Z -> (0 <= q <= prec)%Z -> fin prec emax q (of_int A z).
Proof.
  intros H Q. exists (IZR z). split; [apply int_ok; apply Z.le_trans with (1 := H); apply Z.pow_le_mono_r; lia|].
  rewrite <- abs_IZR, <- (IZR_Zpower radix2) by lia. now apply IZR_le.
Qed.
Lemma rep_fin x z q r : st x (IZR z * bp q) -> (Z.abs z <= 2 ^ r)%Z -> (0 <= r)%Z -> fin prec emax (r + q) x.
Proof.
  intros S H R. exists (IZR z * bp q)%R. split; [exact S|]. rewrite Rabs_mult, (Rabs_pos_eq (bp q)) by apply bpow_ge_0. rewrite bpow_plus.
  apply Rmult_le_compat_r; [apply bpow_ge_0|]. rewrite <- abs_IZR, <- (IZR_Zpower radix2) by lia. now apply IZR_le.
Qed.
Ltac expo := unfold Prec_lt_emax in Hm; pose proof pos_p; lia.
Lemma first_cost t s1 : tag_ok n t -> step A values ranges (sums0 A ranges) t = Ret s1 ->
  nan_bit (snd (candidate A s1)) = false.
Proof.
  intros [T1 T2] E. pose proof HM as HM'. pose proof HE as HE'.
  set (i := Z.to_nat (Z.abs t - 1)). assert (Hi : (i < n)%nat) by (unfold i; lia).
  destruct (value_ok i Hi) as (v & r & E1 & E2 & V & W & B). pose proof m_le as ML. pose proof one_le as OL. pose proof two_le as TL. pose proof rho_pos as RP. pose proof pos_p as PP.
  assert (Hm0 : (0 <= m)%Z) by (destruct G as (_ & _ & _ & _ & ? & _); assumption).
  assert (Hek : (e <= k)%Z) by (destruct G as (_ & _ & _ & ? & _); assumption).
  unfold step, zread in E. rewrite (proj2 (Z.ltb_ge _ _)) in E by lia. fold i in E. unfold vread in E. change (num A) with spec_float in E. rewrite E1, E2 in E. cbn [obind] in E.
  set (c := if (0 <? t)%Z then 1%Z else (-1)%Z) in *. assert (C : (c = 1 \/ c = -1)%Z) by (unfold c; destruct (0 <? t)%Z; auto).
  injection E as <-.
  assert (FV : fin prec emax M v).
  { apply (fin_weaken prec emax (m + e)); [lia|]. apply (rep_fin v (nth i zs 0%Z)); [exact V|lia|lia]. }
  assert (F1 : fin prec emax 0 (of_int A c)) by (apply fin_of; [cbn; lia|lia]).
  assert (F0 : fin prec emax 0 (of_int A 0)) by (apply fin_of; [cbn; lia|lia]).
  assert (F2 : fin prec emax 1 (of_int A 2)) by (apply fin_of; [cbn; lia|lia]).
  assert (FH : fin prec emax M (div A (add A (of_int A 0) (mul A (mul A (of_int A c) (w r)) v)) (add A (of_int A 0) (mul A (of_int A c) (w r))))).
  { assert (K : st (mul A (of_int A c) (w r)) (IZR c * bp (-2 * k))).
    { apply mul_exact; [exact Hp|exact Hm|apply int_ok; lia|now apply HW|..]; apply (grid_bound c ltac:(lia) (-2 * k)); lia. }
    assert (P : st (mul A (mul A (of_int A c) (w r)) v) (IZR (c * nth i zs 0%Z) * bp (e - 2 * k))).
    { destruct (grid_bound (c * nth i zs 0) ltac:(lia) (e - 2 * k)) as [Y1 Y2]; [lia|lia|].
      replace (IZR (c * nth i zs 0%Z) * bp (e - 2 * k))%R with (IZR c * bp (-2 * k) * (IZR (nth i zs 0%Z) * bp e))%R in *
        by (rewrite mult_IZR; unfold Z.sub; rewrite bpow_plus; replace (- (2 * k))%Z with (-2 * k)%Z by lia; ring).
      now apply mul_exact. }
    assert (K0 : st (add A (of_int A 0) (mul A (of_int A c) (w r))) (IZR c * bp (-2 * k))).
    { destruct (grid_bound c ltac:(lia) (-2 * k)) as [X1 X2]; [lia|lia|].
      replace (IZR c * bp (-2 * k))%R with (0 + IZR c * bp (-2 * k))%R in * by ring. apply add_exact; try assumption.
      - apply int_ok. lia.
      - now rewrite Rplus_0_l in *. }
    assert (P0 : st (add A (of_int A 0) (mul A (mul A (of_int A c) (w r)) v)) (IZR (c * nth i zs 0%Z) * bp (e - 2 * k))).
    { destruct (grid_bound (c * nth i zs 0) ltac:(lia) (e - 2 * k)) as [Y1 Y2]; [lia|lia|].
      replace (IZR (c * nth i zs 0%Z) * bp (e - 2 * k))%R with (0 + IZR (c * nth i zs 0%Z) * bp (e - 2 * k))%R in * by ring. apply add_exact; try assumption.
      - apply int_ok. lia.
      - now rewrite Rplus_0_l in *. }
    assert (D : (IZR (c * nth i zs 0%Z) * bp (e - 2 * k) / (IZR c * bp (-2 * k)) = IZR (nth i zs 0%Z) * bp e)%R).
    { rewrite mult_IZR. unfold Z.sub. rewrite bpow_plus. replace (- (2 * k))%Z with (-2 * k)%Z by lia. field.
      split; [apply Rgt_not_eq, bpow_gt_0|]. apply (not_0_IZR c). lia. }
    apply (fin_weaken prec emax (m + e)); [lia|]. apply (rep_fin _ (nth i zs 0%Z)); [|lia|lia]. rewrite <- D.
    destruct (grid_bound (nth i zs 0%Z) ltac:(lia) e) as [X1 X2]; [lia|lia|].
    apply div_exact; [exact Hp|exact Hm|exact P0|exact K0| |now rewrite D|now rewrite D].
    apply Rmult_integral_contrapositive_currified; [apply not_0_IZR; lia|apply Rgt_not_eq, bpow_gt_0]. }
  set (h := div A _ _) in *.
  assert (FR : fin prec emax (prec + k) (fold_left (add A) ranges (of_int A 0))).
  { assert (X : st (fold_left (add A) ranges (of_int A 0)) (IZR (0 + Z.of_nat (length ranges)) * bp k)).
    { apply ranges_sum; [apply G|lia| |].
      - replace (length ranges) with n by (symmetry; apply G). apply n_le.
      - rewrite Rmult_0_l. apply int_ok. lia. }
    apply rep_fin with (1 := X); [|lia]. replace (length ranges) with n by (symmetry; apply G). pose proof n_le. lia. }
  assert (Fr : fin prec emax (prec + k) (mul A (of_int A c) r)).
  { apply (fin_weaken prec emax (0 + k)); [lia|]. apply fin_mul; [assumption..|expo|exact F1|]. exists (bp k). split; [exact W|]. rewrite Rabs_pos_eq by apply bpow_ge_0. lra. }
  assert (FR1 := fin_sub _ _ Hp Hm (prec + k) _ _ ltac:(expo) FR Fr).
  assert (Fx : fin prec emax (M + 1) (add A (of_int A 0) (mul A (of_int A c) v))).
  { apply fin_add; [assumption..|expo|apply (fin_weaken prec emax 0); [lia|exact F0]|]. apply (fin_mul prec emax Hp Hm 0 M); [expo|exact F1|exact FV]. }
  assert (Fxx : fin prec emax (M + M + 1) (add A (of_int A 0) (mul A (mul A (of_int A c) v) v))).
  { apply fin_add; [assumption..|expo|apply (fin_weaken prec emax 0); [lia|exact F0]|]. apply (fin_mul prec emax Hp Hm M M); [expo| |exact FV].
    apply (fin_mul prec emax Hp Hm 0 M); [expo|exact F1|exact FV]. }
  unfold candidate. cbn [snd card cw vw sumXi sumXiSquare ris sums0]. fold h.
  assert (Fa : fin prec emax (M + M) (mul A (mul A (of_int A (0 + c)) h) h)).
  { apply (fin_mul prec emax Hp Hm M M); [expo| |exact FH]. apply (fin_mul prec emax Hp Hm 0 M); [expo|exact F1|exact FH]. }
  assert (Fb := fin_add _ _ Hp Hm (M + M + 1) _ _ ltac:(expo) (fin_weaken _ _ (M + M) (M + M + 1) _ ltac:(lia) Fa) Fxx).
  assert (Fc : fin prec emax (1 + (M + 1) + M) (mul A (mul A (of_int A 2) (add A (of_int A 0) (mul A (of_int A c) v))) h)).
  { apply fin_mul; [assumption..|expo| |exact FH]. apply fin_mul; [assumption..|expo|exact F2|exact Fx]. }
  assert (Fd := fin_sub _ _ Hp Hm (M + M + 1 + 1) _ _ ltac:(expo) Fb (fin_weaken _ _ (1 + (M + 1) + M) (M + M + 1 + 1) _ ltac:(lia) Fc)).
  set (U := Z.max (M + M + 1 + 1 + 1) (prec + k + 1)).
  exact (fin_not_nan _ _ _ _ (fin_add _ _ Hp Hm U _ _ ltac:(unfold U; expo) (fin_weaken _ _ (M + M + 1 + 1 + 1) U _ ltac:(unfold U; lia) Fd) (fin_weaken _ _ (prec + k + 1) U _ ltac:(unfold U; lia) FR1))).
Qed.

(** The exact program on the same end points, in the same order. *)
Definition point_eq (a b : Q * Z) : {a = b} + {a <> b}.
Proof. decide equality; [apply Z.eq_dec|]. decide equality; [apply Pos.eq_dec|apply Z.eq_dec]. Defined.

Section Sorted.
Context (sort : list (A * Z) -> list (A * Z)) (Hs : orders sort).
Let es := endpoints A 0 values ranges.
Let E := TlsModel.endpoints 0 vq rq.
Definition sortq (l : list (Q * Z)) : list (Q * Z) := if list_eq_dec point_eq l E then map tokey (sort es) else TlsProofs.isort l.

Lemma es_facts : map tokey es = E /\ Forall good es.
Proof.
  destruct (endpoints_map values ranges 0 ltac:(lia)) as [H1 H2]; [apply G|reflexivity|reflexivity|reflexivity|]. split; [exact H1|exact H2].
Qed.
Lemma es_nan : no_nan es.
Proof.
  destruct es_facts as [_ F]. rewrite Forall_forall in F. intros [x t] Hx E1. cbn [fst] in E1. subst x. destruct (F _ Hx) as (y & _ & (_ & Y & _)). discriminate Y.
Qed.
Lemma sorted_keys : forall l, Forall good l -> StronglySorted (fun a b => ltb A (fst b) (fst a) = false) l -> StronglySorted (fun a b => (fst a <= fst b)%Q) (map tokey l).
Proof.
  induction l as [|a l IH]; intros F S; [constructor|]. inversion F as [|? ? Fa Fl]; subst. apply StronglySorted_inv in S. destruct S as [S1 S2].
  cbn [map]. constructor; [now apply IH|]. rewrite Forall_forall in *. intros q Hq. apply in_map_iff in Hq. destruct Hq as (b & <- & Hb).
  specialize (S2 b Hb). destruct Fa as (y & Y1 & Y2), (Fl b Hb) as (y' & Y1' & Y2').
  cbn [tokey fst]. rewrite Y1, Y1'. rewrite <- Zle_Qle. change (ltb A (fst b) (fst a)) with (SFltb (fst b) (fst a)) in S2.
  rewrite (ltb_ok prec emax _ _ _ _ Y2' Y2) in S2.
  apply Z.nlt_ge. intros L. rewrite Rlt_bool_true in S2; [discriminate|]. apply Rmult_lt_compat_r; [apply bpow_gt_0|now apply IZR_lt].
Qed.
Lemma sortq_sorts : TlsSpec.sorts sortq.
Proof.
  intros l. unfold sortq. destruct (list_eq_dec point_eq l E) as [->|D]; [|apply TlsProofs.isort_sorts].
  destruct es_facts as [M1 F]. destruct (Hs es es_nan) as [P S]. split; [rewrite <- M1; now apply Permutation_map|]. apply sorted_keys; [|exact S].
  rewrite Forall_forall in *. intros x Hx. apply F. now apply (Permutation_in _ (Permutation_sym P)).
Qed.

Definition sumz (S : list nat) : Z := fold_right (fun i acc => nth i zs 0 + acc)%Z 0%Z S.
Lemma total_sumz S : TlsSpec.total (TlsSpec.val vq) S == inject_Z (sumz S).
Proof. induction S as [|i S IH]; [reflexivity|]. rewrite TlsProofs.total_cons, IH, vq_nth. cbn [sumz fold_right]. now rewrite inject_Z_plus. Qed.
Lemma sumz_bound S : (forall i, In i S -> (i < n)%nat) -> (Z.abs (sumz S) <= Z.of_nat (length S) * 2 ^ m)%Z.
Proof.
  induction S as [|i S IH]; intros H; [cbn; lia|]. specialize (IH (fun j h => H j (or_intror h))). destruct (value_ok i (H i (or_introl eq_refl))) as (_ & _ & _ & _ & _ & _ & B).
  pose proof rho_pos. cbn [sumz fold_right length]. change (fold_right _ 0%Z S) with (sumz S). lia.
Qed.
Lemma subset_length S : NoDup S -> (forall i, In i S -> (i < n)%nat) -> (length S <= n)%nat.
Proof.
  intros N H. rewrite <- (seq_length n 0). apply NoDup_incl_length; [exact N|]. intros i Hi. apply in_seq. specialize (H i Hi). lia.
Qed.

Definition act_at (j : nat) (x : Q * Z) : list nat := TlsProofs.act vq (firstn j (map tokey (sort es)) ++ [x]).
Lemma grid_strong : exists est S x t j kk b, estimate A sort values ranges = Ret (est, inlier_flags A est values ranges) /\ S <> [] /\
  around zs (2 ^ (k - e)) x S /\ st est (nearest prec emax (mean zs e S)) /\
  sweep A values ranges (sums0 A ranges) (sort es) = Ret t /\ length t = (2 * n)%nat /\ nth_error t j = Some (est, kk) /\
  (forall j' est' k', nth_error t j' = Some (est', k') -> SFltb k' kk = false) /\
  nth_error (map tokey (sort es)) j = Some b /\ S = act_at j b.
Proof.
  destruct es_facts as [M1 F].
  assert (Hn : (Z.of_nat n < 2 ^ 31)%Z) by (destruct G as (_ & _ & _ & _ & _ & _ & _ & H & _); exact H).
  assert (H0 : (0 < n)%nat) by (destruct G as (_ & _ & _ & _ & _ & _ & _ & _ & H); exact H).
  assert (Hl : length values = length ranges) by (symmetry; apply G).
  assert (Hek : (e <= k)%Z) by (destruct G as (_ & _ & _ & ? & _); assumption).
  assert (Hm0 : (0 <= m)%Z) by (destruct G as (_ & _ & _ & _ & ? & _); assumption).
  assert (Hnm : (Z.of_nat n * 2 ^ m <= 2 ^ prec)%Z) by (destruct G as (_ & _ & _ & _ & _ & _ & ? & _); assumption).
  pose proof (proj1 (sortq_sorts E)) as EP. pose proof (proj2 (sortq_sorts E)) as ES'.
  assert (H31 : (Z.of_nat (length vq) < 2 ^ 31)%Z) by (rewrite len_vq; exact Hn).
  destruct (TlsProofs.sweep_ok vq rq positive H31 (sortq E) EP ES' (sortq E) [] (TlsModel.sums0 rq) eq_refl (TlsProofs.sums0_ok vq rq positive)) as (tq & TQ & LQ & HQ0).
  rewrite (TlsProofs.eps_length vq rq positive H31 (sortq E) EP), len_vq in LQ, HQ0. cbn [app] in HQ0.
  assert (HQ : forall j, (j < 2 * n)%nat -> exists p ev S s c, nth_error (sortq E) j = Some (p, ev) /\ TlsSpec.covering vq rq p S /\ nth_error tq j = Some (s, c) /\
    TlsProofs.sums_of vq rq S s /\ S = TlsProofs.act vq (firstn j (sortq E) ++ [(p, ev)])).
  { intros j Hj. destruct (HQ0 j Hj) as (s & c & p & ev & r' & H1 & H2 & H3 & H4). exists p, ev, (TlsProofs.act vq (firstn j (sortq E) ++ [(p, ev)])), s, c.
    destruct (TlsProofs.firstn_S_app (sortq E) j (p, ev) r' H2) as [Hx _]; [rewrite (TlsProofs.eps_length vq rq positive H31 (sortq E) EP), len_vq; exact Hj|].
    split; [exact Hx|]. split; [|split; [exact H1|split; [exact H3|reflexivity]]]. eapply TlsProofs.act_covering; eauto using positive. }
  clear HQ0.
  assert (SE : sortq E = map tokey (sort es)) by (unfold sortq; destruct (list_eq_dec point_eq E E); congruence).
  rewrite SE in TQ, HQ.
  assert (SM : forall x, In x tq -> small (fst x)).
  { intros x Hx. apply In_nth_error in Hx. destruct Hx as (j & Hj). assert (j < 2 * n)%nat by (rewrite <- LQ; apply nth_error_Some; congruence).
    destruct (HQ j H) as (p & ev & S & s & c & _ & Cov & Nj & (_ & C2 & C3 & _) & _). rewrite Hj in Nj. injection Nj as ->. cbn [fst].
    destruct Cov as ((ND & SB) & _). rewrite len_vq in SB. pose proof (subset_length S ND SB) as LS. pose proof (sumz_bound S SB) as BS. pose proof n_le.
    split; [rewrite C2; lia|]. exists (sumz S). split; [now rewrite C3, total_sumz|].
    apply Z.le_trans with (1 := BS). apply Z.le_trans with (2 := Hnm). apply Z.mul_le_mono_nonneg_r; [apply Z.pow_nonneg; lia|lia]. }
  assert (TG : forall x, In x (sort es) -> tag_ok n (snd x)).
  { intros x Hx. apply (tags A n Hn values ranges 0); [exact Hl|lia|reflexivity|]. destruct (Hs es es_nan) as [P _]. apply (Permutation_in _ (Permutation_sym P)). exact Hx. }
  pose proof one_le as OL.
  assert (R0 : rel (sums0 A ranges) (TlsModel.sums0 rq)).
  { split; [reflexivity|]. split; [cbn; lia|]. split; [cbn [cw sums0 TlsModel.card TlsModel.sums0]; rewrite Rmult_0_l; apply int_ok; lia|].
    exists 0%Z. split; [reflexivity|]. split; [lia|]. rewrite Rmult_0_l. apply int_ok. lia. }
  destruct (sweep_rel _ _ _ _ R0 TG TQ SM) as (t & T & F2).
  destruct (estimate_defined A (conj lt_irrefl lt_trans) sort values ranges (Hs es es_nan) Hl Hn H0) as (t' & j & est & kk & T' & L' & Nj & MIN & Ej & ES).
  { intros x Hx. rewrite Forall_forall in F. destruct (F x Hx) as (y & _ & (_ & Y & _)). change (nan_bit (fst x) = false). now destruct (fst x). }
  fold es in T'. rewrite T in T'. injection T' as <-.
  assert (NN : nan_bit kk = false).
  { destruct (sort es) as [|[x0 t0] rest] eqn:SS.
    - cbn in T. injection T as <-. cbn in L'. change (length values) with n in L'. lia.
    - cbn [sweep] in T. destruct (step_defined A values ranges (sums0 A ranges) t0 Hl (TG _ (or_introl eq_refl))) as (s1 & E1). rewrite E1 in T. cbn [obind] in T.
      destruct (sweep A values ranges s1 rest) as [r| | |]; cbn [obind] in T; try discriminate. injection T as <-.
      pose proof (first_cost t0 s1 (TG _ (or_introl eq_refl)) E1) as FC. cbn [map min_element] in Ej.
      destruct (min_loop_nan prec emax w (map snd r) [snd (candidate A s1)] 0 (snd (candidate A s1)) 1 eq_refl eq_refl FC) as (c & C1 & C2).
      rewrite <- Ej in C1. pose proof (map_nth_error snd j (candidate A s1 :: r) Nj) as C3.
      assert (X : Some c = Some kk) by (transitivity (nth_error (map snd (candidate A s1 :: r)) j); [symmetry; exact C1|exact C3]). now injection X as <-. }
  assert (Jl : (j < 2 * n)%nat) by (change (2 * n)%nat with (2 * @length (num A) values)%nat; rewrite <- L'; apply nth_error_Some; congruence).
  destruct (HQ j Jl) as (p & ev & S & s & c & NS & Cov & Nq & (_ & C2 & C3 & _) & ES2).
  assert (NS0 := NS).
  assert (X : exists s', (est, kk) = candidate A s' /\ rel s' s).
  { clear - F2 Nj Nq. revert j Nj Nq. induction F2; intros [|j] Nj Nq; try discriminate; cbn in *; [|now apply (IHF2 j)]. inversion Nj; inversion Nq; subst. exact H. }
  destruct X as (s' & Ec & (Q1 & Q2 & Q3 & y & Q4 & Q5 & Q6)).
  assert (Ex : exists xz, p == inject_Z xz).
  { rewrite nth_error_map in NS. destruct (nth_error (sort es) j) as [a|] eqn:Na; [|discriminate]. cbn in NS. injection NS as <- <-.
    rewrite Forall_forall in F. destruct (F a) as (xz & X1 & _); [|now exists xz].
    destruct (Hs es es_nan) as [P _]. apply (Permutation_in _ (Permutation_sym P)). now apply nth_error_In with j. }
  destruct Ex as (xz & Ex).
  destruct Cov as ((ND & SB) & Cin & Cout). rewrite len_vq in SB, Cin. pose proof (subset_length S ND SB) as LS. pose proof (sumz_bound S SB) as BS.
  assert (Ey : y = sumz S) by (apply inject_Z_injective; rewrite <- Q4, C3; apply total_sumz). subst y. rewrite C2 in *.
  assert (Eest : est = div A (vw A s') (cw A s')) by (unfold candidate in Ec; now inversion Ec).
  assert (NE : S <> []).
  { intros ->. cbn [length sumz fold_right] in Q3, Q6. rewrite Rmult_0_l in Q3, Q6.
    destruct (zero_is prec emax _ Q3) as (a & Za), (zero_is prec emax _ Q6) as (b & Zb).
    assert (N : nan_bit (snd (candidate A s')) = true).
    { apply nan_cost. change (num A) with spec_float in Za, Zb. rewrite Za, Zb. reflexivity. }
    rewrite <- Ec in N. cbn [snd] in N. change (num A) with spec_float in *. congruence. }
  exists est, S, xz, t, j, kk, (p, ev). split; [exact ES|]. split; [exact NE|].
  split; [|split; [|split; [exact T|split; [exact L'|split; [exact Nj|split; [exact MIN|split; [exact NS0|exact ES2]]]]]]].
  - split; [exact ND|]. rewrite len_zs. split.
    + intros i Hi. split; [now apply SB|]. specialize (Cout i Hi). rewrite rq_nth in Cout by now apply SB. rewrite vq_nth, Ex in Cout.
      unfold Qminus in Cout. rewrite <- inject_Z_opp, <- inject_Z_plus in Cout. change (Qabs (inject_Z (nth i zs 0 + - xz)%Z)) with (inject_Z (Z.abs (nth i zs 0 + - xz))) in Cout.
      rewrite <- Zle_Qle in Cout. exact Cout.
    + intros i Hi Hlt. apply Cin; [exact Hi|]. rewrite rq_nth by exact Hi. rewrite vq_nth, Ex. unfold Qminus. rewrite <- inject_Z_opp, <- inject_Z_plus.
      change (Qabs (inject_Z (nth i zs 0 + - xz)%Z)) with (inject_Z (Z.abs (nth i zs 0 + - xz))). rewrite <- Zlt_Qlt. exact Hlt.
  - assert (SP : (0 < Z.of_nat (length S))%Z) by (destruct S; [congruence|cbn [length]; lia]).
    assert (D : (IZR (sumz S) * bp (e - 2 * k) / (IZR (Z.of_nat (length S)) * bp (-2 * k)) = mean zs e S)%R).
    { unfold mean. fold (sumz S). rewrite INR_IZR_INZ. unfold Z.sub. rewrite bpow_plus. replace (- (2 * k))%Z with (-2 * k)%Z by lia. field.
      split; [apply not_0_IZR; lia|apply Rgt_not_eq, bpow_gt_0]. }
    assert (BM : (Rabs (mean zs e S) <= bp (m + e))%R).
    { unfold mean. fold (sumz S). rewrite INR_IZR_INZ, Rabs_mult, (Rabs_pos_eq (bp e)) by apply bpow_ge_0. rewrite bpow_plus. apply Rmult_le_compat_r; [apply bpow_ge_0|].
      unfold Rdiv. rewrite Rabs_mult, Rabs_inv, (Rabs_pos_eq (IZR (Z.of_nat (length S)))) by (apply IZR_le; lia).
      apply Rmult_le_reg_r with (IZR (Z.of_nat (length S))); [apply IZR_lt; lia|]. rewrite Rmult_assoc, Rinv_l, Rmult_1_r by (apply not_0_IZR; lia).
      rewrite <- abs_IZR, <- (IZR_Zpower radix2) by lia. rewrite <- mult_IZR. apply IZR_le. rewrite Z.mul_comm. exact BS. }
    rewrite Eest, <- D. apply div_ok; [assumption..| |rewrite D].
    + apply Rmult_integral_contrapositive_currified; [apply not_0_IZR; lia|apply Rgt_not_eq, bpow_gt_0].
    + apply (rnd_lt prec emax Hp _ (m + e)); [lia|exact BM].
Qed.
(** ** The computed costs *)
Section Opt.
Context (L : Z) (HL : (0 <= L)%Z /\ (Z.of_nat n <= 2 ^ L)%Z /\ (L + 5 <= prec)%Z /\ (8 <= prec)%Z).
Context (HO : (2 - emax <= 2 * (m + e))%Z /\ (2 - emax <= m + e)%Z /\ (L + 2 * (m + e) + 4 < emax)%Z /\ (L + (m + e) + 2 < emax)%Z /\ (L + k + 1 < emax)%Z /\ (2 - emax <= k)%Z).
Let P := (m + e)%Z.
Let B := bp (L + 2 * P).
Let X := bp (L + 2 * P - prec).
Notation rnd := (nearest prec emax).

Lemma half_ulp x p : (2 - emax <= p)%Z -> (Rabs x <= bp p)%R -> (Rabs (rnd x - x) <= bp (p - prec))%R.
Proof.
  intros H1 H2. pose proof pos_p as PP. unfold nearest.
  apply Rle_trans with (/ 2 * ulp radix2 (FLT_exp (3 - emax - prec) prec) x)%R; [apply error_le_half_ulp; now apply flt_valid|].
  apply Rle_trans with (/ 2 * ulp radix2 (FLT_exp (3 - emax - prec) prec) (bp p))%R.
  - apply Rmult_le_compat_l; [lra|]. apply ulp_le; [now apply flt_valid|apply FLT_exp_monotone|]. now rewrite (Rabs_pos_eq (bp p)) by apply bpow_ge_0.
  - rewrite ulp_bpow. unfold FLT_exp. rewrite Z.max_l by lia. replace (p + 1 - prec)%Z with (p - prec + 1)%Z by lia. rewrite bpow_plus. cbn. lra.
Qed.

(** [x] is finite and within [d] of [v]. *)
Definition ap (x : spec_float) (v d : R) : Prop := exists a, st x a /\ (Rabs (a - v) <= d)%R.
Lemma ap_exact x v : st x v -> ap x v 0.
Proof. intros H. exists v. split; [exact H|]. rewrite Rminus_eq_0, Rabs_R0. lra. Qed.
Lemma ap_weaken x v d d' : (d <= d')%R -> ap x v d -> ap x v d'.
Proof. intros H (a & S & D). exists a. split; [exact S|lra]. Qed.
Lemma fits p x : (2 - emax <= p < emax)%Z -> (Rabs x <= bp p)%R -> (Rabs (rnd x) < bp emax)%R.
Proof. intros H1 H2. apply (rnd_lt prec emax Hp x p); [pose proof pos_p; lia|exact H2]. Qed.
Lemma tri a b : (Rabs (a + b) <= Rabs a + Rabs b)%R. Proof. apply Rabs_triang. Qed.
Lemma near_abs a v d : (Rabs (a - v) <= d)%R -> (Rabs a <= Rabs v + d)%R.
Proof. intros H. replace a with (v + (a - v))%R by ring. pose proof (tri v (a - v)). lra. Qed.
Lemma ap_add x y v1 v2 d1 d2 p : (2 - emax <= p < emax)%Z -> ap x v1 d1 -> ap y v2 d2 -> (Rabs v1 + Rabs v2 + (d1 + d2) <= bp p)%R ->
  ap (SFadd prec emax x y) (v1 + v2) (d1 + d2 + bp (p - prec)).
Proof.
  intros Hp' (a & S & D) (b & T & D') H. pose proof (near_abs _ _ _ D). pose proof (near_abs _ _ _ D').
  assert (BB : (Rabs (a + b) <= bp p)%R) by (pose proof (tri a b); lra).
  exists (rnd (a + b)). split; [apply add_ok; [assumption..|now apply (fits p)]|].
  replace (rnd (a + b) - (v1 + v2))%R with ((a - v1) + (b - v2) + (rnd (a + b) - (a + b)))%R by ring.
  pose proof (tri ((a - v1) + (b - v2)) (rnd (a + b) - (a + b))). pose proof (tri (a - v1) (b - v2)). pose proof (half_ulp (a + b) p ltac:(lia) BB). lra.
Qed.
Lemma ap_sub x y v1 v2 d1 d2 p : (2 - emax <= p < emax)%Z -> ap x v1 d1 -> ap y v2 d2 -> (Rabs v1 + Rabs v2 + (d1 + d2) <= bp p)%R ->
  ap (SFsub prec emax x y) (v1 - v2) (d1 + d2 + bp (p - prec)).
Proof.
  intros Hp' (a & S & D) (b & T & D') H. pose proof (near_abs _ _ _ D). pose proof (near_abs _ _ _ D').
  assert (BB : (Rabs (a - b) <= bp p)%R) by (unfold Rminus; pose proof (tri a (- b)) as Q; rewrite Rabs_Ropp in Q; lra).
  exists (rnd (a - b)). split; [apply sub_ok; [assumption..|now apply (fits p)]|].
  replace (rnd (a - b) - (v1 - v2))%R with ((a - v1) + - (b - v2) + (rnd (a - b) - (a - b)))%R by ring.
  pose proof (tri ((a - v1) + - (b - v2)) (rnd (a - b) - (a - b))). pose proof (tri (a - v1) (- (b - v2))) as Q. rewrite Rabs_Ropp in Q. pose proof (half_ulp (a - b) p ltac:(lia) BB). lra.
Qed.
Lemma ap_mul x y v1 b d1 p : (2 - emax <= p < emax)%Z -> ap x v1 d1 -> st y b -> ((Rabs v1 + d1) * Rabs b <= bp p)%R ->
  ap (SFmul prec emax x y) (v1 * b) (d1 * Rabs b + bp (p - prec)).
Proof.
  intros Hp' (a & S & D) T H. pose proof (near_abs _ _ _ D) as NA. pose proof (Rabs_pos b) as PB.
  assert (BB : (Rabs (a * b) <= bp p)%R).
  { rewrite Rabs_mult. apply Rle_trans with (2 := H). now apply Rmult_le_compat_r. }
  exists (rnd (a * b)). split; [apply mul_ok; [assumption..|now apply (fits p)]|].
  replace (rnd (a * b) - v1 * b)%R with ((a - v1) * b + (rnd (a * b) - a * b))%R by ring.
  pose proof (tri ((a - v1) * b) (rnd (a * b) - a * b)) as Q. rewrite Rabs_mult in Q. pose proof (half_ulp (a * b) p ltac:(lia) BB).
  pose proof (Rmult_le_compat_r _ _ _ PB D). lra.
Qed.

(** The exact sums after at most [j] steps. *)
Definition rel2 (j : Z) (s : sums A) (q : TlsModel.sums) : Prop :=
  (exists y, TlsModel.sumXi q == inject_Z y /\ (Z.abs y <= 2 ^ prec)%Z /\ st (sumXi A s) (IZR y * bp e)) /\
  (exists c, TlsModel.ris q == inject_Z (c * 2 ^ (k - e)) /\ (Z.abs c <= 2 ^ prec)%Z /\ st (ris A s) (IZR c * bp k)) /\
  (exists y2, TlsModel.sumXiSquare q == inject_Z y2 /\ (Z.abs y2 <= 2 ^ (L + 2 * m))%Z /\ ap (sumXiSquare A s) (IZR y2 * bp (2 * e)) (IZR j * (8 * X))).
Definition small2 (q : TlsModel.sums) : Prop :=
  (exists y, TlsModel.sumXi q == inject_Z y /\ (Z.abs y <= 2 ^ prec)%Z) /\
  (exists c, TlsModel.ris q == inject_Z (c * 2 ^ (k - e)) /\ (Z.abs c <= 2 ^ prec)%Z) /\
  (exists y2, TlsModel.sumXiSquare q == inject_Z y2 /\ (Z.abs y2 <= 2 ^ (L + 2 * m))%Z).

Lemma m_pos : (0 <= m)%Z. Proof. destruct G as (_ & _ & _ & _ & ? & _); assumption. Qed.
Lemma e_k : (e <= k)%Z. Proof. destruct G as (_ & _ & _ & ? & _); assumption. Qed.
Lemma X_pos : (0 < X)%R. Proof. apply bpow_gt_0. Qed.
Lemma B_X : B = (bp prec * X)%R.
Proof. unfold B, X. rewrite <- bpow_plus. f_equal. lia. Qed.
Lemma pow_IZR p : (0 <= p)%Z -> IZR (2 ^ p) = bp p. Proof. intros H. now rewrite (IZR_Zpower radix2). Qed.
Lemma scaled z p q : (Z.abs z <= 2 ^ p)%Z -> (0 <= p)%Z -> (Rabs (IZR z * bp q) <= bp (p + q))%R.
Proof.
  intros H1 H2. rewrite Rabs_mult, (Rabs_pos_eq (bp q)) by apply bpow_ge_0. rewrite bpow_plus. apply Rmult_le_compat_r; [apply bpow_ge_0|].
  rewrite <- abs_IZR, <- pow_IZR by lia. now apply IZR_le.
Qed.
Lemma total_err j : (0 <= j <= 2 ^ (L + 1))%Z -> (IZR j * (8 * X) <= B)%R /\ (0 <= IZR j * (8 * X))%R.
Proof.
  intros H. pose proof X_pos as XP. destruct HL as (L0 & _ & L5 & _). split; [|apply Rmult_le_pos; [now apply IZR_le|lra]].
  rewrite B_X. replace (IZR j * (8 * X))%R with (IZR j * 8 * X)%R by ring. apply Rmult_le_compat_r; [lra|].
  apply Rle_trans with (bp (L + 1) * bp 3)%R; [|rewrite <- bpow_plus; apply bpow_le; lia].
  change (bp 3) with 8%R. apply Rmult_le_compat_r; [lra|]. rewrite <- pow_IZR by lia. apply IZR_le. lia.
Qed.

Ltac slim := repeat match goal with H : (Z.abs _ <= _)%Z |- _ => clear H | H : Z.abs _ = _ |- _ => clear H end.
Lemma step_rel2 j s q t q1 s1 : (0 <= j)%Z -> (j + 1 <= 2 ^ (L + 1))%Z -> rel2 j s q -> tag_ok n t -> TlsModel.step vq rq q t = Ret q1 -> small2 q1 ->
  step A values ranges s t = Ret s1 -> rel2 (j + 1) s1 q1.
Proof.
  intros J0 J1 ((y & R1 & R2 & R3) & (c0 & R4 & R5 & R6) & (y2 & R7 & R8 & R9)) [T1 T2] Q ((y' & S1 & S2) & (c' & S3 & S4) & (y2' & S5 & S6)) EE.
  set (i := Z.to_nat (Z.abs t - 1)). assert (Hi : (i < n)%nat) by (unfold i; lia).
  destruct (value_ok i Hi) as (v & r & E1 & E2 & V & W & BZ). pose proof m_le as ML. pose proof one_le as OL. pose proof rho_pos as RP. pose proof m_pos as M0. pose proof e_k as EK. pose proof X_pos as XP.
  assert (ZB : (Z.abs (nth i zs 0%Z) <= 2 ^ m)%Z) by (clear - BZ RP; lia). clear BZ.
  destruct HL as (L0 & L1 & L2 & L3). destruct HO as (O1 & O2 & O3 & O4 & O5 & O6).
  unfold step, zread in EE. rewrite (proj2 (Z.ltb_ge _ _)) in EE by (clear - T1; lia). fold i in EE. unfold vread in EE. change (num A) with spec_float in EE. rewrite E1, E2 in EE. cbn [obind] in EE.
  unfold TlsModel.step, TlsModel.zread in Q. rewrite (proj2 (Z.ltb_ge _ _)) in Q by (clear - T1; lia). fold i in Q.
  unfold vread in Q. rewrite (nth_error_nth' vq 0%Q (n := i)), (nth_error_nth' rq 0%Q (n := i)) in Q by (rewrite ?len_vq; unfold rq; rewrite ?repeat_length; exact Hi).
  cbn [obind] in Q. injection Q as <-. cbn [TlsModel.ris TlsModel.sumXi TlsModel.sumXiSquare] in S1, S3, S5.
  change (nth i vq 0%Q) with (TlsSpec.val vq i) in *. change (nth i rq 0%Q) with (TlsSpec.rng rq i) in *. rewrite vq_nth in S1, S5. rewrite rq_nth in S3 by exact Hi.
  set (c := if (0 <? t)%Z then 1%Z else (-1)%Z) in *. assert (C : Z.abs c = 1%Z) by (unfold c; destruct (0 <? t)%Z; reflexivity).
  injection EE as <-. set (z := nth i zs 0%Z) in *.
  assert (CB : (Z.abs c <= 2 ^ prec)%Z) by (rewrite C; exact OL).
  assert (CZ : (Z.abs (c * z) <= 2 ^ m)%Z) by (rewrite Z.abs_mul, C, Z.mul_1_l; exact ZB).
  assert (CZ' : (Z.abs (c * z) <= 2 ^ prec)%Z) by (apply Z.le_trans with (1 := CZ); exact ML).

  assert (Ey : (y' = y + c * z)%Z) by (apply inject_Z_injective; rewrite inject_Z_plus, inject_Z_mult, <- R1; symmetry; exact S1).
  assert (Ec : (c' * 2 ^ (k - e) = c0 * 2 ^ (k - e) - c * 2 ^ (k - e))%Z).
  { apply inject_Z_injective. unfold Z.sub. rewrite inject_Z_plus, inject_Z_opp, (inject_Z_mult c), <- R4. rewrite <- S3. reflexivity. }
  assert (Ec' : (c' = c0 - c)%Z) by (apply (Z.mul_reg_r _ _ (2 ^ (k - e))); [clear - RP; lia|rewrite Z.mul_sub_distr_r; exact Ec]).
  assert (Ey2 : (y2' = y2 + c * z * z)%Z) by (apply inject_Z_injective; rewrite inject_Z_plus, !inject_Z_mult, <- R7; symmetry; exact S5).
  assert (KC : st (of_int A c) (IZR c)) by (apply int_ok; exact CB).
  assert (KV : st (mul A (of_int A c) v) (IZR (c * z) * bp e)).
  { destruct (grid_bound (c * z) CZ' e) as [Y1 Y2]; [slim; lia|slim; lia|].
    replace (IZR (c * z) * bp e)%R with (IZR c * (IZR z * bp e))%R in * by (rewrite mult_IZR; ring). now apply mul_exact. }
  split; [|split]; cbn [sumXi ris sumXiSquare TlsModel.ris TlsModel.sumXi TlsModel.sumXiSquare];
    change (nth i vq 0%Q) with (TlsSpec.val vq i) in *; change (nth i rq 0%Q) with (TlsSpec.rng rq i) in *; rewrite ?vq_nth, ?(rq_nth i Hi); fold z.
  - exists y'. split; [exact S1|]. split; [exact S2|]. subst y'. destruct (grid_bound _ S2 e) as [X1 X2]; [slim; lia|slim; lia|].
    rewrite plus_IZR, Rmult_plus_distr_r in *. now apply add_exact.
  - exists c'. split; [exact S3|]. split; [exact S4|]. rewrite Ec' in *. destruct (grid_bound _ S4 k) as [X1 X2]; [slim; lia|slim; lia|].
    assert (KR : st (mul A (of_int A c) r) (IZR c * bp k)).
    { apply mul_exact; [exact Hp|exact Hm|exact KC|exact W|..]; apply (grid_bound c CB k); slim; lia. }
    rewrite minus_IZR in *. replace ((IZR c0 - IZR c) * bp k)%R with (IZR c0 * bp k - IZR c * bp k)%R in * by ring. now apply sub_exact.
  - exists y2'. split; [exact S5|]. split; [exact S6|]. subst y2'.
    assert (AZ : (Rabs (IZR z * bp e) <= bp P)%R) by (unfold P; apply scaled; [exact ZB|exact M0]).
    assert (ACZ : (Rabs (IZR (c * z) * bp e) <= bp P)%R) by (unfold P; apply scaled; [exact CZ|exact M0]).
    assert (KK : ap (mul A (mul A (of_int A c) v) v) (IZR (c * z) * bp e * (IZR z * bp e)) (0 * Rabs (IZR z * bp e) + bp (2 * P - prec))).
    { apply ap_mul; [unfold P; slim; lia|now apply ap_exact|exact V|]. rewrite Rplus_0_r. replace (2 * P)%Z with (P + P)%Z by (slim; lia). rewrite bpow_plus.
      apply Rmult_le_compat; auto using Rabs_pos. }
    rewrite Rmult_0_l, Rplus_0_l in KK.
    assert (BPP : (bp (2 * P - prec) <= X)%R) by (unfold X; apply bpow_le; slim; lia).
    destruct (total_err j) as [TE1 TE2]; [slim; lia|].
    assert (A1 : (Rabs (IZR y2 * bp (2 * e)) <= B)%R) by (unfold B, P; replace (L + 2 * (m + e))%Z with (L + 2 * m + 2 * e)%Z by (slim; lia); apply scaled; [exact R8|slim; lia]).
    assert (A2 : (Rabs (IZR (c * z) * bp e * (IZR z * bp e)) <= B)%R).
    { rewrite Rabs_mult. apply Rle_trans with (bp P * bp P)%R; [apply Rmult_le_compat; auto using Rabs_pos|]. unfold B. rewrite <- bpow_plus. apply bpow_le. slim; lia. }
    assert (XB : (X <= B)%R) by (unfold X, B; apply bpow_le; slim; lia).
    assert (B4 : bp (L + 2 * P + 2) = (4 * B)%R) by (unfold B; rewrite (bpow_plus radix2 (L + 2 * P)); change (bp 2) with 4%R; ring).
    pose proof (ap_add _ _ _ _ _ _ (L + 2 * P + 2) ltac:(unfold P; slim; lia) R9 KK ltac:(lra)) as AA.
    replace (IZR (y2 + c * z * z) * bp (2 * e))%R with (IZR y2 * bp (2 * e) + IZR (c * z) * bp e * (IZR z * bp e))%R
      by (rewrite plus_IZR, !mult_IZR; replace (2 * e)%Z with (e + e)%Z by (slim; lia); rewrite bpow_plus; ring).
    refine (ap_weaken _ _ _ _ _ AA). rewrite plus_IZR.
    assert (X4 : bp (L + 2 * P + 2 - prec) = (4 * X)%R) by (unfold X; replace (L + 2 * P + 2 - prec)%Z with (L + 2 * P - prec + 2)%Z by (slim; lia); rewrite bpow_plus; change (bp 2) with 4%R; ring).
    rewrite X4. lra.
Qed.

Lemma sweep_rel2 : forall evs j s q tq, rel s q -> rel2 j s q -> (0 <= j)%Z -> (j + Z.of_nat (length evs) <= 2 ^ (L + 1))%Z -> (forall x, In x evs -> tag_ok n (snd x)) ->
  TlsModel.sweep vq rq q (map tokey evs) = Ret tq -> (forall x, In x tq -> small (fst x)) -> (forall x, In x tq -> small2 (fst x)) ->
  exists t, sweep A values ranges s evs = Ret t /\ Forall2 (fun c x => exists s', c = candidate A s' /\ rel s' (fst x) /\ rel2 (2 ^ (L + 1)) s' (fst x)) t tq.
Proof.
  induction evs as [|[x t] evs IH]; intros j s q tq R R' J0 J T Q S S'; cbn [map sweep TlsModel.sweep tokey snd length] in *.
  - injection Q as <-. exists []. split; [reflexivity|constructor].
  - destruct (TlsModel.step vq rq q t) as [q1| | |] eqn:Q1; cbn [obind] in Q; try discriminate.
    destruct (TlsModel.candidate q1) as [c| | |]; cbn [obind] in Q; try discriminate.
    destruct (TlsModel.sweep vq rq q1 (map tokey evs)) as [r| | |] eqn:Q2; cbn [obind] in Q; try discriminate. injection Q as <-.
    destruct (step_rel s q t q1 R (T (x, t) (or_introl eq_refl)) Q1 (S (q1, c) (or_introl eq_refl))) as (s1 & ES1 & R1).
    pose proof (step_rel2 j s q t q1 s1 J0 ltac:(lia) R' (T (x, t) (or_introl eq_refl)) Q1 (S' (q1, c) (or_introl eq_refl)) ES1) as R1'. rewrite ES1. cbn [obind].
    destruct (IH (j + 1)%Z s1 q1 r R1 R1' ltac:(lia) ltac:(lia) (fun y h => T y (or_intror h)) Q2 (fun y h => S y (or_intror h)) (fun y h => S' y (or_intror h))) as (tt & -> & F). cbn [obind].
    eexists. split; [reflexivity|]. constructor; [|exact F]. exists s1. split; [reflexivity|]. split; [exact R1|].
    destruct R1' as (U1 & U2 & (y2 & U3 & U4 & U5)). split; [exact U1|]. split; [exact U2|]. exists y2. split; [exact U3|]. split; [exact U4|].
    refine (ap_weaken _ _ _ _ _ U5). apply Rmult_le_compat_r; [pose proof X_pos; lra|]. apply IZR_le. lia.
Qed.

Lemma cost_near s N y c y2 hv : card A s = N -> (Z.abs N <= 2 ^ L)%Z -> st (sumXi A s) (IZR y * bp e) -> (Z.abs y <= 2 ^ (L + m))%Z ->
  st (ris A s) (IZR c * bp k) -> (Z.abs c <= 2 ^ L)%Z -> ap (sumXiSquare A s) (IZR y2 * bp (2 * e)) (16 * bp L * X) -> (Z.abs y2 <= 2 ^ (L + 2 * m))%Z ->
  st (div A (vw A s) (cw A s)) hv -> (Rabs hv <= bp P)%R ->
  ap (snd (candidate A s)) (IZR N * hv * hv + IZR y2 * bp (2 * e) - 2 * (IZR y * bp e) * hv + IZR c * bp k) (37 * X + 16 * bp L * X + 2 * bp (L + k - prec)).
Proof.
  intros HN BN SY BY SR BC SQ B2 SH BH. unfold candidate. cbn [snd]. rewrite HN. set (h := div A (vw A s) (cw A s)) in *.
  pose proof X_pos as XP. pose proof m_pos as M0. pose proof (Rabs_pos hv) as H0.
  destruct HL as (L0 & L1 & L2 & L3). destruct HO as (O1 & O2 & O3 & O4 & O5 & O6).
  assert (L1' : (2 ^ L <= 2 ^ prec)%Z) by (apply Z.pow_le_mono_r; slim; lia).
  assert (KN : st (of_int A N) (IZR N)) by (apply int_ok; apply Z.le_trans with (1 := BN); exact L1').
  assert (K2 : st (of_int A 2) 2) by (apply (int_ok 2); exact two_le).
  assert (EN : (Rabs (IZR N) <= bp L)%R) by (rewrite <- abs_IZR, <- pow_IZR by exact L0; now apply IZR_le).
  assert (EY : (Rabs (IZR y * bp e) <= bp (L + P))%R) by (unfold P; replace (L + (m + e))%Z with (L + m + e)%Z by ring; apply scaled; [exact BY|slim; lia]).
  assert (EQ : (Rabs (IZR y2 * bp (2 * e)) <= B)%R) by (unfold B, P; replace (L + 2 * (m + e))%Z with (L + 2 * m + 2 * e)%Z by ring; apply scaled; [exact B2|slim; lia]).
  assert (EC : (Rabs (IZR c * bp k) <= bp (L + k))%R) by (apply scaled; [exact BC|exact L0]).
  assert (BLP : (bp (L + P) * bp P = B)%R) by (unfold B; rewrite <- bpow_plus; f_equal; ring).
  assert (XLP : (bp (L + P - prec) * bp P = X)%R) by (unfold X; rewrite <- bpow_plus; f_equal; ring).
  assert (NH : (Rabs (IZR N * hv) <= bp (L + P))%R) by (rewrite Rabs_mult, bpow_plus; apply Rmult_le_compat; auto using Rabs_pos).
  assert (NHH : (Rabs (IZR N * hv * hv) <= B)%R) by (rewrite Rabs_mult, <- BLP; apply Rmult_le_compat; auto using Rabs_pos).
  assert (YH : (Rabs (IZR y * bp e * hv) <= B)%R) by (rewrite Rabs_mult, <- BLP; apply Rmult_le_compat; auto using Rabs_pos).
  assert (DB : (16 * bp L * X <= B)%R).
  { rewrite B_X. apply Rmult_le_compat_r; [lra|]. change 16%R with (bp 4). rewrite <- bpow_plus. apply bpow_le. slim; lia. }
  assert (D0 : (0 <= 16 * bp L * X)%R) by (apply Rmult_le_pos; [pose proof (bpow_ge_0 radix2 L)|]; lra).
  assert (XB : (128 * X <= B)%R).
  { rewrite B_X. apply Rmult_le_compat_r; [lra|]. change 128%R with (bp 7). apply bpow_le. slim; lia. }
  assert (sh : forall p a, bp (p + a - prec) = (bp a * bp (p - prec))%R) by (intros p a; rewrite <- bpow_plus; f_equal; ring).
  assert (sh' : forall p a, bp (p + a) = (bp a * bp p)%R) by (intros p a; rewrite <- bpow_plus; f_equal; ring).
  (* N * h *)
  pose proof (ap_mul _ _ _ _ _ (L + P) ltac:(unfold P; slim; lia) (ap_exact _ _ KN) SH) as T1. rewrite Rplus_0_r, Rmult_0_l, Rplus_0_l in T1.
  specialize (T1 ltac:(rewrite <- Rabs_mult; exact NH)).
  (* N * h * h *)
  assert (U0 : (bp (L + P - prec) <= bp (L + P))%R) by (apply bpow_le; slim; lia).
  assert (U1 : ((Rabs (IZR N * hv) + bp (L + P - prec)) * Rabs hv <= 2 * B)%R).
  { rewrite <- BLP. replace (2 * (bp (L + P) * bp P))%R with ((2 * bp (L + P)) * bp P)%R by ring.
    apply Rmult_le_compat; [pose proof (Rabs_pos (IZR N * hv)); pose proof (bpow_ge_0 radix2 (L + P - prec)); lra|exact H0|lra|exact BH]. }
  pose proof (ap_mul _ _ _ _ _ (L + 2 * P + 1) ltac:(unfold P; slim; lia) T1 SH) as T2.
  specialize (T2 ltac:(rewrite (sh' (L + 2 * P)%Z 1%Z); fold B; change (bp 1) with 2%R; exact U1)). rewrite (sh (L + 2 * P)%Z 1%Z) in T2. fold X in T2. change (bp 1) with 2%R in T2.
  assert (U2 : (bp (L + P - prec) * Rabs hv <= X)%R) by (rewrite <- XLP; apply Rmult_le_compat_l; [apply bpow_ge_0|exact BH]).
  eapply (ap_weaken _ _ _ (3 * X)%R) in T2; [|lra].
  (* + sum of squares *)
  pose proof (ap_add _ _ _ _ _ _ (L + 2 * P + 2) ltac:(unfold P; slim; lia) T2 SQ) as T3.
  rewrite (sh (L + 2 * P)%Z 2%Z), (sh' (L + 2 * P)%Z 2%Z) in T3. fold B in T3. fold X in T3. change (bp 2) with 4%R in T3. specialize (T3 ltac:(lra)).
  (* 2 * sum *)
  pose proof (ap_mul _ _ _ _ _ (L + P + 1) ltac:(unfold P; slim; lia) (ap_exact _ _ K2) SY) as T4.
  rewrite (sh (L + P)%Z 1%Z), (sh' (L + P)%Z 1%Z) in T4. change (bp 1) with 2%R in T4. rewrite Rplus_0_r, Rmult_0_l, Rplus_0_l, (Rabs_pos_eq 2) in T4 by lra. specialize (T4 ltac:(lra)).
  (* * h *)
  pose proof (ap_mul _ _ _ _ _ (L + 2 * P + 2) ltac:(unfold P; slim; lia) T4 SH) as T5.
  rewrite (sh (L + 2 * P)%Z 2%Z), (sh' (L + 2 * P)%Z 2%Z) in T5. fold B in T5. fold X in T5. change (bp 2) with 4%R in T5.
  assert (U3 : ((Rabs (2 * (IZR y * bp e)) + 2 * bp (L + P - prec)) * Rabs hv <= 4 * B)%R).
  { rewrite <- BLP. replace (4 * (bp (L + P) * bp P))%R with ((4 * bp (L + P)) * bp P)%R by ring. rewrite Rabs_mult, (Rabs_pos_eq 2) by lra.
    apply Rmult_le_compat; [pose proof (Rabs_pos (IZR y * bp e)); pose proof (bpow_ge_0 radix2 (L + P - prec)); lra|exact H0|lra|exact BH]. }
  specialize (T5 U3). eapply (ap_weaken _ _ _ (6 * X)%R) in T5; [|lra].
  assert (YH2 : (Rabs (2 * (IZR y * bp e) * hv) <= 2 * B)%R) by (rewrite Rmult_assoc, Rabs_mult, (Rabs_pos_eq 2) by lra; lra).
  (* the residual *)
  assert (V1 := tri (IZR N * hv * hv) (IZR y2 * bp (2 * e))).
  pose proof (ap_sub _ _ _ _ _ _ (L + 2 * P + 3) ltac:(unfold P; slim; lia) T3 T5) as T6.
  rewrite (sh (L + 2 * P)%Z 3%Z), (sh' (L + 2 * P)%Z 3%Z) in T6. fold B in T6. fold X in T6. change (bp 3) with 8%R in T6. specialize (T6 ltac:(lra)).
  (* the cost *)
  set (U := Z.max (L + 2 * P + 3) (L + k)).
  assert (W1 : (8 * B <= bp U)%R) by (unfold B; change 8%R with (bp 3); rewrite <- bpow_plus; apply bpow_le; unfold U; slim; lia).
  assert (W2 : (bp (L + k) <= bp U)%R) by (apply bpow_le; unfold U; slim; lia).
  assert (W3 : (bp (U - prec) <= 8 * X + bp (L + k - prec))%R).
  { unfold U. pose proof (bpow_ge_0 radix2 (L + k - prec)). destruct (Z.max_spec (L + 2 * P + 3) (L + k)) as [[_ ->]|[_ ->]]; [lra|]. rewrite (sh (L + 2 * P)%Z 3%Z). fold X. change (bp 3) with 8%R. lra. }
  assert (V2 : (Rabs (IZR N * hv * hv + IZR y2 * bp (2 * e) - 2 * (IZR y * bp e) * hv) <= 4 * B)%R).
  { unfold Rminus. pose proof (tri (IZR N * hv * hv + IZR y2 * bp (2 * e)) (- (2 * (IZR y * bp e) * hv))) as Q. rewrite Rabs_Ropp in Q. lra. }
  pose proof (ap_add _ _ _ _ _ _ (U + 1) ltac:(unfold U, P; slim; lia) T6 (ap_exact _ _ SR)) as T7.
  rewrite (sh (U)%Z 1%Z), (sh' (U)%Z 1%Z) in T7. change (bp 1) with 2%R in T7. specialize (T7 ltac:(lra)).
  refine (ap_weaken _ _ _ _ _ T7). lra.
Qed.

Definition sumsq (S : list nat) : Z := fold_right (fun i acc => nth i zs 0 * nth i zs 0 + acc)%Z 0%Z S.
Lemma total_sumsq S : TlsSpec.total (fun i => TlsSpec.val vq i * TlsSpec.val vq i)%Q S == inject_Z (sumsq S).
Proof. induction S as [|i S IH]; [reflexivity|]. rewrite TlsProofs.total_cons, IH, vq_nth. cbn [sumsq fold_right]. now rewrite inject_Z_plus, inject_Z_mult. Qed.
Lemma total_rng S : (forall i, In i S -> (i < n)%nat) -> TlsSpec.total (TlsSpec.rng rq) S == inject_Z (Z.of_nat (length S) * 2 ^ (k - e)).
Proof.
  intros H. rewrite (TlsProofs.total_ext _ (fun _ => inject_Z (2 ^ (k - e)))); [rewrite TlsProofs.total_const, inject_Z_mult; reflexivity|].
  intros i Hi. now rewrite rq_nth by now apply H.
Qed.
Lemma sumsq_bound S : (forall i, In i S -> (i < n)%nat) -> (0 <= sumsq S <= Z.of_nat (length S) * (2 ^ m * 2 ^ m))%Z.
Proof.
  induction S as [|i S IH]; intros H; [cbn; lia|]. specialize (IH (fun j h => H j (or_intror h))). destruct (value_ok i (H i (or_introl eq_refl))) as (_ & _ & _ & _ & _ & _ & BB).
  pose proof rho_pos. assert (Z.abs (nth i zs 0%Z) <= 2 ^ m)%Z by lia. cbn [sumsq fold_right length]. change (fold_right _ 0%Z S) with (sumsq S).
  assert (0 <= nth i zs 0 * nth i zs 0 <= 2 ^ m * 2 ^ m)%Z by (split; [apply Z.square_nonneg|rewrite <- Z.abs_square; apply Z.mul_le_mono_nonneg; lia]).
  replace (Z.of_nat (Datatypes.S (length S)))%Z with (1 + Z.of_nat (length S))%Z by lia. rewrite Z.mul_add_distr_r. lia.
Qed.
Lemma set_bounds S : NoDup S -> (forall i, In i S -> (i < n)%nat) ->
  (Z.of_nat (length S) <= 2 ^ L)%Z /\ (Z.abs (sumz S) <= 2 ^ (L + m))%Z /\ (Z.abs (sumsq S) <= 2 ^ (L + 2 * m))%Z /\ (Z.of_nat n - Z.of_nat (length S) <= 2 ^ L)%Z /\ (length S <= n)%nat.
Proof.
  intros ND SB. pose proof (subset_length S ND SB) as LS. pose proof (sumz_bound S SB) as BS. pose proof (sumsq_bound S SB) as BQ. pose proof m_pos as M0. destruct HL as (L0 & L1 & _).
  assert (LL : (Z.of_nat (length S) <= 2 ^ L)%Z) by lia. assert (PM : (0 < 2 ^ m)%Z) by (apply Z.pow_pos_nonneg; lia).
  split; [exact LL|]. split; [|split; [|split; [lia|exact LS]]].
  - apply Z.le_trans with (1 := BS). rewrite Z.pow_add_r by lia. apply Z.mul_le_mono_nonneg_r; lia.
  - rewrite Z.abs_eq by lia. apply Z.le_trans with (1 := proj2 BQ). rewrite Z.pow_add_r by lia. replace (2 * m)%Z with (m + m)%Z by lia. rewrite Z.pow_add_r by lia.
    apply Z.mul_le_mono_nonneg_r; [apply Z.mul_nonneg_nonneg; lia|exact LL].
Qed.

Lemma trace2 : exists t, sweep A values ranges (sums0 A ranges) (sort es) = Ret t /\ length t = (2 * n)%nat /\
  forall j, (j < 2 * n)%nat -> exists b s', nth_error (map tokey (sort es)) j = Some b /\ nth_error t j = Some (candidate A s') /\
    let S := act_at j b in NoDup S /\ (forall i, In i S -> (i < n)%nat) /\ card A s' = Z.of_nat (length S) /\
    st (cw A s') (IZR (Z.of_nat (length S)) * bp (-2 * k)) /\ st (vw A s') (IZR (sumz S) * bp (e - 2 * k)) /\ st (sumXi A s') (IZR (sumz S) * bp e) /\
    st (ris A s') (IZR (Z.of_nat n - Z.of_nat (length S)) * bp k) /\ ap (sumXiSquare A s') (IZR (sumsq S) * bp (2 * e)) (16 * bp L * X).
Proof.
  destruct es_facts as [M1 F].
  assert (Hn : (Z.of_nat n < 2 ^ 31)%Z) by (destruct G as (_ & _ & _ & _ & _ & _ & _ & H & _); exact H).
  assert (Hl : length values = length ranges) by (symmetry; apply G).
  assert (Hnm : (Z.of_nat n * 2 ^ m <= 2 ^ prec)%Z) by (destruct G as (_ & _ & _ & _ & _ & _ & ? & _); assumption).
  pose proof m_pos as M0. pose proof rho_pos as RP. pose proof n_le as NLE.
  pose proof (proj1 (sortq_sorts E)) as EP. pose proof (proj2 (sortq_sorts E)) as ES'.
  assert (H31 : (Z.of_nat (length vq) < 2 ^ 31)%Z) by (rewrite len_vq; exact Hn).
  destruct (TlsProofs.sweep_ok vq rq positive H31 (sortq E) EP ES' (sortq E) [] (TlsModel.sums0 rq) eq_refl (TlsProofs.sums0_ok vq rq positive)) as (tq & TQ & LQ & HQ0).
  rewrite (TlsProofs.eps_length vq rq positive H31 (sortq E) EP), len_vq in LQ, HQ0. cbn [app] in HQ0.
  assert (HQ : forall j, (j < 2 * n)%nat -> exists b s c, nth_error (sortq E) j = Some b /\ nth_error tq j = Some (s, c) /\
    let S := TlsProofs.act vq (firstn j (sortq E) ++ [b]) in NoDup S /\ (forall i, In i S -> (i < n)%nat) /\
    TlsModel.card s = Z.of_nat (length S) /\ TlsModel.sumXi s == inject_Z (sumz S) /\ TlsModel.sumXiSquare s == inject_Z (sumsq S) /\
    TlsModel.ris s == inject_Z ((Z.of_nat n - Z.of_nat (length S)) * 2 ^ (k - e))).
  { intros j Hj. destruct (HQ0 j Hj) as (s & c & p & ev & r' & H1 & H2 & (_ & C2 & C3 & C4 & _ & C6) & H4). exists (p, ev), s, c.
    destruct (TlsProofs.firstn_S_app (sortq E) j (p, ev) r' H2) as [Hx _]; [rewrite (TlsProofs.eps_length vq rq positive H31 (sortq E) EP), len_vq; exact Hj|].
    split; [exact Hx|]. split; [exact H1|]. cbv zeta. set (S := TlsProofs.act vq _) in *.
    destruct (TlsProofs.act_subset vq (firstn j (sortq E) ++ [(p, ev)])) as [ND SB]. fold S in ND, SB. rewrite len_vq in SB.
    split; [exact ND|]. split; [exact SB|]. split; [exact C2|]. split; [now rewrite C3, total_sumz|]. split; [now rewrite C4, total_sumsq|].
    rewrite C6, len_vq, (total_rng S SB), (total_rng (seq 0 n)) by (intros i Hi; apply in_seq in Hi; lia). rewrite seq_length.
    unfold Qminus. rewrite <- inject_Z_opp, <- inject_Z_plus. apply inject_Z_injective. ring. }
  clear HQ0.
  assert (SE : sortq E = map tokey (sort es)) by (unfold sortq; destruct (list_eq_dec point_eq E E); congruence).
  rewrite SE in TQ, HQ.
  assert (SM : forall x, In x tq -> small (fst x) /\ small2 (fst x)).
  { intros x Hx. apply In_nth_error in Hx. destruct Hx as (j & Hj). assert (Hj' : (j < 2 * n)%nat) by (rewrite <- LQ; apply nth_error_Some; congruence).
    destruct (HQ j Hj') as (b & s & c & _ & Nj & HS). cbv zeta in HS. set (S := TlsProofs.act vq _) in *. destruct HS as (ND & SB & C2 & C3 & C4 & C6).
    rewrite Hj in Nj. injection Nj as ->. cbn [fst].
    destruct (set_bounds S ND SB) as (B1 & B2 & B3 & B4 & B5). pose proof (sumz_bound S SB) as BS.
    assert (BS' : (Z.abs (sumz S) <= 2 ^ prec)%Z).
    { apply Z.le_trans with (1 := BS). apply Z.le_trans with (2 := Hnm). apply Z.mul_le_mono_nonneg_r; [apply Z.pow_nonneg; lia|lia]. }
    split; [split; [rewrite C2, Z.abs_eq; [lia|lia]|]|].
    - exists (sumz S). split; [exact C3|exact BS'].
    - split; [exists (sumz S); split; [exact C3|exact BS']|]. split.
      + exists (Z.of_nat n - Z.of_nat (length S))%Z. split; [exact C6|rewrite Z.abs_eq; lia].
      + exists (sumsq S). split; [exact C4|exact B3]. }
  assert (TG : forall x, In x (sort es) -> tag_ok n (snd x)).
  { intros x Hx. apply (tags A n Hn values ranges 0); [exact Hl|lia|reflexivity|]. destruct (Hs es es_nan) as [PP _]. apply (Permutation_in _ (Permutation_sym PP)). exact Hx. }
  pose proof one_le as OL.
  assert (R0 : rel (sums0 A ranges) (TlsModel.sums0 rq)).
  { split; [reflexivity|]. split; [cbn; lia|]. split; [cbn [cw sums0 TlsModel.card TlsModel.sums0]; rewrite Rmult_0_l; apply int_ok; lia|].
    exists 0%Z. split; [reflexivity|]. split; [lia|]. rewrite Rmult_0_l. apply int_ok. lia. }
  assert (R0' : rel2 0 (sums0 A ranges) (TlsModel.sums0 rq)).
  { split; [|split]; cbn [sumXi ris sumXiSquare sums0 TlsModel.ris TlsModel.sumXi TlsModel.sumXiSquare TlsModel.sums0].
    - exists 0%Z. split; [reflexivity|]. split; [lia|]. rewrite Rmult_0_l. apply int_ok. lia.
    - exists (Z.of_nat n). split; [|split; [lia|]].
      + destruct (TlsProofs.sums0_ok vq rq positive) as (_ & _ & _ & _ & _ & C6). rewrite TlsProofs.act_nil in C6. cbn [TlsModel.ris TlsModel.sums0] in C6. rewrite C6, len_vq, (total_rng (seq 0 n)) by (intros i Hi; apply in_seq in Hi; lia).
        rewrite seq_length. change (TlsSpec.total (TlsSpec.rng rq) []) with 0%Q. unfold Qminus. rewrite Qplus_0_r. reflexivity.
      + replace n with (length ranges) by apply G. change (Z.of_nat (length ranges)) with (0 + Z.of_nat (length ranges))%Z. apply ranges_sum; [apply G|lia| |rewrite Rmult_0_l; apply int_ok; lia].
        replace (length ranges) with n by (symmetry; apply G). lia.
    - exists 0%Z. split; [reflexivity|]. split; [apply Z.pow_nonneg; lia|]. rewrite !Rmult_0_l. apply ap_exact, int_ok. lia. }
  assert (LE : length (sort es) = (2 * n)%nat).
  { destruct (Hs es es_nan) as [PP _]. transitivity (length es); [symmetry; exact (Permutation_length PP)|]. apply (endpoints_length A). exact Hl. }
  destruct HL as (L0 & L1 & L2 & L3).
  assert (LE' : (0 + Z.of_nat (length (sort es)) <= 2 ^ (L + 1))%Z) by (rewrite LE, Z.pow_add_r by lia; lia).
  destruct (sweep_rel2 (sort es) 0 _ _ tq R0 R0' ltac:(lia) LE') as (t & T & F2); [exact TG|exact TQ|intros x Hx; now apply SM|intros x Hx; now apply SM|].
  exists t. split; [exact T|]. split.
  { rewrite <- LQ. clear - F2. induction F2; [reflexivity|]. cbn [length]. f_equal. exact IHF2. }
  intros j Hj. destruct (HQ j Hj) as (b & s & c & Nb & Nq & HS). exists b.
  assert (Z' : exists s', nth_error t j = Some (candidate A s') /\ rel s' s /\ rel2 (2 ^ (L + 1)) s' s).
  { clear - F2 Nq. revert j Nq. induction F2; intros [|j] Nq; try discriminate; cbn in *; [|now apply (IHF2 j)]. inversion Nq; subst. destruct H as (s' & -> & H). now exists s'. }
  destruct Z' as (s' & Nt & (Q1 & Q2 & Q3 & y & Q4 & Q5 & Q6) & ((y' & V1 & V2 & V3) & (c' & V4 & V5 & V6) & (y2 & V7 & V8 & V9))). exists s'. split; [exact Nb|]. split; [exact Nt|].
  cbv zeta in *. change (TlsProofs.act vq (firstn j (map tokey (sort es)) ++ [b])) with (act_at j b) in *. set (S := act_at j b) in *. destruct HS as (ND & SB & C2 & C3 & C4 & C6).
  split; [exact ND|]. split; [exact SB|]. split; [now rewrite Q1|]. split; [now rewrite <- C2|].
  assert (Ey : y = sumz S) by (apply inject_Z_injective; rewrite <- Q4; exact C3). assert (Ey' : y' = sumz S) by (apply inject_Z_injective; rewrite <- V1; exact C3).
  assert (Ey2 : y2 = sumsq S) by (apply inject_Z_injective; rewrite <- V7; exact C4).
  assert (Ec : (c' = Z.of_nat n - Z.of_nat (length S))%Z).
  { apply (Z.mul_reg_r _ _ (2 ^ (k - e))); [clear - RP; lia|]. apply inject_Z_injective. rewrite <- V4. exact C6. }
  subst y y' y2 c'. split; [exact Q6|]. split; [exact V3|]. split; [exact V6|].
  replace (16 * bp L * X)%R with (IZR (2 ^ (L + 1)) * (8 * X))%R; [exact V9|]. rewrite pow_IZR by lia. rewrite bpow_plus. change (bp 1) with 2%R. ring.
Qed.

Lemma squares S h : fold_right (fun i acc => (IZR (nth i zs 0%Z) * bp e - h) * (IZR (nth i zs 0%Z) * bp e - h) + acc)%R 0%R S =
  (IZR (Z.of_nat (length S)) * h * h + IZR (sumsq S) * bp (2 * e) - 2 * (IZR (sumz S) * bp e) * h)%R.
Proof.
  assert (E2 : bp (2 * e) = (bp e * bp e)%R) by (rewrite <- bpow_plus; f_equal; lia). rewrite E2.
  induction S as [|i S IH]; [cbn; ring|]. cbn [fold_right length sumsq sumz]. rewrite IH. change (fold_right _ 0%Z S) with (sumsq S) at 1.
  change (fold_right (fun i0 acc => (nth i0 zs 0 + acc)%Z) 0%Z S) with (sumz S).
  rewrite Nat2Z.inj_succ. unfold Z.succ. rewrite !plus_IZR, mult_IZR. ring.
Qed.
Lemma tcost_poly S h : (length S <= n)%nat -> tcost zs e k S h =
  (IZR (Z.of_nat (length S)) * h * h + IZR (sumsq S) * bp (2 * e) - 2 * (IZR (sumz S) * bp e) * h + IZR (Z.of_nat n - Z.of_nat (length S)) * bp k)%R.
Proof. intros H. unfold tcost. rewrite squares, len_zs, INR_IZR_INZ, Nat2Z.inj_sub by exact H. reflexivity. Qed.
Lemma mean_facts S : S <> [] -> NoDup S -> (forall i, In i S -> (i < n)%nat) ->
  (IZR (sumz S) * bp (e - 2 * k) / (IZR (Z.of_nat (length S)) * bp (-2 * k)) = mean zs e S)%R /\ (Rabs (mean zs e S) <= bp P)%R /\
  (IZR (sumz S) * bp e = IZR (Z.of_nat (length S)) * mean zs e S)%R /\ (0 < IZR (Z.of_nat (length S)))%R.
Proof.
  intros NE ND SB. pose proof (sumz_bound S SB) as BS. pose proof m_pos as M0.
  assert (SP : (0 < Z.of_nat (length S))%Z) by (destruct S; [congruence|cbn [length]; lia]).
  assert (SP' : (0 < IZR (Z.of_nat (length S)))%R) by now apply IZR_lt.
  assert (EM : (IZR (sumz S) * bp e = IZR (Z.of_nat (length S)) * mean zs e S)%R) by (unfold mean; fold (sumz S); rewrite INR_IZR_INZ; field; lra).
  split; [|split; [|split; [exact EM|exact SP']]].
  - unfold mean. fold (sumz S). rewrite INR_IZR_INZ. unfold Z.sub. rewrite bpow_plus. replace (- (2 * k))%Z with (-2 * k)%Z by lia. field.
    split; [lra|apply Rgt_not_eq, bpow_gt_0].
  - apply Rmult_le_reg_l with (1 := SP'). rewrite <- (Rabs_pos_eq (IZR (Z.of_nat (length S)))) at 1 by lra. rewrite <- Rabs_mult, <- EM, Rabs_mult, (Rabs_pos_eq (bp e)) by apply bpow_ge_0.
    unfold P. rewrite bpow_plus, <- Rmult_assoc. apply Rmult_le_compat_r; [apply bpow_ge_0|]. rewrite <- abs_IZR, <- pow_IZR, <- mult_IZR by exact M0. now apply IZR_le.
Qed.
(** Moving away from the mean only adds to the cost. *)
Lemma tcost_mean S h : S <> [] -> NoDup S -> (forall i, In i S -> (i < n)%nat) ->
  tcost zs e k S h = (tcost zs e k S (mean zs e S) + IZR (Z.of_nat (length S)) * ((h - mean zs e S) * (h - mean zs e S)))%R.
Proof.
  intros NE ND SB. destruct (mean_facts S NE ND SB) as (_ & _ & EM & _). pose proof (subset_length S ND SB) as LS. rewrite !tcost_poly by exact LS. rewrite EM. ring.
Qed.
Lemma tcost_perm S T h : Permutation S T -> tcost zs e k S h = tcost zs e k T h.
Proof.
  intros PM. unfold tcost. rewrite (Permutation_length PM). f_equal. clear - PM. induction PM; cbn; [reflexivity|now rewrite IHPM|ring|now rewrite IHPM1].
Qed.

Definition slack : R := (107 * bp (2 * L + 2 * P - prec) + 4 * bp (L + k - prec))%R.
Lemma cand_cost s' S : S <> [] -> NoDup S -> (forall i, In i S -> (i < n)%nat) -> card A s' = Z.of_nat (length S) ->
  st (cw A s') (IZR (Z.of_nat (length S)) * bp (-2 * k)) -> st (vw A s') (IZR (sumz S) * bp (e - 2 * k)) -> st (sumXi A s') (IZR (sumz S) * bp e) ->
  st (ris A s') (IZR (Z.of_nat n - Z.of_nat (length S)) * bp k) -> ap (sumXiSquare A s') (IZR (sumsq S) * bp (2 * e)) (16 * bp L * X) ->
  ap (snd (candidate A s')) (tcost zs e k S (rnd (mean zs e S))) (37 * X + 16 * bp L * X + 2 * bp (L + k - prec)).
Proof.
  intros NE ND SB C1 C2 C3 C4 C5 C6. destruct (mean_facts S NE ND SB) as (D & BM & EM & SP). destruct (set_bounds S ND SB) as (B1 & B2 & B3 & B4 & B5).
  destruct HO as (O1 & O2 & O3 & O4 & O5 & O6). destruct HL as (L0 & L1 & L2 & L3).
  rewrite tcost_poly by exact B5. apply cost_near; try assumption; [rewrite Z.abs_eq; lia|rewrite Z.abs_eq; lia| |].
  - rewrite <- D. apply div_ok; [assumption..| |rewrite D].
    + apply Rmult_integral_contrapositive_currified; [lra|apply Rgt_not_eq, bpow_gt_0].
    + apply (fits P); [unfold P; lia|exact BM].
  - apply rnd_le; [assumption|unfold P; pose proof pos_p; lia|exact BM].
Qed.

Lemma opt_lemma : exists est S x, estimate A sort values ranges = Ret (est, inlier_flags A est values ranges) /\ S <> [] /\
  around zs (2 ^ (k - e)) x S /\ st est (rnd (mean zs e S)) /\
  forall y T h, inside zs (2 ^ (k - e)) y T -> T <> [] -> (tcost zs e k S (SF2R radix2 est) <= tcost zs e k T h + slack)%R.
Proof.
  destruct grid_strong as (est & S & x & t & j & kk & b & H1 & NE & H3 & H4 & T1 & LT & Nj & MIN & Nb & ES).
  exists est, S, x. split; [exact H1|]. split; [exact NE|]. split; [exact H3|]. split; [exact H4|].
  destruct trace2 as (t' & T1' & LT' & TR). rewrite T1 in T1'. injection T1' as <-.
  assert (Jl : (j < 2 * n)%nat) by (rewrite <- LT'; apply nth_error_Some; congruence).
  destruct (TR j Jl) as (b' & s' & Nb' & Ns & HS). rewrite Nb in Nb'. injection Nb' as <-. cbv zeta in HS. rewrite <- ES in HS. destruct HS as (ND & SB & C1 & C2 & C3 & C4 & C5 & C6).
  assert (Ec : (est, kk) = candidate A s') by congruence.
  pose proof (cand_cost s' S NE ND SB C1 C2 C3 C4 C5 C6) as AC. rewrite <- Ec in AC. cbn [snd] in AC.
  intros y T h (TN & TE & TI) TNE.
  assert (Hn : (Z.of_nat (length vq) < 2 ^ 31)%Z) by (rewrite len_vq; destruct G as (_ & _ & _ & _ & _ & _ & _ & H & _); exact H).
  assert (CE : TlsSpec.covers_exactly vq rq y T).
  { split; [split; [exact TN|intros i Hi; rewrite len_vq, <- len_zs; now apply TI]|]. rewrite len_vq, <- len_zs. split; intros i Hi.
    - pose proof (TE i Hi) as N. rewrite vq_nth, rq_nth by (rewrite <- len_zs; exact Hi). split; intros EQ; apply N; rewrite EQ.
      + setoid_replace (inject_Z (nth i zs 0%Z) - (inject_Z (nth i zs 0%Z) - inject_Z (2 ^ (k - e))))%Q with (inject_Z (2 ^ (k - e))) by ring. apply Qabs_pos. change 0%Q with (inject_Z 0). rewrite <- Zle_Qle. pose proof rho_pos; lia.
      + setoid_replace (inject_Z (nth i zs 0%Z) - (inject_Z (nth i zs 0%Z) + inject_Z (2 ^ (k - e))))%Q with (- inject_Z (2 ^ (k - e)))%Q by ring. rewrite Qabs_opp. apply Qabs_pos. change 0%Q with (inject_Z 0). rewrite <- Zle_Qle. pose proof rho_pos; lia.
    - rewrite TI, vq_nth, rq_nth by (rewrite <- len_zs; exact Hi). tauto. }
  destruct (TlsProofs.gap_lemma vq rq sortq sortq_sorts positive Hn y T CE TNE) as (p & x' & e' & r & EP & PM). fold E in EP.
  assert (SE : sortq E = map tokey (sort es)) by (unfold sortq; destruct (list_eq_dec point_eq E E); congruence). rewrite SE in EP.
  assert (LP : (length p < 2 * n)%nat).
  { assert (LL : length (map tokey (sort es)) = (2 * n)%nat).
    { rewrite map_length. destruct (Hs es es_nan) as [PP _]. transitivity (length es); [symmetry; exact (Permutation_length PP)|]. apply (endpoints_length A). symmetry; apply G. }
    rewrite EP, app_length in LL. cbn [length] in LL. lia. }
  destruct (TR (length p) LP) as (b2 & s2 & Nb2 & Ns2 & HS2).
  assert (Eb : b2 = (x', e')) by (rewrite EP, nth_error_app2, Nat.sub_diag in Nb2 by lia; cbn in Nb2; congruence). subst b2.
  assert (EA : act_at (length p) (x', e') = TlsProofs.act vq (p ++ [(x', e')])) by (unfold act_at; rewrite EP, firstn_app, Nat.sub_diag, firstn_all; cbn [firstn]; now rewrite app_nil_r).
  cbv zeta in HS2. rewrite EA in HS2. set (T' := TlsProofs.act vq (p ++ [(x', e')])) in *. destruct HS2 as (ND2 & SB2 & D1 & D2 & D3 & D4 & D5 & D6).
  assert (NE2 : T' <> []) by (intros EQ; rewrite EQ in PM; apply Permutation_nil in PM; contradiction).
  pose proof (cand_cost s2 T' NE2 ND2 SB2 D1 D2 D3 D4 D5 D6) as AC2.
  destruct (candidate A s2) as [est2 k2] eqn:Ec2. cbn [snd] in AC2. pose proof (MIN _ _ _ Ns2) as LTK.
  destruct AC as (a1 & S1 & A1), AC2 as (a2 & S2 & A2). rewrite (ltb_ok prec emax _ _ _ _ S2 S1) in LTK.
  assert (LE : (a1 <= a2)%R) by (destruct (Rlt_bool_spec a2 a1); [discriminate|assumption]).
  destruct (mean_facts T' NE2 ND2 SB2) as (_ & BM & _ & SP). destruct (set_bounds T' ND2 SB2) as (B1 & _).
  destruct HO as (O1 & O2 & O3 & O4 & O5 & O6). destruct HL as (L0 & L1 & L2 & L3).
  assert (U : (IZR (Z.of_nat (length T')) * ((rnd (mean zs e T') - mean zs e T') * (rnd (mean zs e T') - mean zs e T')) <= X)%R).
  { assert (HU : (Rabs (rnd (mean zs e T') - mean zs e T') <= bp (P - prec))%R) by (apply half_ulp; [unfold P; lia|exact BM]).
    rewrite <- (Rabs_pos_eq ((rnd (mean zs e T') - mean zs e T') * (rnd (mean zs e T') - mean zs e T'))) by apply Rle_0_sqr. rewrite Rabs_mult.
    apply Rle_trans with (bp L * (bp (P - prec) * bp (P - prec)))%R.
    - apply Rmult_le_compat; [lra|apply Rmult_le_pos; apply Rabs_pos|rewrite <- pow_IZR by exact L0; now apply IZR_le|apply Rmult_le_compat; auto using Rabs_pos].
    - rewrite <- !bpow_plus. unfold X. apply bpow_le. lia. }
  pose proof (tcost_mean T' (rnd (mean zs e T')) NE2 ND2 SB2) as E1. pose proof (tcost_mean T' h NE2 ND2 SB2) as E2.
  assert (0 <= IZR (Z.of_nat (length T')) * ((h - mean zs e T') * (h - mean zs e T')))%R by (apply Rmult_le_pos; [lra|apply Rle_0_sqr]).
  rewrite <- (tcost_perm T' T h PM). replace (SF2R radix2 est) with (rnd (mean zs e S)) by (symmetry; apply H4).
  apply Rabs_le_inv in A1, A2.
  assert (XL : (bp (2 * L + 2 * P - prec) = bp L * X)%R) by (unfold X; rewrite <- bpow_plus; f_equal; ring).
  assert (XX : (X <= bp L * X)%R).
  { rewrite <- (Rmult_1_l X) at 1. apply Rmult_le_compat_r; [pose proof X_pos; lra|]. change 1%R with (bp 0). now apply bpow_le. }
  unfold slack. rewrite XL. lra.
Qed.
End Opt.
Lemma grid_lemma : exists est S x, estimate A sort values ranges = Ret (est, inlier_flags A est values ranges) /\ S <> [] /\
  around zs (2 ^ (k - e)) x S /\ st est (nearest prec emax (mean zs e S)).
Proof. destruct grid_strong as (est & S & x & t & j & kk & b & H1 & H2 & H3 & H4 & _). exists est, S, x. auto. Qed.
End Sorted.
End Grid.

Section Corollaries.
Context (prec emax : Z) (Hp : Prec_gt_0 prec) (Hm : Prec_lt_emax prec emax).
Notation st := (stands prec emax).
Notation bp := (bpow radix2).

Lemma sum_bounds zs lo hi S : (forall z, In z zs -> (lo <= z <= hi)%Z) -> (forall i, In i S -> (i < length zs)%nat) ->
  (lo * Z.of_nat (length S) <= sumz zs S <= hi * Z.of_nat (length S))%Z.
Proof.
  intros H. induction S as [|i S IH]; intros HS; [cbn; lia|]. specialize (IH (fun j h => HS j (or_intror h))).
  assert (In (nth i zs 0%Z) zs) by (apply nth_In, HS; now left). specialize (H _ H0). cbn [sumz fold_right length]. change (fold_right _ 0%Z S) with (sumz zs S). lia.
Qed.
Lemma mean_bounds zs e lo hi S : S <> [] -> (forall z, In z zs -> (lo <= z <= hi)%Z) -> (forall i, In i S -> (i < length zs)%nat) ->
  (IZR lo * bp e <= mean zs e S <= IZR hi * bp e)%R.
Proof.
  intros NE H HS. destruct (sum_bounds zs lo hi S H HS) as [B1 B2].
  assert (L : (0 < INR (length S))%R) by (apply lt_0_INR; destruct S; [congruence|cbn; lia]).
  apply IZR_le in B1, B2. rewrite mult_IZR, <- INR_IZR_INZ in B1, B2.
  unfold mean. fold (sumz zs S). split; apply Rmult_le_compat_r; try apply bpow_ge_0.
  - apply Rmult_le_reg_r with (INR (length S)); [exact L|]. unfold Rdiv. rewrite Rmult_assoc, Rinv_l by lra. lra.
  - apply Rmult_le_reg_r with (INR (length S)); [exact L|]. unfold Rdiv. rewrite Rmult_assoc, Rinv_l by lra. lra.
Qed.
Lemma nearest_between a b x : generic_format radix2 (FLT_exp (3 - emax - prec) prec) a -> generic_format radix2 (FLT_exp (3 - emax - prec) prec) b ->
  (a <= x <= b)%R -> (a <= nearest prec emax x <= b)%R.
Proof.
  intros Ha Hb [H1 H2]. unfold nearest. split; [apply round_ge_generic|apply round_le_generic]; try assumption; try apply valid_rnd_N; now apply flt_valid.
Qed.

Lemma grid_final w sort e k m M zs values ranges : let A := ieee_arith prec emax w in
  orders sort -> on_grid prec emax e k m zs values ranges -> (forall r, st r (bp k) -> st (w r) (bp (-2 * k))) ->
  ((0 <= M)%Z /\ (m + e <= M)%Z /\ (2 * M + 4 < emax)%Z /\ (prec + k + 2 < emax)%Z) ->
  ((3 - emax - prec <= e)%Z /\ (3 - emax - prec <= e - 2 * k)%Z /\ (3 - emax - prec <= - 2 * k)%Z /\ (prec - 2 * k < emax)%Z /\ (prec + e - 2 * k < emax)%Z) ->
  exists est flags S x, estimate A sort values ranges = Ret (est, flags) /\ S <> [] /\ around zs (2 ^ (k - e)) x S /\
  st est (nearest prec emax (mean zs e S)) /\
  (forall lo hi, In lo zs -> In hi zs -> (forall z, In z zs -> (lo <= z <= hi)%Z) -> (IZR lo * bp e <= SF2R radix2 est <= IZR hi * bp e)%R) /\
  (forall z, (forall y, In y zs -> y = z) -> SF2R radix2 est = (IZR z * bp e)%R /\ flags = repeat true (length values)).
Proof.
  intros A Hs G HW HM HE. destruct (grid_lemma prec emax Hp Hm w e k m M zs values ranges G HW HM HE sort Hs) as (est & S & x & E1 & NE & Ar & E2).
  exists est, (inlier_flags A est values ranges), S, x. split; [exact E1|]. split; [exact NE|]. split; [exact Ar|]. split; [exact E2|].
  assert (HS : forall i, In i S -> (i < length zs)%nat) by (intros i Hi; now apply Ar).
  assert (ER : SF2R radix2 est = nearest prec emax (mean zs e S)) by apply E2.
  assert (Fm : forall z, In z zs -> generic_format radix2 (FLT_exp (3 - emax - prec) prec) (IZR z * bp e)).
  { intros z Hz. destruct G as (F & _). clear - F Hz Hp Hm. induction F; [destruct Hz|]. destruct Hz as [<-|Hz]; [|now apply IHF]. now apply (in_format prec emax _ _ H). }
  assert (BT : forall lo hi, In lo zs -> In hi zs -> (forall z, In z zs -> (lo <= z <= hi)%Z) -> (IZR lo * bp e <= SF2R radix2 est <= IZR hi * bp e)%R).
  { intros lo hi Hlo Hhi H. rewrite ER. apply nearest_between; [now apply Fm|now apply Fm|]. now apply mean_bounds. }
  split; [exact BT|]. intros z Hz.
  assert (Hin : In z zs). { destruct S as [|i S]; [congruence|]. assert (In (nth i zs 0%Z) zs) by (apply nth_In, HS; now left). now rewrite <- (Hz _ H). }
  assert (EZ : SF2R radix2 est = (IZR z * bp e)%R).
  { destruct (BT z z Hin Hin) as [B1 B2]; [intros y Hy; rewrite (Hz y Hy); lia|]. now apply Rle_antisym. }
  split; [exact EZ|]. destruct G as (F & L & R & _).
  assert (SE : st est (IZR z * bp e)) by (destruct E2 as (X1 & X2 & _); repeat split; assumption).
  clear - F L R SE Hz Hp Hm. revert ranges L R. induction F as [|v y vs ys V F IH]; intros [|r rs] L R; try discriminate; [reflexivity|].
  inversion R; subst. cbn [inlier_flags repeat length]. f_equal; [|apply IH; [intros q Hq; apply Hz; now right|now inversion L|assumption]].
  assert (y = z) by (apply Hz; now left). subst y.
  assert (D : st (SFsub prec emax v est) 0).
  { replace 0%R with (IZR z * bp e - IZR z * bp e)%R by ring. apply sub_exact; [assumption..| |]; rewrite Rminus_eq_0; [apply generic_format_0|rewrite Rabs_R0; apply bpow_gt_0]. }
  apply abs_ok in D. rewrite Rabs_R0 in D. change (SFltb (SFabs (SFsub prec emax v est)) r = true). rewrite (ltb_ok prec emax _ _ _ _ D H1). apply Rlt_bool_true, bpow_gt_0.
Qed.
End Corollaries.

(** ** The weights of the two formats *)
Global Instance p53 : Prec_gt_0 53. Proof. reflexivity. Qed.
Global Instance p24 : Prec_gt_0 24. Proof. reflexivity. Qed.
Global Instance l53 : Prec_lt_emax 53 1024. Proof. reflexivity. Qed.
Global Instance l24 : Prec_lt_emax 24 128. Proof. reflexivity. Qed.

Lemma micro_is : stands 53 1024 d_micro (IZR 4722366482869645 * bpow radix2 (-72)).
Proof. repeat split. Qed.
Lemma micro_lt : (IZR 4722366482869645 * bpow radix2 (-72) <= bpow radix2 (-19))%R.
Proof.
  replace (bpow radix2 (-19)) with (IZR (2 ^ 53) * bpow radix2 (-72))%R by (rewrite (IZR_Zpower radix2) by lia; rewrite <- bpow_plus; reflexivity).
  apply Rmult_le_compat_r; [apply bpow_ge_0|]. apply IZR_le. lia.
Qed.
Lemma bpow_inv p : (1 / bpow radix2 p = bpow radix2 (- p))%R.
Proof. rewrite bpow_opp. unfold Rdiv. ring. Qed.
Lemma bpow_abs p q : (p < q)%Z -> (Rabs (bpow radix2 p) < bpow radix2 q)%R.
Proof. intros H. rewrite Rabs_pos_eq by apply bpow_ge_0. now apply bpow_lt. Qed.

Lemma weight_double k r : (-19 <= k <= 400)%Z -> stands 53 1024 r (bpow radix2 k) -> stands 53 1024 (weight double r) (bpow radix2 (-2 * k)).
Proof.
  intros Hk R. cbn [weight double]. pose proof (abs_ok 53 1024 _ _ R) as RA. rewrite Rabs_pos_eq in RA by apply bpow_ge_0.
  rewrite (ltb_ok 53 1024 _ _ _ _ RA micro_is). rewrite Rlt_bool_false by (apply Rle_trans with (1 := micro_lt); apply bpow_le; lia).
  assert (Q : stands 53 1024 (SFmul 53 1024 r r) (bpow radix2 (k + k))).
  { rewrite bpow_plus. apply mul_exact; [exact _..|exact R|exact R| |]; rewrite <- bpow_plus; [apply generic_format_FLT_bpow; [exact _|lia]|apply bpow_abs; lia]. }
  replace (bpow radix2 (-2 * k)) with (1 / bpow radix2 (k + k))%R by (rewrite bpow_inv; f_equal; lia).
  apply div_exact; [exact _..|apply (int_exact 53 1024 _ _ 1); cbn; lia|exact Q|apply Rgt_not_eq, bpow_gt_0| |]; rewrite bpow_inv;
    [apply generic_format_FLT_bpow; [exact _|lia]|apply bpow_abs; lia].
Qed.
Lemma weight_single k r : (-19 <= k <= 40)%Z -> stands 24 128 r (bpow radix2 k) -> stands 24 128 (weight single r) (bpow radix2 (-2 * k)).
Proof.
  intros Hk R. cbn [weight single]. pose proof (abs_ok 24 128 _ _ R) as RA. rewrite Rabs_pos_eq in RA by apply bpow_ge_0.
  assert (RD : stands 53 1024 (convert 53 1024 (SFabs r)) (bpow radix2 k)).
  { apply (convert_ok 53 1024 _ _ 24 128); [exact RA|apply generic_format_FLT_bpow; [exact _|lia]|apply bpow_abs; lia]. }
  rewrite (ltb_ok 53 1024 _ _ _ _ RD micro_is). rewrite Rlt_bool_false by (apply Rle_trans with (1 := micro_lt); apply bpow_le; lia).
  assert (Q : stands 24 128 (SFmul 24 128 r r) (bpow radix2 (k + k))).
  { rewrite bpow_plus. apply mul_exact; [exact _..|exact R|exact R| |]; rewrite <- bpow_plus; [apply generic_format_FLT_bpow; [exact _|lia]|apply bpow_abs; lia]. }
  apply (convert_ok 24 128 _ _ 53 1024); [|apply generic_format_FLT_bpow; [exact _|lia]|apply bpow_abs; lia].
  replace (bpow radix2 (-2 * k)) with (1 / bpow radix2 (k + k))%R by (rewrite bpow_inv; f_equal; lia).
  apply div_exact; [exact _..|apply (int_exact 53 1024 _ _ 1); cbn; lia| |apply Rgt_not_eq, bpow_gt_0| |]; rewrite ?bpow_inv;
    [|apply generic_format_FLT_bpow; [exact _|lia]|apply bpow_abs; lia].
  apply (convert_ok 53 1024 _ _ 24 128); [exact Q|apply generic_format_FLT_bpow; [exact _|lia]|apply bpow_abs; lia].
Qed.
