(** * Counterexamples, and a sorting function. *)
From Coq Require Import List ZArith Reals Bool Lia Lra Sorting.Sorted Permutation.
From Coq Require Import Floats.SpecFloat.
From Flocq Require Import Core BinarySingleNaN.
From Verif Require Import Base IntervalModel TlsFloatModel TlsFloatSpec TlsFloatProofs IeeeProofs TlsGridProofs TlsOneProofs.
Import ListNotations.
Open Scope outcome_scope.

(** ** Sorting by insertion *)
Fixpoint ins (a : spec_float * Z) (l : list (spec_float * Z)) : list (spec_float * Z) :=
  match l with [] => [a] | b :: r => if SFltb (fst b) (fst a) then b :: ins a r else a :: l end.
Definition isort (l : list (spec_float * Z)) : list (spec_float * Z) := fold_right ins [] l.

Lemma neg_lex m1 m2 m3 e1 e2 e3 :
  match Z.compare e2 e1 with Lt => Lt | Gt => Gt | Eq => Pcompare m2 m1 Eq end <> Lt ->
  match Z.compare e3 e2 with Lt => Lt | Gt => Gt | Eq => Pcompare m3 m2 Eq end <> Lt ->
  match Z.compare e3 e1 with Lt => Lt | Gt => Gt | Eq => Pcompare m3 m1 Eq end <> Lt.
Proof.
  change (Pcompare m2 m1 Eq) with (m2 ?= m1)%positive. change (Pcompare m3 m2 Eq) with (m3 ?= m2)%positive. change (Pcompare m3 m1 Eq) with (m3 ?= m1)%positive.
  destruct (Z.compare_spec e2 e1), (Z.compare_spec e3 e2), (Z.compare_spec e3 e1), (Pos.compare_spec m2 m1), (Pos.compare_spec m3 m2), (Pos.compare_spec m3 m1);
    intros; try congruence; lia.
Qed.
Lemma neg_lex' m1 m2 m3 e1 e2 e3 :
  match Z.compare e2 e1 with Lt => Gt | Gt => Lt | Eq => CompOpp (Pcompare m2 m1 Eq) end <> Lt ->
  match Z.compare e3 e2 with Lt => Gt | Gt => Lt | Eq => CompOpp (Pcompare m3 m2 Eq) end <> Lt ->
  match Z.compare e3 e1 with Lt => Gt | Gt => Lt | Eq => CompOpp (Pcompare m3 m1 Eq) end <> Lt.
Proof.
  change (Pcompare m2 m1 Eq) with (m2 ?= m1)%positive. change (Pcompare m3 m2 Eq) with (m3 ?= m2)%positive. change (Pcompare m3 m1 Eq) with (m3 ?= m1)%positive.
  destruct (Z.compare_spec e2 e1), (Z.compare_spec e3 e2), (Z.compare_spec e3 e1), (Pos.compare_spec m2 m1), (Pos.compare_spec m3 m2), (Pos.compare_spec m3 m1);
    cbn; intros; try congruence; lia.
Qed.
Lemma nlt_iff x y : SFltb x y = false <-> SFcompare x y <> Some Lt.
Proof. unfold SFltb. destruct (SFcompare x y) as [[]|]; split; intros; congruence. Qed.
Lemma nlt_trans x y z : y <> S754_nan -> SFltb y x = false -> SFltb z y = false -> SFltb z x = false.
Proof.
  rewrite !nlt_iff.
  destruct x as [[]|[]| |[] m1 e1], y as [[]|[]| |[] m2 e2], z as [[]|[]| |[] m3 e3]; cbn; intros N H1 H2; try congruence.
  - intros H. injection H as H. revert H. apply (neg_lex' m1 m2 m3 e1 e2 e3); intros X; [apply H1|apply H2]; now rewrite X.
  - intros H. injection H as H. revert H. apply (neg_lex m1 m2 m3 e1 e2 e3); intros X; [apply H1|apply H2]; now rewrite X.
Qed.
Lemma lt_asym x y : SFltb x y = true -> SFltb y x = false.
Proof. intros H. destruct (SFltb y x) eqn:E; [|reflexivity]. pose proof (lt_trans _ _ _ H E) as X. now rewrite lt_irrefl in X. Qed.

Lemma ins_perm a l : Permutation (a :: l) (ins a l).
Proof. induction l as [|b r IH]; cbn; [reflexivity|]. destruct (SFltb (fst b) (fst a)); [|reflexivity]. rewrite perm_swap. now apply perm_skip. Qed.
Lemma isort_perm l : Permutation l (isort l).
Proof. induction l as [|a l IH]; cbn; [reflexivity|]. rewrite <- ins_perm. now apply perm_skip. Qed.
Lemma ins_sorted a l : fst a <> S754_nan -> no_nan l -> StronglySorted (fun x y => SFltb (fst y) (fst x) = false) l -> StronglySorted (fun x y => SFltb (fst y) (fst x) = false) (ins a l).
Proof.
  intros Na. induction l as [|b r IH]; intros N S; cbn; [repeat constructor|]. apply StronglySorted_inv in S as S'. destruct S' as [S1 S2].
  assert (Nb : fst b <> S754_nan) by (apply N; now left).
  destruct (SFltb (fst b) (fst a)) eqn:C.
  - constructor; [apply IH; [intros x Hx; apply N; now right|exact S1]|]. rewrite Forall_forall in *. intros x Hx.
    apply (Permutation_in _ (Permutation_sym (ins_perm a r))) in Hx. destruct Hx as [<-|Hx]; [now apply lt_asym|now apply S2].
  - constructor; [exact S|]. rewrite Forall_forall in *. intros x [<-|Hx]; [exact C|]. apply nlt_trans with (fst b); [exact Nb|exact C|now apply S2].
Qed.
Lemma isort_orders : orders isort.
Proof.
  intros l N. split; [apply isort_perm|]. induction l as [|a l IH]; cbn; [constructor|]. apply ins_sorted; [apply N; now left| |apply IH; intros x Hx; apply N; now right].
  intros x Hx. apply N. right. now apply (Permutation_in _ (Permutation_sym (isort_perm l))).
Qed.

(** ** The result, when the end points are distinct, on the computer *)
Fixpoint strict (l : list (spec_float * Z)) : bool :=
  match l with a :: (b :: _) as r => SFltb (fst a) (fst b) && strict r | _ => true end.
Lemma strict_sorted l : strict l = true -> StronglySorted (fun a b => SFltb (fst a) (fst b) = true) l.
Proof.
  intros H. apply Sorted_StronglySorted; [intros a b c; apply lt_trans|]. induction l as [|a [|b l] IH]; [constructor|repeat constructor|].
  cbn in H. apply andb_prop in H. destruct H as [H1 H2]. constructor; [now apply IH|]. now constructor.
Qed.
Definition no_nanb (l : list (spec_float * Z)) : bool := forallb (fun x => negb (nan_bit (fst x))) l.
Lemma no_nanb_ok l : no_nanb l = true -> no_nan l.
Proof. intros H [x t] Hx E. cbn [fst] in E. subst x. unfold no_nanb in H. rewrite forallb_forall in H. now specialize (H _ Hx). Qed.

Lemma run prec emax w sort values ranges : let A := ieee_arith prec emax w in orders sort ->
  no_nanb (endpoints A 0 values ranges) = true -> strict (isort (endpoints A 0 values ranges)) = true ->
  estimate A sort values ranges = estimate A isort values ranges.
Proof.
  intros A Hs N S. unfold estimate.
  assert (E : sort (endpoints A 0 values ranges) = isort (endpoints A 0 values ranges)).
  { apply (only_order A sort); [apply Hs, no_nanb_ok, N|apply isort_perm|apply strict_sorted, S]. }
  now rewrite E.
Qed.
Lemma run_double sort values ranges r : orders sort -> no_nanb (endpoints double 0 values ranges) = true -> strict (isort (endpoints double 0 values ranges)) = true ->
  estimate double isort values ranges = Ret r -> estimate double sort values ranges = Ret r.
Proof. intros Hs N S E. rewrite <- E. exact (run 53 1024 (weight double) sort values ranges Hs N S). Qed.
Lemma run_single sort values ranges r : orders sort -> no_nanb (endpoints single 0 values ranges) = true -> strict (isort (endpoints single 0 values ranges)) = true ->
  estimate single isort values ranges = Ret r -> estimate single sort values ranges = Ret r.
Proof. intros Hs N S E. rewrite <- E. exact (run 24 128 (weight single) sort values ranges Hs N S). Qed.

(** a / b, rounded: literals. *)
Definition dq (a b : Z) : spec_float := SFdiv 53 1024 (d_int a) (d_int b).
Definition sq (a b : Z) : spec_float := SFdiv 24 128 (s_int a) (s_int b).


(** ** Finite numbers *)
Section Finite.
Context (prec emax : Z) (Hp : Prec_gt_0 prec) (Hm : Prec_lt_emax prec emax).
Lemma nan_B (b : binary_float prec emax) : is_nan b = false -> B2SF b <> S754_nan.
Proof. now destruct b. Qed.
Lemma add_not_nan x y : number prec emax x -> number prec emax y -> SFadd prec emax x y <> S754_nan.
Proof.
  intros [X1 X2] [Y1 Y2]. rewrite <- (B2SF_SF2B prec emax x X1), <- (B2SF_SF2B prec emax y Y1). rewrite (add_equiv prec emax Hp Hm).
  apply nan_B. destruct x as [s|s| |s m e], y as [s'|s'| |s' m' e']; try discriminate; cbn -[binary_normalize]; try reflexivity.
  - now destruct (Bool.eqb s s').
  - apply is_nan_binary_normalize.
Qed.
Lemma sub_not_nan x y : number prec emax x -> number prec emax y -> SFsub prec emax x y <> S754_nan.
Proof.
  intros [X1 X2] [Y1 Y2]. rewrite <- (B2SF_SF2B prec emax x X1), <- (B2SF_SF2B prec emax y Y1). rewrite (sub_equiv prec emax Hp Hm).
  apply nan_B. destruct x as [s|s| |s m e], y as [s'|s'| |s' m' e']; try discriminate; cbn -[binary_normalize]; try reflexivity.
  - now destruct (Bool.eqb s (negb s')).
  - apply is_nan_binary_normalize.
Qed.
Context (w : spec_float -> spec_float).
Notation A := (ieee_arith prec emax w).
Lemma endpoints_no_nan : forall values ranges i, Forall (number prec emax) values -> Forall (number prec emax) ranges -> no_nan (endpoints A i values ranges).
Proof.
  induction values as [|v vs IH]; intros [|r rs] i V R x Hx; cbn in Hx; try contradiction. inversion V; inversion R; subst.
  destruct Hx as [<-|[<-|Hx]]; cbn [fst]; [now apply sub_not_nan|now apply add_not_nan|now apply (IH rs (i + 1)%Z)].
Qed.
Lemma defined_lemma sort values ranges : orders sort -> Forall (number prec emax) values -> Forall (number prec emax) ranges -> length values = length ranges ->
  (Z.of_nat (length values) < 2 ^ 31)%Z -> (0 < length values)%nat ->
  exists est flags t j c, estimate A sort values ranges = Ret (est, flags) /\
  sweep A values ranges (sums0 A ranges) (sort (endpoints A 0 values ranges)) = Ret t /\ length t = (2 * length values)%nat /\
  nth_error t j = Some (est, c) /\ (forall j' est' c', nth_error t j' = Some (est', c') -> SFltb c' c = false) /\
  length flags = length values /\
  (forall i v r, nth_error values i = Some v -> nth_error ranges i = Some r -> nth_error flags i = Some (SFltb (SFabs (SFsub prec emax v est)) r)).
Proof.
  intros Hs V R L N H0. pose proof (endpoints_no_nan values ranges 0 V R) as NN.
  destruct (estimate_defined A (conj lt_irrefl lt_trans) sort values ranges (Hs _ NN) L N H0) as (t & j & est & c & T & LT & Nj & M & _ & E).
  { intros [x t] Hx. specialize (NN _ Hx). cbn [fst] in *. change (nan_bit x = false). now destruct x. }
  exists est, (inlier_flags A est values ranges), t, j, c. split; [exact E|]. split; [exact T|]. split; [exact LT|]. split; [exact Nj|]. split; [exact M|].
  split; [exact (flags_length A est values ranges L)|]. exact (flags_nth A est values ranges).
Qed.
End Finite.
Lemma empty_case prec emax w sort : orders sort -> estimate (ieee_arith prec emax w) sort [] [] = UB.
Proof.
  intros Hs. unfold estimate. cbn. destruct (Hs []) as [P _]; [intros x []|]. apply Permutation_nil in P. rewrite P. reflexivity.
Qed.
Lemma mismatch_case A sort values ranges : length values <> length ranges -> estimate A sort values ranges = Exit.
Proof. intros H. unfold estimate. now rewrite (proj2 (Nat.eqb_neq _ _) H). Qed.
Lemma nan_endpoint prec emax w : let A := ieee_arith prec emax w in forall (values ranges : list A) i, length values = length ranges ->
  (In S754_nan values \/ In S754_nan ranges) -> existsb (fun e => isnan A (fst e)) (endpoints A i values ranges) = true.
Proof.
  intros A. assert (N1 : forall x : A, sub A S754_nan x = S754_nan) by (intros []; reflexivity). assert (N2 : forall x : A, sub A x S754_nan = S754_nan) by (intros [[]|[]| |[]]; reflexivity).
  induction values as [|v vs IH]; intros [|r rs] i L H; try discriminate; [destruct H as [[]|[]]|]. cbn [endpoints existsb fst]. apply orb_true_iff.
  destruct H as [[->|H]|[->|H]].
  - left. rewrite N1. reflexivity.
  - right. apply orb_true_iff. right. apply IH; [now injection L|now left].
  - left. rewrite N2. reflexivity.
  - right. apply orb_true_iff. right. apply IH; [now injection L|now right].
Qed.
Lemma nan_case prec emax w sort values ranges : length values = length ranges -> (In S754_nan values \/ In S754_nan ranges) ->
  estimate (ieee_arith prec emax w) sort values ranges = UB.
Proof.
  intros L H. unfold estimate. destruct (Nat.eqb_spec (@length (ieee_arith prec emax w) values) (@length (ieee_arith prec emax w) ranges)) as [_|N]; [|destruct (N L)].
  cbv zeta. now rewrite (nan_endpoint prec emax w values ranges 0 L H).
Qed.
