From Coq Require Import List ZArith Reals QArith Qreals Bool Lia Lra Psatz Sorting.Sorted Permutation.
From Coq Require Import Floats.SpecFloat.
From Flocq Require Import Core BinarySingleNaN.
From Verif Require Import Base IntervalModel TlsFloatModel TlsFloatSpec.
From Verif Require TlsModel TlsSpec TlsProofs.
Import ListNotations.
Open Scope outcome_scope.

(** ** The ordering *)
Lemma cmp_lex m1 m2 m3 e1 e2 e3 :
  match Z.compare e1 e2 with Lt => Lt | Gt => Gt | Eq => Pcompare m1 m2 Eq end = Lt ->
  match Z.compare e2 e3 with Lt => Lt | Gt => Gt | Eq => Pcompare m2 m3 Eq end = Lt ->
  match Z.compare e1 e3 with Lt => Lt | Gt => Gt | Eq => Pcompare m1 m3 Eq end = Lt.
Proof.
  change (Pcompare m1 m2 Eq) with (m1 ?= m2)%positive. change (Pcompare m2 m3 Eq) with (m2 ?= m3)%positive. change (Pcompare m1 m3 Eq) with (m1 ?= m3)%positive.
  destruct (Z.compare_spec e1 e2), (Z.compare_spec e2 e3), (Z.compare_spec e1 e3), (Pos.compare_spec m1 m2), (Pos.compare_spec m2 m3), (Pos.compare_spec m1 m3);
    intros; try discriminate; try reflexivity; lia.
Qed.
Lemma cmp_lex' m1 m2 m3 e1 e2 e3 :
  match Z.compare e1 e2 with Lt => Gt | Gt => Lt | Eq => CompOpp (Pcompare m1 m2 Eq) end = Lt ->
  match Z.compare e2 e3 with Lt => Gt | Gt => Lt | Eq => CompOpp (Pcompare m2 m3 Eq) end = Lt ->
  match Z.compare e1 e3 with Lt => Gt | Gt => Lt | Eq => CompOpp (Pcompare m1 m3 Eq) end = Lt.
Proof.
  change (Pcompare m1 m2 Eq) with (m1 ?= m2)%positive. change (Pcompare m2 m3 Eq) with (m2 ?= m3)%positive. change (Pcompare m1 m3 Eq) with (m1 ?= m3)%positive.
  destruct (Z.compare_spec e1 e2), (Z.compare_spec e2 e3), (Z.compare_spec e1 e3), (Pos.compare_spec m1 m2), (Pos.compare_spec m2 m3), (Pos.compare_spec m1 m3);
    cbn; intros; try discriminate; try reflexivity; lia.
Qed.
Lemma lt_iff x y : SFltb x y = true <-> SFcompare x y = Some Lt.
Proof. unfold SFltb. destruct (SFcompare x y) as [[]|]; split; intros; (discriminate || reflexivity). Qed.
Lemma lt_trans x y z : SFltb x y = true -> SFltb y z = true -> SFltb x z = true.
Proof.
  rewrite !lt_iff.
  destruct x as [[]|[]| |[] m1 e1], y as [[]|[]| |[] m2 e2], z as [[]|[]| |[] m3 e3]; cbn; intros H1 H2; try discriminate; try reflexivity.
  - injection H1 as A; injection H2 as B. f_equal. exact (cmp_lex' _ _ _ _ _ _ A B).
  - injection H1 as A; injection H2 as B. f_equal. exact (cmp_lex _ _ _ _ _ _ A B).
Qed.
Lemma lt_irrefl x : SFltb x x = false.
Proof.
  destruct x as [[]|[]| |[] m e]; try reflexivity; cbn; unfold SFltb; cbn; rewrite Z.compare_refl; rewrite Pos.compare_cont_refl; reflexivity.
Qed.

(** What the two arithmetics have in common here. *)
Definition ordered (A : arith) : Prop := (forall x : A, ltb A x x = false) /\ forall x y z : A, ltb A x y = true -> ltb A y z = true -> ltb A x z = true.
Lemma ordered_double : ordered double. Proof. exact (conj lt_irrefl lt_trans). Qed.
Lemma ordered_single : ordered single. Proof. exact (conj lt_irrefl lt_trans). Qed.

Section Generic.
Context (A : arith) (HA : ordered A).

(** std::min_element. *)
Lemma min_loop_spec : forall l bi b i, (bi < i)%nat -> forall pre, length pre = i -> nth_error pre bi = Some b ->
  (forall j x, nth_error pre j = Some x -> ltb A x b = false) ->
  exists c, nth_error (pre ++ l) (min_loop A bi b i l) = Some c /\ forall j x, nth_error (pre ++ l) j = Some x -> ltb A x c = false.
Proof.
  induction l as [|x l IH]; intros bi b i Hi pre Hl Hb Hp; cbn [min_loop].
  - rewrite app_nil_r. eauto.
  - assert (E : pre ++ x :: l = (pre ++ [x]) ++ l) by now rewrite <- app_assoc.
    assert (L : length (pre ++ [x]) = S i) by (rewrite app_length; cbn; lia).
    destruct (ltb A x b) eqn:C; rewrite E.
    + apply (IH i x (S i) ltac:(lia) (pre ++ [x]) L).
      * rewrite nth_error_app2 by lia. now rewrite Hl, Nat.sub_diag.
      * intros j y Hy. destruct (Nat.lt_ge_cases j i) as [h|h].
        -- rewrite nth_error_app1 in Hy by lia. specialize (Hp j y Hy). destruct (ltb A y x) eqn:C2; [|reflexivity].
           now rewrite (proj2 HA _ _ _ C2 C) in Hp.
        -- rewrite nth_error_app2 in Hy by lia. destruct (j - length pre)%nat as [|[|?]]; cbn in Hy; inversion Hy; subst. apply HA.
    + apply (IH bi b (S i) ltac:(lia) (pre ++ [x]) L).
      * now rewrite nth_error_app1 by lia.
      * intros j y Hy. destruct (Nat.lt_ge_cases j i) as [h|h].
        -- rewrite nth_error_app1 in Hy by lia. now apply (Hp j y).
        -- rewrite nth_error_app2 in Hy by lia. destruct (j - length pre)%nat as [|[|?]]; cbn in Hy; inversion Hy; subst. exact C.
Qed.
Lemma min_element_spec l : l <> [] ->
  exists c, nth_error l (min_element A l) = Some c /\ forall j x, nth_error l j = Some x -> ltb A x c = false.
Proof.
  destruct l as [|x l]; [congruence|]. intros _. cbn [min_element].
  apply (min_loop_spec l 0 x 1 ltac:(lia) [x] eq_refl eq_refl).
  intros [|[|j]] y Hy; cbn in Hy; inversion Hy; subst. apply HA.
Qed.

(** The tags of the end points. *)
Definition tag_ok (n : nat) (t : Z) : Prop := (0 <= Z.abs t - 1 < Z.of_nat n)%Z.
Lemma tags (n : nat) : (Z.of_nat n < 2 ^ 31)%Z -> forall values ranges i, length values = length ranges -> (0 <= i)%Z ->
  (i + Z.of_nat (length values) = Z.of_nat n)%Z ->
  forall e, In e (endpoints A i values ranges) -> tag_ok n (snd e).
Proof.
  intros Hn. induction values as [|v vs IH]; intros [|r rs] i Hl H0 Hi e He; cbn in He, Hl; try easy.
  cbn [length] in Hi. rewrite Nat2Z.inj_succ in Hi.
  destruct He as [<-|[<-|He]].
  - cbn [snd]. unfold tag_ok. rewrite TlsProofs.to_int_id by lia. lia.
  - cbn [snd]. unfold tag_ok. replace (- i - 1)%Z with (- (i + 1))%Z by lia. rewrite TlsProofs.to_int_neg by lia. lia.
  - apply (IH rs (i + 1)%Z); [congruence|lia|lia|exact He].
Qed.

Lemma vread_some {B} (l : list B) i : (i < length l)%nat -> exists x, vread l i = Ret x /\ nth_error l i = Some x.
Proof. intros H. unfold vread. destruct (nth_error l i) eqn:E; [eauto|]. apply nth_error_None in E. lia. Qed.
Lemma step_defined values ranges s t : length values = length ranges -> tag_ok (length values) t -> exists s', step A values ranges s t = Ret s'.
Proof.
  intros Hl [H1 H2]. unfold step, zread. rewrite (proj2 (Z.ltb_ge _ _)) by lia.
  destruct (vread_some values (Z.to_nat (Z.abs t - 1)) ltac:(lia)) as (v & -> & _).
  destruct (vread_some ranges (Z.to_nat (Z.abs t - 1)) ltac:(lia)) as (r & -> & _). cbn. eauto.
Qed.
Lemma sweep_defined values ranges : length values = length ranges -> forall es s, (forall e, In e es -> tag_ok (length values) (snd e)) ->
  exists t, sweep A values ranges s es = Ret t /\ length t = length es.
Proof.
  intros Hl. induction es as [|[x t] es IH]; intros s H; cbn [sweep]; [eauto|].
  destruct (step_defined values ranges s t Hl (H (x, t) (or_introl eq_refl))) as (s' & ->). cbn [obind].
  destruct (IH s' (fun e h => H e (or_intror h))) as (tr & -> & L). cbn. exists (candidate A s' :: tr). cbn. auto.
Qed.
Lemma endpoints_length : forall values ranges i, length values = length ranges -> length (endpoints A i values ranges) = (2 * length values)%nat.
Proof. induction values; intros [|] i H; cbn in *; try easy. rewrite IHvalues by congruence. lia. Qed.

(** Everything but the meaning of the numbers. *)
Lemma flags_nth est : forall values ranges i v r, nth_error values i = Some v -> nth_error ranges i = Some r ->
  nth_error (inlier_flags A est values ranges) i = Some (ltb A (absv A (sub A v est)) r).
Proof.
  induction values as [|a vs IH]; intros [|b rs] [|i] v r Hv Hr; cbn in *; try discriminate; [now inversion Hv; inversion Hr|now apply IH].
Qed.
Lemma flags_length est : forall values ranges, length values = length ranges -> length (inlier_flags A est values ranges) = length values.
Proof. induction values; intros [|] H; cbn in *; try easy. rewrite IHvalues; congruence. Qed.

Definition sorts_it (sort : list (A * Z) -> list (A * Z)) (l : list (A * Z)) : Prop :=
  Permutation l (sort l) /\ StronglySorted (fun a b => ltb A (fst b) (fst a) = false) (sort l).
Lemma estimate_defined sort values ranges : sorts_it sort (endpoints A 0 values ranges) -> length values = length ranges -> (Z.of_nat (length values) < 2 ^ 31)%Z ->
  (0 < length values)%nat -> (forall e, In e (endpoints A 0 values ranges) -> isnan A (fst e) = false) ->
  exists t j est k, sweep A values ranges (sums0 A ranges) (sort (endpoints A 0 values ranges)) = Ret t /\ length t = (2 * length values)%nat /\
  nth_error t j = Some (est, k) /\ (forall j' est' k', nth_error t j' = Some (est', k') -> ltb A k' k = false) /\
  j = min_element A (map snd t) /\ estimate A sort values ranges = Ret (est, inlier_flags A est values ranges).
Proof.
  intros Hs Hl Hn H0 Hnan. unfold estimate. rewrite (proj2 (Nat.eqb_eq _ _) Hl).
  assert (E : existsb (fun e => isnan A (fst e)) (endpoints A 0 values ranges) = false).
  { apply not_true_is_false. intros T. apply existsb_exists in T. destruct T as (e & He & T). now rewrite (Hnan e He) in T. }
  rewrite E. clear E. set (es := endpoints A 0 values ranges) in *.
  destruct Hs as [P _].
  destruct (sweep_defined values ranges Hl (sort es) (sums0 A ranges)) as (t & Et & Lt).
  { intros e He. apply (tags (length values) Hn values ranges 0); [exact Hl|lia|lia|]. apply (Permutation_in _ (Permutation_sym P)). exact He. }
  rewrite Et. cbn [obind].
  assert (L : length t = (2 * length values)%nat). { rewrite Lt, <- (Permutation_length P). now apply endpoints_length. }
  destruct (min_element_spec (map snd t)) as (c & M1 & M2). { destruct t; cbn in *; [lia|discriminate]. }
  rewrite nth_error_map in M1. destruct (nth_error t (min_element A (map snd t))) as [[est k]|] eqn:N; [|discriminate]. cbn in M1. injection M1 as ->.
  exists t, (min_element A (map snd t)), est, c. split; [reflexivity|]. split; [exact L|]. split; [exact N|]. split.
  - intros j' e' k' H. apply (M2 j'). now rewrite nth_error_map, H.
  - split; [reflexivity|]. destruct t; [cbn in L; lia|]. unfold vread. rewrite N. reflexivity.
Qed.

(** Distinct keys: only one way to sort. *)
Lemma sorted_unique : forall l1 l2 : list (A * Z), Permutation l1 l2 -> StronglySorted (fun a b => ltb A (fst a) (fst b) = true) l1 ->
  StronglySorted (fun a b => ltb A (fst b) (fst a) = false) l2 -> l1 = l2.
Proof.
  induction l1 as [|a t IH]; intros [|b u] P S1 S2; [reflexivity|now apply Permutation_nil in P|now apply Permutation_sym, Permutation_nil in P|].
  apply StronglySorted_inv in S1. destruct S1 as [S1 F1]. apply StronglySorted_inv in S2. destruct S2 as [S2 F2].
  assert (Ha : In a (b :: u)) by (apply (Permutation_in _ P); now left).
  assert (Hb : In b (a :: t)) by (apply (Permutation_in _ (Permutation_sym P)); now left).
  assert (E : a = b).
  { destruct Ha as [->|Ha]; [reflexivity|]. destruct Hb as [->|Hb]; [reflexivity|].
    rewrite Forall_forall in F1, F2. specialize (F1 b Hb). specialize (F2 a Ha). congruence. }
  subst b. f_equal. apply IH; [|assumption..]. now apply Permutation_cons_inv in P.
Qed.
Lemma only_order sort l l1 : sorts_it sort l -> Permutation l l1 -> StronglySorted (fun a b => ltb A (fst a) (fst b) = true) l1 -> sort l = l1.
Proof.
  intros [P2 S2] P S. symmetry. apply sorted_unique; [|exact S|exact S2]. now rewrite <- P.
Qed.
End Generic.
