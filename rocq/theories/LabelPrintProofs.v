(** * Proofs: the text of a label set. *)
From Coq Require Import List ZArith Bool String Ascii Decimal DecimalString DecimalZ DecimalFacts DecimalPos Lia Sorted.
From Verif Require Import Base LabelSetModel LabelSetSpec LabelSetProofs LabelPrintModel LabelPrintSpec.
Import ListNotations.
Open Scope string_scope.

Lemma to_int_nonnil z : Z.to_int z <> Pos Nil /\ Z.to_int z <> Neg Nil.
Proof.
  destruct z as [|p|p]; cbn; split; try discriminate; intros E; injection E as E; exact (Unsigned.to_uint_nonnil p E).
Qed.
Lemma read_put z : read_int (put_int z) = Some z.
Proof.
  unfold read_int, put_int. destruct (to_int_nonnil z) as [H1 H2]. rewrite NilZero.isi by auto. cbn [option_map]. now rewrite of_to.
Qed.

(** Neither a comma nor a closing brace. *)
Fixpoint plain (t : string) : bool :=
  match t with "" => true | String c r => negb (Ascii.eqb c ",") && negb (Ascii.eqb c "}") && plain r end.
Lemma plain_uint d : plain (NilEmpty.string_of_uint d) = true.
Proof. induction d; cbn; auto. Qed.
Lemma plain_put z : plain (put_int z) = true.
Proof.
  unfold put_int. destruct (Z.to_int z) as [d|d]; cbn; unfold NilZero.string_of_uint; destruct d; cbn; auto; apply plain_uint.
Qed.
Lemma put_nonempty z : exists c r, put_int z = String c r.
Proof.
  destruct (put_int z) as [|c r] eqn:E; [|eauto]. pose proof (read_put z) as H. rewrite E in H. discriminate.
Qed.

Lemma app_assoc a b c : (a ++ b) ++ c = a ++ (b ++ c).
Proof. induction a; cbn; congruence. Qed.
Lemma app_nil a : a ++ "" = a.
Proof. induction a; cbn; congruence. Qed.

Lemma read_plain_char cur c r : negb (Ascii.eqb c ",") = true -> negb (Ascii.eqb c "}") = true -> read_items cur (String c r) = read_items (cur ++ String c "") r.
Proof. destruct c as [[] [] [] [] [] [] [] []]; cbn; intros H1 H2; try discriminate; reflexivity. Qed.
Lemma read_plain d : forall cur r, plain d = true -> read_items cur (d ++ r) = read_items (cur ++ d) r.
Proof.
  induction d as [|c d IH]; intros cur r H; [now rewrite app_nil|]. cbn [plain] in H. apply andb_true_iff in H as [H H3]. apply andb_true_iff in H as [H1 H2].
  change (String c d ++ r) with (String c (d ++ r)). rewrite read_plain_char by auto. rewrite IH by auto. rewrite app_assoc. reflexivity.
Qed.

Lemma read_loop s : forall z, read_items "" (put_int z ++ print_loop false s ++ "}") = Some (z :: s).
Proof.
  induction s as [|y s IH]; intros z; rewrite read_plain by apply plain_put; change ("" ++ put_int z) with (put_int z).
  - cbn [print_loop append read_items]. now rewrite read_put.
  - cbn [print_loop]. rewrite !app_assoc. change (", " ++ put_int y ++ print_loop false s ++ "}") with (String "," (String " " (put_int y ++ print_loop false s ++ "}"))).
    cbn [read_items]. rewrite read_put, IH. reflexivity.
Qed.
Lemma read_print s : read_set (print s) = Some s.
Proof.
  unfold print. destruct s as [|z s]; [reflexivity|]. cbn [print_loop]. change ("" ++ put_int z ++ print_loop false s) with (put_int z ++ print_loop false s). rewrite app_assoc.
  pose proof (read_loop s z) as H. destruct (put_nonempty z) as (c & r & E). rewrite E in *.
  change ("{" ++ String c r ++ print_loop false s ++ "}") with (String "{" (String c (r ++ print_loop false s ++ "}"))).
  change (String c r ++ print_loop false s ++ "}") with (String c (r ++ print_loop false s ++ "}")) in H.
  assert (N : c <> "}"%char). { intros ->. pose proof (plain_put z) as P. rewrite E in P. discriminate. }
  etransitivity; [|exact H]. destruct c as [[] [] [] [] [] [] [] []]; try reflexivity. congruence.
Qed.

Lemma concat_loop s : forall z, put_int z ++ print_loop false s = String.concat ", " (map put_int (z :: s)).
Proof.
  induction s as [|y s IH]; intros z; [cbn; now rewrite app_nil|]. cbn [print_loop]. rewrite IH. reflexivity.
Qed.
Lemma format_lemma s : print s = "{" ++ String.concat ", " (map put_int s) ++ "}".
Proof. unfold print. destruct s as [|z s]; [reflexivity|]. cbn [print_loop]. rewrite <- concat_loop. reflexivity. Qed.
Lemma print_inj s1 s2 : print s1 = print s2 <-> s1 = s2.
Proof. split; [|now intros ->]. intros E. pose proof (read_print s1) as H1. pose proof (read_print s2) as H2. rewrite E in H1. congruence. Qed.

Lemma print_set_lemma e : exists l, read_set (print (eval e)) = Some l /\ StronglySorted Z.lt l /\ (forall x, In x l <-> denote e x).
Proof. destruct (set_algebra_lemma e) as (H1 & H2 & _). exists (eval e). split; [apply read_print|]. auto. Qed.
Lemma sorted_ext (l1 : list Z) : forall l2, StronglySorted Z.lt l1 -> StronglySorted Z.lt l2 -> (forall x, In x l1 <-> In x l2) -> l1 = l2.
Proof.
  induction l1 as [|a l1 IH]; intros l2 S1 S2 H.
  - destruct l2 as [|b l2]; [reflexivity|]. destruct (proj2 (H b) (or_introl eq_refl)).
  - destruct l2 as [|b l2]; [destruct (proj1 (H a) (or_introl eq_refl))|]. inversion_clear S1 as [|? ? T1 F1]. inversion_clear S2 as [|? ? T2 F2]. rewrite Forall_forall in F1, F2.
    assert (a = b) as ->.
    { destruct (proj1 (H a) (or_introl eq_refl)) as [E|Ha]; [congruence|]. destruct (proj2 (H b) (or_introl eq_refl)) as [E|Hb]; [congruence|]. specialize (F1 _ Hb). specialize (F2 _ Ha). lia. }
    f_equal. apply IH; auto. intros x. specialize (H x). split; intros Hx.
    + destruct (proj1 H (or_intror Hx)) as [<-|]; auto. specialize (F1 _ Hx). lia.
    + destruct (proj2 H (or_intror Hx)) as [<-|]; auto. specialize (F2 _ Hx). lia.
Qed.
Lemma same_text_lemma e1 e2 : print (eval e1) = print (eval e2) <-> forall x, denote e1 x <-> denote e2 x.
Proof.
  rewrite print_inj. destruct (set_algebra_lemma e1) as (S1 & H1 & _). destruct (set_algebra_lemma e2) as (S2 & H2 & _). split.
  - intros E x. rewrite <- H1, <- H2, E. reflexivity.
  - intros E. apply sorted_ext; auto. intros x. rewrite H1, H2. apply E.
Qed.
