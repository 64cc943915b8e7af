(** * Proofs about bool parameters. *)
From Coq Require Import List ZArith Bool Lia.
From Verif Require Import Base ParamModel ParamSpec ParamProofs ParamIntModel ParamIntSpec ParamIntProofs ParamBoolModel ParamBoolSpec.
Import ListNotations.
Open Scope Z_scope.

Lemma zeros_iff l : forallb (Z.eqb 48) l = true <-> Forall digit l /\ rval (rev l) = 0.
Proof.
  induction l as [|c l IH].
  - cbn. split; [intros _; split; [constructor|reflexivity]|reflexivity].
  - cbn [forallb rev]. rewrite andb_true_iff, IH, Z.eqb_eq.
    assert (X : forall p q, rval (p ++ [q]) = rval p + 10 ^ Z.of_nat (length p) * (q - 48)).
    { clear. induction p as [|x p IH]; intros q; cbn [app rval length]; [change (10 ^ Z.of_nat 0) with 1; lia|]. rewrite IH, Nat2Z.inj_succ, Z.pow_succ_r by lia. ring. }
    rewrite X. assert (P : 0 < 10 ^ Z.of_nat (length (rev l))) by (apply Z.pow_pos_nonneg; lia). split.
    + intros [<- [F E]]. split; [constructor; [unfold digit; lia|exact F]|]. lia.
    + intros [F E]. pose proof (Forall_inv F) as D. pose proof (Forall_inv_tail F) as F'. unfold digit in D.
      pose proof (rval_nonneg _ (Forall_rev F')). assert (c = 48) by nia. subst c. split; [reflexivity|]. split; [exact F'|lia].
Qed.
(** A word of zeros and a last digit. *)
Lemma bits_denote l c : c = 48 \/ c = 49 -> (forallb (Z.eqb 48) l = true <-> denotes (l ++ [c]) (c - 48)).
Proof.
  intros C. rewrite denotes_rval, rev_app_distr, zeros_iff. cbn [rev app rval]. split.
  - intros [F E]. split; [destruct l; discriminate|]. split; [|lia]. apply Forall_app. split; [exact F|constructor; [unfold digit; lia|constructor]].
  - intros [_ [F E]]. apply Forall_app in F. split; [apply F|lia].
Qed.
Lemma denotes_last s n : denotes s n -> 0 <= n <= 1 -> exists l c, s = l ++ [c] /\ (c = 48 \/ c = 49) /\ n = c - 48.
Proof.
  intros D N. apply denotes_rval in D. destruct D as [Ne [F E]]. destruct s as [|c l _] using rev_ind; [congruence|].
  rewrite rev_app_distr in E. cbn [rev app rval] in E. apply Forall_app in F. destruct F as [Fl Fc]. pose proof (rval_nonneg _ (Forall_rev Fl)).
  apply Forall_inv in Fc. unfold digit in Fc. exists l, c. split; [reflexivity|]. lia.
Qed.

Lemma cast_bool_app l c : cast_bool (l ++ [c]) =
  if (c =? 48) || (c =? 49) then if forallb (Z.eqb 48) (skip_sign (c =? 49) l) then Some (c =? 49) else None else None.
Proof. unfold cast_bool. rewrite rev_app_distr. cbn [rev app]. rewrite rev_involutive. reflexivity. Qed.

Lemma cast_bool_spec s b : cast_bool s = Some b <-> denotes_bool s b.
Proof.
  unfold denotes_bool. split.
  - destruct s as [|c l _] using rev_ind; [discriminate|]. rewrite cast_bool_app.
    destruct ((c =? 48) || (c =? 49)) eqn:C; [|discriminate]. assert (C' : c = 48 \/ c = 49) by (apply orb_true_iff in C; rewrite !Z.eqb_eq in C; exact C).
    destruct (forallb (Z.eqb 48) (skip_sign (c =? 49) l)) eqn:F; [|discriminate]. intros E. injection E as <-.
    assert (V : (if c =? 49 then 1 else 0) = c - 48) by (destruct C' as [-> | ->]; reflexivity). rewrite V.
    destruct l as [|x r]; [left; apply (bits_denote [] c C'); reflexivity|]. unfold skip_sign in F.
    destruct (x =? 43) eqn:X1.
    { apply Z.eqb_eq in X1. subst x. right. left. exists (r ++ [c]). split; [reflexivity|]. apply (bits_denote r c C'). exact F. }
    cbn [orb] in F. destruct ((x =? 45) && negb (c =? 49)) eqn:X2.
    { apply andb_true_iff in X2. destruct X2 as [X2 X3]. apply Z.eqb_eq in X2. subst x. apply negb_true_iff, Z.eqb_neq in X3. assert (c = 48) by lia. subst c.
      right. right. exists (r ++ [48]), 0. split; [reflexivity|]. split; [|reflexivity]. apply (bits_denote r 48 C'). exact F. }
    left. apply (bits_denote (x :: r) c C'). exact F.
  - assert (N : 0 <= (if b then 1 else 0) <= 1) by (destruct b; lia). intros [D|[[r [-> D]]|[r [m [-> [D E]]]]]].
    + destruct (denotes_last _ _ D N) as (l & c & -> & C & E). rewrite cast_bool_app. rewrite E in D. apply (bits_denote l c C) in D.
      assert (B : (c =? 49) = b) by (destruct b; [apply Z.eqb_eq|apply Z.eqb_neq]; lia).
      replace ((c =? 48) || (c =? 49)) with true by (symmetry; apply orb_true_iff; rewrite !Z.eqb_eq; exact C). rewrite B.
      destruct l as [|x r]; [reflexivity|]. unfold skip_sign. pose proof D as D'. cbn [forallb] in D'. apply andb_true_iff in D'. destruct D' as [X _]. apply Z.eqb_eq in X. subst x.
      change (48 =? 43) with false. change (48 =? 45) with false. cbn [orb andb]. rewrite D. reflexivity.
    + destruct (denotes_last _ _ D N) as (l & c & -> & C & E). change (43 :: l ++ [c]) with ((43 :: l) ++ [c]). rewrite cast_bool_app. rewrite E in D. apply (bits_denote l c C) in D.
      assert (B : (c =? 49) = b) by (destruct b; [apply Z.eqb_eq|apply Z.eqb_neq]; lia).
      replace ((c =? 48) || (c =? 49)) with true by (symmetry; apply orb_true_iff; rewrite !Z.eqb_eq; exact C). rewrite B.
      unfold skip_sign. change (43 =? 43) with true. cbn [orb]. rewrite D. reflexivity.
    + pose proof (denotes_nonneg _ _ D) as Nm. assert (b = false /\ m = 0) as [-> ->] by (destruct b; [lia|split; [reflexivity|lia]]).
      destruct (denotes_last _ _ D ltac:(lia)) as (l & c & -> & C & Ec). assert (c = 48) by lia. subst c. change (45 :: l ++ [48]) with ((45 :: l) ++ [48]).
      rewrite cast_bool_app. apply (bits_denote l 48 (or_introl eq_refl)) in D. cbn. rewrite D. reflexivity.
Qed.

Lemma bool_text t k s value dflt : tfind k t = Some s ->
  (forall b, denotes_bool s b -> getBool t k value dflt = (t, b, true)) /\
  ((forall b, ~ denotes_bool s b) -> getBool t k value dflt = (t, value, true)).
Proof.
  intros F. split.
  - intros b D. apply (get_good_lemma put_bool cast_bool t k s b value dflt F). apply cast_bool_spec. exact D.
  - intros H. apply (get_bad_lemma put_bool cast_bool t k s value dflt F). destruct (cast_bool s) as [v|] eqn:C; [|reflexivity].
    apply cast_bool_spec in C. exfalso. exact (H v C).
Qed.
Lemma bool_round b : cast_bool (put_bool b) = Some b.
Proof. destruct b; reflexivity. Qed.
Lemma bool_set_get t k b value dflt : ordered_table t -> getBool (setBool t k b) k value dflt = (setBool t k b, b, true).
Proof. intros O. apply set_get_lemma; [exact O|apply bool_round]. Qed.
Lemma bool_file u t k b value dflt : ordered_table u -> ordered_table t -> Forall writable u -> plain_word k -> (forall r, k <> 35 :: r) ->
  Z.of_nat (length k) <= 1997 -> exists t', read t (write (setBool u k b)) = Ret t' /\ getBool t' k value dflt = (t', b, true).
Proof.
  intros Ou Ot F P N L. apply file_gen; try assumption; [|apply bool_round].
  split; [exact P|]. split; [|split; [exact N|cbn [fst snd put_bool length]; lia]].
  split; [discriminate|]. constructor; [destruct b; unfold space; lia|constructor].
Qed.
Lemma words_lemma : exists t k s, ordered_table t /\ tfind k t = Some s /\ s = word_true /\
  forall dflt, getBool t k false dflt = (t, false, true).
Proof.
  exists [([97], word_true)], [97], word_true. split; [constructor; [constructor|intros ? ? []]|]. split; [reflexivity|]. split; [reflexivity|]. intros dflt. reflexivity.
Qed.
Lemma words_exact t k s value dflt : tfind k t = Some s -> s = word_true \/ s = word_false -> getBool t k value dflt = (t, value, true).
Proof. intros F [-> | ->]; unfold getBool, getParam; rewrite F; reflexivity. Qed.
