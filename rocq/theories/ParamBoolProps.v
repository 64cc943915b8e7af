(** * Properties of bool parameters. *)
From Coq Require Import List ZArith Bool Lia.
From Verif Require Import Base ParamModel ParamSpec ParamProofs ParamIntModel ParamIntSpec ParamIntProofs ParamBoolModel ParamBoolSpec ParamBoolProofs.
Import ListNotations.
Open Scope Z_scope.

(** C239 *)
Theorem C239_set_get : forall t k b value dflt, ordered_table t -> getBool (setBool t k b) k value dflt = (setBool t k b, b, true).
Proof. exact bool_set_get. Qed.
Print Assumptions C239_set_get.
Theorem C239_file : forall u t k b value dflt, ordered_table u -> ordered_table t -> Forall writable u ->
  plain_word k -> (forall r, k <> 35 :: r) -> Z.of_nat (length k) <= 1997 ->
  exists t', read t (write (setBool u k b)) = Ret t' /\ getBool t' k value dflt = (t', b, true).
Proof. exact bool_file. Qed.
Print Assumptions C239_file.
Theorem C239_text : forall t k s value dflt, tfind k t = Some s ->
  (forall b, denotes_bool s b -> getBool t k value dflt = (t, b, true)) /\
  ((forall b, ~ denotes_bool s b) -> getBool t k value dflt = (t, value, true)).
Proof. exact bool_text. Qed.
Print Assumptions C239_text.
Example C239_case : ordered_table [([98], [120])] /\ writable ([98], [120]) /\ plain_word [97] /\
  read [] (write (setBool [([98], [120])] [97] true)) = Ret [([97], [49]); ([98], [120])] /\
  denotes_bool [45; 48; 48] false /\ (forall b, ~ denotes_bool [45; 49] b) /\ (forall b, ~ denotes_bool [50] b) /\
  getBool [([97], [45; 48; 48])] [97] true true = ([([97], [45; 48; 48])], false, true).
Proof.
  refine (conj _ (conj _ (conj _ (conj eq_refl (conj _ (conj _ (conj _ eq_refl))))))).
  - constructor; [constructor|intros ? ? []].
  - repeat split; cbn; try discriminate; repeat constructor; unfold space; lia.
  - split; [discriminate|]. constructor; [unfold space; lia|constructor].
  - apply cast_bool_spec. reflexivity.
  - intros b D. apply cast_bool_spec in D. discriminate.
  - intros b D. apply cast_bool_spec in D. discriminate.
Qed.

(** C240: the words are no numerals; the variable keeps its value and the result is true. *)
Theorem C240_words_refuted : exists t k s, ordered_table t /\ tfind k t = Some s /\ s = word_true /\
  forall dflt, getBool t k false dflt = (t, false, true).
Proof. exact words_lemma. Qed.
Print Assumptions C240_words_refuted.
Theorem C240_words_partial : forall t k s value dflt, tfind k t = Some s -> s = word_true \/ s = word_false -> getBool t k value dflt = (t, value, true).
Proof. exact words_exact. Qed.
Print Assumptions C240_words_partial.
Example C240_case : tfind [97] [([97], word_false)] = Some word_false /\ getBool [([97], word_false)] [97] true false = ([([97], word_false)], true, true).
Proof. split; reflexivity. Qed.
