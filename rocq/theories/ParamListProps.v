(** * Properties of lists of integers in ParamMap. *)
From Coq Require Import List ZArith Bool Lia.
From Verif Require Import Base ParamModel ParamSpec ParamProofs ParamIntModel ParamIntSpec ParamIntProofs ParamListModel ParamListSpec ParamListProofs.
Import ListNotations.
Open Scope Z_scope.

(** C234 *)
Theorem C234_list_text : forall t k ws ns rest dest dfltString dflt, Forall element (ws ++ rest) -> Forall2 int_element ws ns ->
  (rest = [] \/ exists w r, rest = w :: r /\ no_int w) -> tfind k t = Some (list_text (ws ++ rest)) ->
  getIntContainer t k dest dfltString dflt = (t, firstn (length dest) (ns ++ repeat dflt (length dest)), true) /\
  getIntInserter t k = (t, ns, true).
Proof. exact int_list_lemma. Qed.
Print Assumptions C234_list_text.
Theorem C234_written_list : forall t k ns dest dfltString dflt, ordered_table t -> Forall is_int ns ->
  let t' := setParamString t k (list_text (map put_int ns)) in
  getIntContainer t' k dest dfltString dflt = (t', firstn (length dest) (ns ++ repeat dflt (length dest)), true) /\
  getIntInserter t' k = (t', ns, true).
Proof. exact written_list_lemma. Qed.
Print Assumptions C234_written_list.
Example C234_case : let s := list_text [[49]; [50]; [120]; [50]] in let t := [([97], s)] in
  Forall element ([[49]; [50]] ++ [[120]; [50]]) /\ Forall2 int_element [[49]; [50]] [1; 2] /\ no_int [120] /\ s = [91; 49; 44; 50; 44; 120; 44; 50; 93] /\
  getIntContainer t [97] [7; 7; 7; 7; 7] [] 9 = (t, [1; 2; 9; 9; 9], true) /\ getIntInserter t [97] = (t, [1; 2], true).
Proof.
  refine (conj _ (conj _ (conj _ (conj eq_refl (conj eq_refl eq_refl))))).
  - repeat constructor; try discriminate; lia.
  - constructor; [apply one_element|constructor; [apply two_element|constructor]].
  - intros n H. apply cast_element in H. discriminate.
Qed.

(** C235: false, a blank in front of an element ends the list. *)
Theorem C235_blanks_refuted : exists t k ws ns, ordered_table t /\ Forall2 int_element ws ns /\ tfind k t = Some (list_text [[49]; 32 :: [50]]) /\
  ws = [[49]; [50]] /\ ns = [1; 2] /\
  forall a b d, getIntContainer t k [a; b] [] d = (t, [1; d], true) /\ getIntInserter t k = (t, [1], true).
Proof. exact blank_lemma. Qed.
Print Assumptions C235_blanks_refuted.
(** Up to the first blank the elements are read. *)
Theorem C235_blanks_partial : forall t k ws ns w r dest dfltString dflt, Forall element (ws ++ (32 :: w) :: r) -> Forall2 int_element ws ns ->
  tfind k t = Some (list_text (ws ++ (32 :: w) :: r)) ->
  getIntContainer t k dest dfltString dflt = (t, firstn (length dest) (ns ++ repeat dflt (length dest)), true) /\
  getIntInserter t k = (t, ns, true).
Proof.
  intros t k ws ns w r dest dfltString dflt E F K. apply (int_list_lemma t k ws ns ((32 :: w) :: r)); try assumption.
  right. exists (32 :: w), r. split; [reflexivity|apply blank_no_int].
Qed.
Print Assumptions C235_blanks_partial.
Example C235_case : Forall element ([[49]] ++ (32 :: [50]) :: []) /\ Forall2 int_element [[49]] [1].
Proof. split; [repeat constructor; try discriminate; lia|constructor; [apply one_element|constructor]]. Qed.
