(** * Proofs about lists of integers in ParamMap. *)
From Coq Require Import List ZArith Bool Lia.
From Verif Require Import Base ParamModel ParamSpec ParamProofs ParamIntModel ParamIntSpec ParamIntProofs ParamListModel ParamListSpec.
Import ListNotations.
Open Scope Z_scope.

Lemma element_delim w : element w -> w <> [] /\ forall c, In c w -> ~ In c DELIM.
Proof.
  intros [N F]. split; [exact N|]. intros c I. rewrite Forall_forall in F. specialize (F c I). cbn. lia.
Qed.
Lemma commas_tokenised l : Forall element l -> tokenised DELIM (commas l ++ [93]) l.
Proof.
  induction 1 as [|w r H F IH].
  - cbn. apply tk_delim; [cbn; lia|constructor].
  - destruct (element_delim w H) as [N D]. destruct r as [|w' r'].
    + cbn [commas]. apply tk_token; [exact N|exact D|cbn; lia|constructor].
    + cbn [commas]. rewrite <- app_assoc. cbn [app]. apply tk_token; [exact N|exact D|cbn; lia|exact IH].
Qed.
Lemma list_tokens l : Forall element l -> tokens DELIM (list_text l) = l.
Proof.
  intros F. apply tokens_lemma; [repeat constructor; discriminate|]. apply tk_delim; [cbn; lia|]. apply commas_tokenised. exact F.
Qed.

Lemma cast_no_int w : no_int w -> cast_int w = None.
Proof. intros N. destruct (cast_int w) as [v|] eqn:C; [|reflexivity]. apply cast_int_spec in C. exfalso. exact (N v C). Qed.
Lemma cast_element w n : int_element w n -> cast_int w = Some n.
Proof. intros H. apply cast_int_spec. exact H. Qed.

Lemma fill_prefix ws ns rest dest dflt : Forall2 int_element ws ns -> (rest = [] \/ exists w r, rest = w :: r /\ no_int w) ->
  Forall (fun x => x = dflt) dest ->
  fill_loop cast_int (ws ++ rest) dest dflt = firstn (length dest) (ns ++ repeat dflt (length dest)).
Proof.
  intros F R. revert dest. induction F as [|w n ws ns E F IH]; intros dest D.
  - cbn [app]. rewrite firstn_all2 by (rewrite repeat_length; lia).
    assert (X : dest = repeat dflt (length dest)) by (clear R; induction D as [|x d -> D IH]; [reflexivity|cbn; f_equal; exact IH]).
    destruct R as [->|[w [r [-> N]]]].
    + clear X D. induction dest as [|x d IH]; [reflexivity|]. cbn [fill_loop length repeat]. f_equal. exact IH.
    + destruct dest as [|x d]; [reflexivity|]. cbn [fill_loop]. rewrite (cast_no_int w N). exact X.
  - destruct dest as [|x d]; [reflexivity|]. cbn [app fill_loop length]. rewrite (cast_element w n E). cbn [firstn]. f_equal.
    inversion D as [|? ? _ D']; subst. rewrite (IH d D'). rewrite !firstn_app, !firstn_firstn || idtac.
    cbn [repeat]. rewrite !firstn_app. f_equal.
    rewrite (repeat_cons (length d) dflt), firstn_app, repeat_length.
    replace (length d - length ns - length d)%nat with 0%nat by lia. cbn [firstn]. rewrite app_nil_r. reflexivity.
Qed.
Lemma ins_prefix ws ns rest : Forall2 int_element ws ns -> (rest = [] \/ exists w r, rest = w :: r /\ no_int w) ->
  ins_loop cast_int (ws ++ rest) = ns.
Proof.
  intros F R. induction F as [|w n ws ns E F IH].
  - destruct R as [->|[w [r [-> N]]]]; [reflexivity|]. cbn [app ins_loop]. rewrite (cast_no_int w N). reflexivity.
  - cbn [app ins_loop]. rewrite (cast_element w n E), IH. reflexivity.
Qed.

Lemma int_list_lemma t k ws ns rest dest dfltString dflt : Forall element (ws ++ rest) -> Forall2 int_element ws ns ->
  (rest = [] \/ exists w r, rest = w :: r /\ no_int w) -> tfind k t = Some (list_text (ws ++ rest)) ->
  getIntContainer t k dest dfltString dflt = (t, firstn (length dest) (ns ++ repeat dflt (length dest)), true) /\
  getIntInserter t k = (t, ns, true).
Proof.
  intros E F R K. unfold getIntContainer, getParamContainer, getIntInserter, getParamContainerInserter, fillWithTokens. rewrite K.
  rewrite (list_tokens _ E). split.
  - rewrite (fill_prefix ws ns rest _ dflt F R); [rewrite map_length; reflexivity|].
    apply Forall_forall. intros x I. apply in_map_iff in I. destruct I as [y [<- _]]. reflexivity.
  - rewrite (ins_prefix ws ns rest F R). reflexivity.
Qed.

Lemma put_int_element n : is_int n -> element (put_int n) /\ int_element (put_int n) n.
Proof.
  intros H. destruct (put_int_spec n H) as [D _]. split; [|split; assumption].
  assert (X : forall s m, denotes s m -> Forall (fun c => c <> 91 /\ c <> 93 /\ c <> 44) s).
  { intros s m A. apply denotes_rval in A. destruct A as [_ [F _]]. eapply Forall_impl; [|exact F]. intros c. unfold digit. lia. }
  split; [apply (signed_word _ _ D)|]. destruct D as [D|[[r [-> D]]|[r [m [-> [D _]]]]]]; [exact (X _ _ D)| |]; constructor; try lia; exact (X _ _ D).
Qed.
Lemma written_list_lemma t k ns dest dfltString dflt : ordered_table t -> Forall is_int ns ->
  let t' := setParamString t k (list_text (map put_int ns)) in
  getIntContainer t' k dest dfltString dflt = (t', firstn (length dest) (ns ++ repeat dflt (length dest)), true) /\
  getIntInserter t' k = (t', ns, true).
Proof.
  intros O F t'. apply (int_list_lemma t' k (map put_int ns) ns []).
  - rewrite app_nil_r. apply Forall_map. eapply Forall_impl; [|exact F]. intros n H. apply put_int_element. exact H.
  - induction F as [|n r H F IH]; constructor; [apply put_int_element; exact H|exact IH].
  - left. reflexivity.
  - rewrite app_nil_r. unfold t'. rewrite set_find by exact O. unfold upd. destruct (list_eq_dec Z.eq_dec k k); congruence.
Qed.

Lemma blank_no_int w : no_int (32 :: w).
Proof.
  intros n [D _]. apply signed_word in D. destruct D as [_ D]. apply Forall_inv in D. unfold space in D. lia.
Qed.
Lemma one_element : int_element [49] 1.
Proof. split; [left; apply (dn_one 1); lia|unfold is_int; lia]. Qed.
Lemma two_element : int_element [50] 2.
Proof. split; [left; apply (dn_one 2); lia|unfold is_int; lia]. Qed.
Lemma blank_lemma : exists t k ws ns, ordered_table t /\ Forall2 int_element ws ns /\ tfind k t = Some (list_text [[49]; 32 :: [50]]) /\
  ws = [[49]; [50]] /\ ns = [1; 2] /\
  forall a b d, getIntContainer t k [a; b] [] d = (t, [1; d], true) /\ getIntInserter t k = (t, [1], true).
Proof.
  exists [([97], list_text [[49]; [32; 50]])], [97], [[49]; [50]], [1; 2].
  split; [constructor; [constructor|intros ? ? []]|]. split; [constructor; [apply one_element|constructor; [apply two_element|constructor]]|].
  split; [reflexivity|]. split; [reflexivity|]. split; [reflexivity|]. intros a b d. split; reflexivity.
Qed.
