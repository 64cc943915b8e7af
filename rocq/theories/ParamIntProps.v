(** * Properties of integer parameters. *)
From Coq Require Import List ZArith Bool Lia.
From Verif Require Import Base ParamModel ParamSpec ParamProofs ParamIntModel ParamIntSpec ParamIntProofs.
Import ListNotations.
Open Scope Z_scope.

(** C229 *)
Theorem C229_set_get : forall t k value dflt, ordered_table t ->
  (forall n, is_int n -> getInt (setInt t k n) k value dflt = (setInt t k n, n, true)) /\
  (forall n, is_unsigned n -> getUnsigned (setUnsigned t k n) k value dflt = (setUnsigned t k n, n, true)).
Proof. intros t k value dflt O. split; intros n; [apply int_set_get|apply unsigned_set_get]; exact O. Qed.
Print Assumptions C229_set_get.
Theorem C229_written_text : forall t k n, ordered_table t -> is_int n ->
  exists s, tfind k (setInt t k n) = Some s /\ denotes_signed s n /\ canonical s.
Proof.
  intros t k n O H. exists (put_int n). destruct (put_int_spec n H) as [D [_ C]]. split; [|split; assumption].
  unfold setInt, setParam. rewrite set_find by exact O. unfold upd. destruct (list_eq_dec Z.eq_dec k k); congruence.
Qed.
Print Assumptions C229_written_text.
Theorem C229_file : forall u t k value dflt, ordered_table u -> ordered_table t -> Forall writable u ->
  plain_word k -> (forall r, k <> 35 :: r) -> Z.of_nat (length k) <= 1987 ->
  (forall n, is_int n -> exists t', read t (write (setInt u k n)) = Ret t' /\ getInt t' k value dflt = (t', n, true)) /\
  (forall n, is_unsigned n -> exists t', read t (write (setUnsigned u k n)) = Ret t' /\ getUnsigned t' k value dflt = (t', n, true)).
Proof. intros u t k value dflt Ou Ot F P N L. split; intros n H; [apply int_file|apply unsigned_file]; try assumption; lia. Qed.
Print Assumptions C229_file.
Example C229_case : is_int (- 2 ^ 31) /\ is_int (2 ^ 31 - 1) /\ is_unsigned (2 ^ 32 - 1) /\ ordered_table [([98], [120])] /\ writable ([98], [120]) /\
  plain_word [97] /\ (forall r, [97] <> 35 :: r) /\
  read [] (write (setInt [([98], [120])] [97] (- 2 ^ 31))) = Ret [([97], [45; 50; 49; 52; 55; 52; 56; 51; 54; 52; 56]); ([98], [120])].
Proof.
  refine (conj _ (conj _ (conj _ (conj _ (conj _ (conj _ (conj _ _))))))); try (unfold is_int, is_unsigned; lia); try reflexivity.
  - constructor; [constructor|intros ? ? []].
  - repeat split; cbn; try discriminate; repeat constructor; unfold space; lia.
  - split; [discriminate|]. constructor; [unfold space; lia|constructor].
  - discriminate.
Qed.

(** C230 *)
Theorem C230_command_line : forall argv t i k s n value dflt, Forall ascii_arg argv -> ordered_table t -> (1 <= i)%nat ->
  nth_error argv i = Some (45 :: k) -> option_word (45 :: k) -> nth_error argv (S i) = Some s -> denotes_signed s n -> is_int n ->
  (forall j v', (i < j)%nat -> ~ binds argv j k v') ->
  exists t', read_args t (length argv) argv = Ret t' /\ getInt t' k value dflt = (t', n, true).
Proof. exact int_args. Qed.
Print Assumptions C230_command_line.
Example C230_case : let argv := [[112]; [45; 97]; [45; 49]] in
  Forall ascii_arg argv /\ option_word [45; 97] /\ denotes_signed [45; 49] (-1) /\ (forall j v', (1 < j)%nat -> ~ binds argv j [97] v') /\
  exists t', read_args [] 3 argv = Ret t' /\ getInt t' [97] 7 8 = (t', -1, true).
Proof.
  cbn zeta. refine (conj _ (conj _ (conj neg_one (conj _ _)))).
  - repeat constructor; intros c r E; injection E; intros; subst; lia || discriminate.
  - exists 97, []. split; [reflexivity|]. unfold letter. lia.
  - intros j v' J [_ [E [_ [E' _]]]]. destruct j as [|[|[|j]]]; try lia; cbn in E'; [discriminate|]. destruct j; discriminate.
  - eexists. split; reflexivity.
Qed.

(** C231 *)
Theorem C231_int_text : forall t k s value dflt, tfind k t = Some s ->
  (forall n, denotes_signed s n -> is_int n -> getInt t k value dflt = (t, n, true)) /\
  ((forall n, denotes_signed s n -> ~ is_int n) -> getInt t k value dflt = (t, value, true)).
Proof. exact int_text. Qed.
Print Assumptions C231_int_text.
Example C231_case : denotes_signed [43; 48; 55] 7 /\ is_int 7 /\ getInt [([97], [43; 48; 55])] [97] 1 2 = ([([97], [43; 48; 55])], 7, true) /\
  getInt [([97], [49; 101; 51])] [97] 1 2 = ([([97], [49; 101; 51])], 1, true) /\
  getInt [([97], [50; 49; 52; 55; 52; 56; 51; 54; 52; 56])] [97] 1 2 = ([([97], [50; 49; 52; 55; 52; 56; 51; 54; 52; 56])], 1, true).
Proof.
  refine (conj _ (conj _ (conj eq_refl (conj eq_refl eq_refl)))); [|unfold is_int; lia].
  right. left. exists [48; 55]. split; [reflexivity|]. apply (dn_more [48] 0 7); [apply (dn_one 0)|]; lia.
Qed.

(** C232: false, a negative text is accepted and wraps. *)
Theorem C232_unsigned_text_refuted : exists t k s n, ordered_table t /\ tfind k t = Some s /\ denotes_signed s n /\ ~ is_unsigned n /\
  forall value dflt, getUnsigned t k value dflt = (t, 4294967295, true).
Proof. exact unsigned_negative_lemma. Qed.
Print Assumptions C232_unsigned_text_refuted.
Theorem C232_unsigned_text_partial : forall t k s n value dflt, tfind k t = Some s -> denotes_signed s n -> 0 <= n ->
  getUnsigned t k value dflt = (t, if n <? 2 ^ 32 then n else value, true).
Proof. exact unsigned_nonneg_lemma. Qed.
Print Assumptions C232_unsigned_text_partial.
(** The exact behaviour. *)
Theorem C233_unsigned_text : forall t k s value dflt, tfind k t = Some s ->
  (forall n, denotes_signed s n -> Z.abs n < 2 ^ 32 -> getUnsigned t k value dflt = (t, n mod 2 ^ 32, true)) /\
  ((forall n, denotes_signed s n -> 2 ^ 32 <= Z.abs n) -> getUnsigned t k value dflt = (t, value, true)).
Proof. exact unsigned_text. Qed.
Print Assumptions C233_unsigned_text.
Example C233_case : denotes_signed [45; 49] (-1) /\ Z.abs (-1) < 2 ^ 32 /\ (-1) mod 2 ^ 32 = 4294967295 /\
  getUnsigned [([97], [48; 57])] [97] 1 2 = ([([97], [48; 57])], 9, true).
Proof. refine (conj neg_one (conj _ (conj eq_refl eq_refl))). lia. Qed.
