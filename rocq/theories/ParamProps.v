(** * Property theorems for rofl::ParamMap (C37-C42, C76-C77, C145). *)
From Coq Require Import List ZArith Lia.
From Verif Require Import Base ParamModel ParamSpec ParamProofs.
Import ListNotations.
Open Scope Z_scope.

(** A table used in the examples: a -> xy, bc -> 7. *)
Definition tab : table := [([97], [120; 121]); ([98; 99], [55])].
Example tab_ordered : ordered_table tab.
Proof.
  repeat constructor; intros k v H; cbn in H; repeat (destruct H as [H|H]; [injection H as <- <-; constructor; reflexivity|]); contradiction.
Qed.
Example tab_writable : Forall writable tab.
Proof.
  repeat (apply Forall_cons || apply Forall_nil); unfold writable, plain_word, space; cbn [fst snd]; (split; [split; [discriminate|repeat constructor; lia]|]);
    (split; [split; [discriminate|repeat constructor; lia]|]); (split; [discriminate|cbn; lia]).
Qed.
(** Conversions for a small value type: the one-digit numbers. *)
Definition dfmt (v : Z) : str := [48 + v].
Definition dcast (s : str) : option Z := match s with [c] => if (48 <=? c) && (c <=? 57) then Some (c - 48) else None | _ => None end%bool.

(** C37 *)
Theorem C37_history : forall h, Forall simple_op h ->
  exists t, prun [] h = Ret t /\ ordered_table t /\ forall k, tfind k t = expected (rev h) k.
Proof. exact expected_lemma. Qed.
Print Assumptions C37_history.
Example C37_history_case : let h := [PSet [97] [120]; PGet [98] [121]; PSet [97] [122]; PGet [97] [121]] in
  Forall simple_op h /\ expected (rev h) [97] = Some [122] /\ expected (rev h) [98] = Some [121] /\ expected (rev h) [99] = None.
Proof. cbn. repeat split; repeat constructor. Qed.

Theorem C37_set_after_any_history : forall l t t' k v, ordered_table t -> prun t (l ++ [PSet k v]) = Ret t' ->
  tfind k t' = Some v /\ exists t1, prun t l = Ret t1 /\ forall k', k' <> k -> tfind k' t' = tfind k' t1.
Proof. exact prun_last. Qed.
Print Assumptions C37_set_after_any_history.
Theorem C37_table_stays_ordered : forall l t t', ordered_table t -> prun t l = Ret t' -> ordered_table t'.
Proof. exact prun_ordered. Qed.
Print Assumptions C37_table_stays_ordered.
Example C37_after_case : exists t', prun tab ([PRead [97; 32; 98; 10]; PArgs [[]; [45; 99]; [100]]] ++ [PSet [97] [49]]) = Ret t'.
Proof. eexists. vm_compute. reflexivity. Qed.

Theorem C37_set_then_get : forall (V : Type) (fmt : V -> str) (cast : str -> option V) t k v value dflt,
  ordered_table t -> cast (fmt v) = Some v -> getParam fmt cast (setParam fmt t k v) k value dflt = (setParam fmt t k v, v, true).
Proof. exact @set_get_lemma. Qed.
Print Assumptions C37_set_then_get.
Theorem C37_get_missing : forall (V : Type) (fmt : V -> str) (cast : str -> option V) t k value dflt,
  ordered_table t -> tfind k t = None ->
  exists t', getParam fmt cast t k value dflt = (t', dflt, false) /\ ordered_table t' /\
    forall k', tfind k' t' = upd (fun x => tfind x t) k (fmt dflt) k'.
Proof. exact @get_missing_lemma. Qed.
Print Assumptions C37_get_missing.
Theorem C37_get_unconvertible : forall (V : Type) (fmt : V -> str) (cast : str -> option V) t k s value dflt,
  tfind k t = Some s -> cast s = None -> getParam fmt cast t k value dflt = (t, value, true).
Proof. exact @get_bad_lemma. Qed.
Print Assumptions C37_get_unconvertible.
Theorem C37_get_present : forall (V : Type) (fmt : V -> str) (cast : str -> option V) t k s v value dflt,
  tfind k t = Some s -> cast s = Some v -> getParam fmt cast t k value dflt = (t, v, true).
Proof. exact @get_good_lemma. Qed.
Print Assumptions C37_get_present.
Example C37_get_case : dcast (dfmt 4) = Some 4 /\ tfind [100] tab = None /\ (tfind [97] tab = Some [120; 121] /\ dcast [120; 121] = None) /\
  (tfind [98; 99] tab = Some [55] /\ dcast [55] = Some 7).
Proof. repeat split. Qed.

(** C38 *)
Theorem C38_write_read : forall u t, ordered_table u -> ordered_table t -> Forall writable u ->
  exists t', read t (write u) = Ret t' /\ ordered_table t' /\
    (forall k, tfind k t' = match tfind k u with Some v => Some v | None => tfind k t end) /\ (t = [] -> t' = u).
Proof. exact read_write_lemma. Qed.
Print Assumptions C38_write_read.
Theorem C38_commented_output_is_skipped : forall u prefix t, ordered_table t ->
  (exists p, prefix = 35 :: p /\ Forall (fun c => c <> 10) p) -> Forall writable u ->
  Forall (fun p => Z.of_nat (length prefix + length (fst p) + length (snd p)) <= 1998) u -> read t (write_prefix u prefix) = Ret t.
Proof. exact prefix_skipped. Qed.
Print Assumptions C38_commented_output_is_skipped.
Example C38_case : read [] (write tab) = Ret tab /\ read tab (write_prefix tab [35; 32]) = Ret tab /\
  Forall (fun p => Z.of_nat (length [35; 32] + length (fst p) + length (snd p)) <= 1998) tab.
Proof. split; [reflexivity|split; [reflexivity|]]. repeat constructor; cbn; lia. Qed.

(** C39: false for arbitrary texts; the conditions of C38 are exactly the needed ones. *)
Theorem C39_arbitrary_round_trip_refuted :
  (exists u, ordered_table u /\ read [] (write u) = Ret [] /\ u = [([97], [])]) /\
  (exists u t', ordered_table u /\ read [] (write u) = Ret t' /\ u = [([97], [98; 32; 99])] /\ t' = [([97], [98])]) /\
  (exists u, ordered_table u /\ read [] (write u) = Ret [] /\ u = [([35; 97], [98])]) /\
  (exists u, ordered_table u /\ read [] (write u) = Ret [] /\ u <> []).
Proof. exact round_trip_refuted_lemma. Qed.
Print Assumptions C39_arbitrary_round_trip_refuted.
Theorem C77_round_trip_iff : forall u, ordered_table u -> (read [] (write u) = Ret u <-> Forall writable u).
Proof. exact round_trip_iff_lemma. Qed.
Print Assumptions C77_round_trip_iff.
(** A line that does not fit the buffer ends the reading: everything after it is lost. *)
Theorem C77_overlong_line_ends_reading : forall l rest t, Forall (fun c => c <> 10) l -> 2000 <= Z.of_nat (length l) -> read t (l ++ 10 :: rest) = Ret t.
Proof. exact overlong_lemma. Qed.
Print Assumptions C77_overlong_line_ends_reading.
Example C77_overlong_case : Forall (fun c => c <> 10) (repeat 97 (Z.to_nat 2000)) /\ 2000 <= Z.of_nat (length (repeat 97 (Z.to_nat 2000))).
Proof. split; [apply Forall_forall; intros x H; apply repeat_spec in H; subst; discriminate|rewrite repeat_length, Z2Nat.id; discriminate]. Qed.

(** C40: on the arguments where std::isalpha is defined. *)
Theorem C40_command_line_partial : forall argv t, Forall ascii_arg argv -> ordered_table t ->
  exists t', read_args t (length argv) argv = Ret t' /\ ordered_table t' /\ forall k,
    (exists i v, binds argv i k v /\ tfind k t' = Some v /\ forall j v', (i < j)%nat -> ~ binds argv j k v') \/
    ((forall i v, ~ binds argv i k v) /\ tfind k t' = tfind k t).
Proof. exact args_lemma. Qed.
Print Assumptions C40_command_line_partial.
Example C40_case : let argv := [[112]; [45; 97]; [45; 55]; [120]; [45; 98]; [45; 97]; [121]] in
  Forall ascii_arg argv /\ read_args [] (length argv) argv = Ret [([97], [121])] /\ binds argv 1 [97] [45; 55] /\ binds argv 5 [97] [121].
Proof.
  cbn zeta. split; [|split; [reflexivity|]].
  - repeat (apply Forall_cons || apply Forall_nil); intros c r E; try discriminate; injection E; intros; subst; reflexivity.
  - unfold binds, option_word, letter. split; (split; [auto with arith|]; split; [reflexivity|]; split; [exists 97, []; split; [reflexivity|right; split; discriminate]|]; split; [reflexivity|]);
      intros (c & r & E & H); try discriminate. injection E as <- <-. destruct H as [[? ?]|[? ?]]; auto.
Qed.
Theorem C40_non_ascii_refuted : exists argv, read_args [] (length argv) argv = UB.
Proof. exact args_refuted_lemma. Qed.
Print Assumptions C40_non_ascii_refuted.

(** C76 *)
Theorem C76_ascii_command_line : forall argv t, Forall ascii_arg argv -> ordered_table t ->
  exists t', read_args t (length argv) argv = Ret t' /\ ordered_table t' /\ forall k,
    (exists i v, binds argv i k v /\ tfind k t' = Some v /\ forall j v', (i < j)%nat -> ~ binds argv j k v') \/
    ((forall i v, ~ binds argv i k v) /\ tfind k t' = tfind k t).
Proof. exact args_lemma. Qed.
Print Assumptions C76_ascii_command_line.
(** ... and a non-ASCII character after a dash anywhere but in the last argument does reach std::isalpha. *)
Theorem C76_non_ascii_is_undefined : forall argv t, (exists i s, (1 <= i)%nat /\ (S i < length argv)%nat /\ nth_error argv i = Some s /\ ~ ascii_arg s) ->
  read_args t (length argv) argv = UB.
Proof. exact args_bad_lemma. Qed.
Print Assumptions C76_non_ascii_is_undefined.
Example C76_case : exists s, nth_error [[112]; [45; 200]; [120]] 1 = Some s /\ ~ ascii_arg s.
Proof. eexists. split; [reflexivity|]. intros H. specialize (H 200 [] eq_refl). discriminate. Qed.

(** C41: false whenever there is something to replace. *)
Theorem C41_tilde_exact : forall home t,
  (adaptTildeInPaths home t = UB <-> t <> [] /\ (home = None \/ exists p, In p t /\ only_tilde (snd p))) /\
  (adaptTildeInPaths home t <> UB -> adaptTildeInPaths home t = Ret t).
Proof. exact tilde_lemma. Qed.
Print Assumptions C41_tilde_exact.
Theorem C41_tilde_refuted : exists home t, ordered_table t /\ home <> None /\ adaptTildeInPaths home t = UB.
Proof.
  exists (Some [47]), [([97], [126; 47; 98])]. split; [constructor; [constructor|intros ? ? []]|]. split; [discriminate|reflexivity].
Qed.
Print Assumptions C41_tilde_refuted.
Example C41_case : adaptTildeInPaths (Some [47]) tab = Ret tab. Proof. reflexivity. Qed.

(** C42: a token that cannot be converted ends the filling. *)
Theorem C42_container : forall (V : Type) (cast : str -> option V) t k dest dfltString dflt delim toks,
  ordered_table t -> Forall (fun c => c <> 0) delim -> tokenised delim (match tfind k t with Some s => s | None => dfltString end) toks ->
  exists t' dest' b, getParamContainer cast t k dest dfltString dflt delim = (t', dest', b) /\
    (b = true <-> exists s, tfind k t = Some s) /\ ordered_table t' /\
    (forall k', tfind k' t' = match tfind k t with Some _ => tfind k' t | None => upd (fun x => tfind x t) k dfltString k' end) /\
    length dest' = length dest /\
    forall i, (i < length dest)%nat -> nth_error dest' i =
      Some (if forallb (fun s => match cast s with Some _ => true | None => false end) (firstn (S i) toks)
            then match nth_error toks i with Some s => match cast s with Some v => v | None => dflt end | None => dflt end else dflt).
Proof. exact @container_lemma. Qed.
Print Assumptions C42_container.
Theorem C42_tokens : forall delim s l, Forall (fun c => c <> 0) delim -> (tokens delim s = l <-> tokenised delim s l).
Proof. exact tokens_lemma. Qed.
Print Assumptions C42_tokens.
Theorem C42_inserter : forall (V : Type) (cast : str -> option V) t k delim, ordered_table t -> Forall (fun c => c <> 0) delim ->
  (forall s toks, tfind k t = Some s -> tokenised delim s toks ->
     exists vs, getParamContainerInserter cast t k delim = (t, vs, true) /\ (length vs <= length toks)%nat /\
       map Some vs = map cast (firstn (length vs) toks) /\ (forall s', nth_error toks (length vs) = Some s' -> cast s' = None)) /\
  (tfind k t = None -> exists t', getParamContainerInserter cast t k delim = (t', [], false) /\ ordered_table t' /\
     forall k', tfind k' t' = upd (fun x => tfind x t) k [] k').
Proof. exact @inserter_lemma. Qed.
Print Assumptions C42_inserter.
Example C42_case : let t := [([97], [44; 49; 44; 44; 50; 44])] in
  ordered_table t /\ tokenised [44] [44; 49; 44; 44; 50; 44] [[49]; [50]] /\ getParamContainer dcast t [97] [9; 9; 9] [] 5 [44] = (t, [1; 2; 5], true).
Proof.
  cbn zeta. split; [constructor; [constructor|intros ? ? []]|]. split; [|reflexivity]. apply C42_tokens; [|reflexivity]. repeat constructor; discriminate.
Qed.

(** C145: every name gets the value of the last line that gives it one, whether or not the text ends with a newline. *)
Theorem C145_file : forall ls last t, Forall good_line (ls ++ [last]) -> ordered_table t ->
  exists t', read t (text_of ls last) = Ret t' /\ ordered_table t' /\ forall k,
    (exists i l v, nth_error (ls ++ [last]) i = Some l /\ line_binds l k v /\ tfind k t' = Some v /\
       forall j l' v', (i < j)%nat -> nth_error (ls ++ [last]) j = Some l' -> ~ line_binds l' k v') \/
    ((forall i l v, nth_error (ls ++ [last]) i = Some l -> ~ line_binds l k v) /\ tfind k t' = tfind k t).
Proof. exact read_text_lemma. Qed.
Print Assumptions C145_file.
Example C145_case : Forall good_line ([[97; 32; 98]; []; [35; 97; 32; 99]] ++ [[9; 97; 9; 32; 100; 32; 101]]) /\
  line_binds [9; 97; 9; 32; 100; 32; 101] [97] [100] /\
  read [] (text_of [[97; 32; 98]; []; [35; 97; 32; 99]] [9; 97; 9; 32; 100; 32; 101]) = Ret [([97], [100])].
Proof.
  split; [|split; [|vm_compute; reflexivity]].
  - repeat (apply Forall_cons || apply Forall_nil); (split; [repeat constructor; discriminate|vm_compute; discriminate]).
  - exists [9], [9; 32], [32; 101]. unfold space. split; [reflexivity|]. repeat (split; [first [discriminate|right; exists 32, [101]; split; [reflexivity|lia]|repeat constructor; lia]|]). discriminate.
Qed.
