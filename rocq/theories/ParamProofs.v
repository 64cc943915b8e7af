(** * Proofs about ParamMap. *)
From Coq Require Import List ZArith Bool Lia.
From Verif Require Import Base BaseLemmas ParamModel ParamSpec.
Import ListNotations.
Open Scope Z_scope.

(** ** Strings *)
Lemma str_eqb_spec a b : str_eqb a b = true <-> a = b.
Proof.
  revert b. induction a as [|x a IH]; intros [|y b]; cbn [str_eqb]; try (split; congruence).
  rewrite andb_true_iff, Z.eqb_eq, IH. split; [intros [-> ->]; reflexivity|intros H; injection H; auto].
Qed.
Lemma str_eqb_refl a : str_eqb a a = true.
Proof. now apply str_eqb_spec. Qed.
Lemma str_eqb_neq a b : a <> b -> str_eqb a b = false.
Proof. intros H. destruct (str_eqb a b) eqn:E; auto. now apply str_eqb_spec in E. Qed.

Lemma str_ltb_spec a b : str_ltb a b = true <-> slt a b.
Proof.
  revert b. induction a as [|x a IH]; intros [|y b]; cbn [str_ltb].
  - split; [discriminate|inversion 1].
  - split; [constructor|reflexivity].
  - split; [discriminate|inversion 1].
  - destruct (Z.ltb_spec x y).
    + split; [now constructor|reflexivity].
    + destruct (Z.ltb_spec y x).
      * split; [discriminate|]. inversion 1; lia.
      * assert (x = y) by lia. subst y. rewrite IH. split; [now constructor|]. inversion 1; subst; [lia|auto].
Qed.

Lemma slt_irrefl a : ~ slt a a.
Proof. induction a; inversion 1; subst; [lia|auto]. Qed.
Lemma slt_trans a b c : slt a b -> slt b c -> slt a c.
Proof.
  intros H. revert c. induction H; intros c' H'; inversion H'; subst; try (constructor; try lia; auto; fail). 
Qed.
Lemma slt_total a b : a <> b -> ~ slt a b -> slt b a.
Proof.
  revert b. induction a as [|x a IH]; intros [|y b] H1 H2; try congruence.
  - exfalso. apply H2. constructor.
  - constructor.
  - destruct (Z.lt_trichotomy x y) as [H|[->|H]]; [exfalso; apply H2; now constructor| |now constructor].
    apply slt_tail. apply IH; [congruence|]. intros H. apply H2. now apply slt_tail.
Qed.

(** ** Tables *)
Lemma tfind_in k v t : tfind k t = Some v -> In (k, v) t.
Proof.
  induction t as [|[k' v'] t IH]; cbn [tfind]; [discriminate|]. destruct (str_eqb k k') eqn:E; [|auto with datatypes].
  apply str_eqb_spec in E. intros H. left. congruence.
Qed.
Lemma tfind_none k t : (forall v, ~ In (k, v) t) -> tfind k t = None.
Proof. intros H. destruct (tfind k t) eqn:E; auto. apply tfind_in in E. now apply H in E. Qed.

Lemma tfind_ordered k v t : ordered_table t -> (tfind k t = Some v <-> In (k, v) t).
Proof.
  intros H. split; [apply tfind_in|]. induction H as [|k' v' t Ht IH Hlt]; [contradiction|]. cbn [tfind]. intros [E|Hin].
  - injection E as -> ->. now rewrite str_eqb_refl.
  - rewrite str_eqb_neq; auto. intros ->. apply (slt_irrefl k'). eapply Hlt; eauto.
Qed.

Lemma terase_in k p t : In p (terase k t) -> In p t.
Proof.
  induction t as [|[k' v'] t IH]; cbn [terase]; [auto|]. destruct (str_eqb k k'); intros H; [now right|]. destruct H as [<-|H]; [now left|right; auto].
Qed.
Lemma terase_ordered k t : ordered_table t -> ordered_table (terase k t).
Proof.
  induction 1 as [|k' v' t Ht IH Hlt]; cbn [terase]; [constructor|]. destruct (str_eqb k k'); [auto|]. constructor; auto.
  intros k2 v2 Hin. eapply Hlt. eapply terase_in; eauto.
Qed.
Lemma terase_find k k' t : ordered_table t -> tfind k' (terase k t) = if list_eq_dec Z.eq_dec k k' then None else tfind k' t.
Proof.
  induction 1 as [|k1 v1 t Ht IH Hlt]; cbn [terase tfind]; [now destruct (list_eq_dec _ _ _)|].
  destruct (str_eqb k k1) eqn:E.
  - apply str_eqb_spec in E. subst k1. destruct (list_eq_dec Z.eq_dec k k') as [<-|Hne].
    + apply tfind_none. intros v Hin. apply (slt_irrefl k). eapply Hlt; eauto.
    + rewrite str_eqb_neq by auto. reflexivity.
  - cbn [tfind]. rewrite IH. destruct (str_eqb k' k1) eqn:E'; [|reflexivity]. apply str_eqb_spec in E'. subst k1.
    destruct (list_eq_dec Z.eq_dec k k') as [->|]; [|reflexivity]. rewrite str_eqb_refl in E. discriminate.
Qed.

Lemma tinsert_in k v p t : In p (tinsert k v t) -> p = (k, v) \/ In p t.
Proof.
  induction t as [|[k' v'] t IH]; cbn [tinsert]; [intros [<-|[]]; auto|]. destruct (str_eqb k k'); [auto|]. destruct (str_ltb k k').
  - intros [<-|H]; auto.
  - intros [<-|H]; [right; left; auto|]. destruct (IH H); auto. right. now right.
Qed.
Lemma tinsert_ordered k v t : ordered_table t -> ordered_table (tinsert k v t).
Proof.
  induction 1 as [|k' v' t Ht IH Hlt]; cbn [tinsert]; [constructor; [constructor|intros ? ? []]|].
  destruct (str_eqb k k') eqn:E; [now constructor|]. destruct (str_ltb k k') eqn:El.
  - apply str_ltb_spec in El. constructor; [now constructor|]. intros k2 v2 [H|H]; [injection H as <- <-; auto|]. eapply slt_trans; eauto.
  - constructor; [auto|]. intros k2 v2 Hin. apply tinsert_in in Hin as [H|Hin]; [|eauto]. injection H as -> ->.
    apply slt_total; [intros ->; now rewrite str_eqb_refl in E|]. rewrite <- str_ltb_spec. congruence.
Qed.
Lemma tinsert_find k v k' t : tfind k t = None -> tfind k' (tinsert k v t) = if list_eq_dec Z.eq_dec k k' then Some v else tfind k' t.
Proof.
  induction t as [|[k1 v1] t IH]; cbn [tfind tinsert].
  - intros _. destruct (list_eq_dec Z.eq_dec k k') as [<-|Hne]; [now rewrite str_eqb_refl|]. now rewrite str_eqb_neq by auto.
  - destruct (str_eqb k k1) eqn:E; [discriminate|]. intros H. destruct (str_ltb k k1).
    + cbn [tfind]. destruct (list_eq_dec Z.eq_dec k k') as [<-|Hne]; [now rewrite str_eqb_refl|]. rewrite (str_eqb_neq k' k) by auto. reflexivity.
    + cbn [tfind]. rewrite (IH H). destruct (str_eqb k' k1) eqn:E'; [|reflexivity]. apply str_eqb_spec in E'. subst k1.
      destruct (list_eq_dec Z.eq_dec k k') as [->|]; [|reflexivity]. rewrite str_eqb_refl in E. discriminate.
Qed.

Lemma set_ordered t k v : ordered_table t -> ordered_table (setParamString t k v).
Proof. intros H. apply tinsert_ordered, terase_ordered, H. Qed.
Lemma set_find t k v k' : ordered_table t -> tfind k' (setParamString t k v) = upd (fun x => tfind x t) k v k'.
Proof.
  intros H. unfold setParamString, upd. rewrite tinsert_find by (rewrite terase_find by auto; now destruct (list_eq_dec _ k k)).
  rewrite terase_find by auto. now destruct (list_eq_dec _ k k').
Qed.

Lemma ordered_ext t1 t2 : ordered_table t1 -> ordered_table t2 -> (forall k, tfind k t1 = tfind k t2) -> t1 = t2.
Proof.
  intros H1. revert t2. induction H1 as [|k v t Ht IH Hlt]; intros t2 H2 E.
  - destruct H2 as [|k2 v2 t2 Ht2 Hlt2]; [reflexivity|]. specialize (E k2). cbn [tfind] in E. rewrite str_eqb_refl in E. discriminate.
  - destruct H2 as [|k2 v2 t2 Ht2 Hlt2]; [specialize (E k); cbn [tfind] in E; rewrite str_eqb_refl in E; discriminate|].
    assert (Hin1 : forall x y, In (x, y) ((k, v) :: t) <-> In (x, y) ((k2, v2) :: t2)).
    { intros x y. rewrite <- !tfind_ordered by (constructor; auto). now rewrite E. }
    assert (k = k2) as <-.
    { destruct (proj1 (Hin1 k v) (or_introl eq_refl)) as [Hk|Hk]; [congruence|]. destruct (proj2 (Hin1 k2 v2) (or_introl eq_refl)) as [Hk'|Hk']; [congruence|].
      exfalso. apply (slt_irrefl k). eapply slt_trans; [eapply Hlt; eauto|eapply Hlt2; eauto]. }
    assert (v = v2) as <-. { pose proof (E k) as Ek. cbn [tfind] in Ek. rewrite str_eqb_refl in Ek. congruence. }
    f_equal. apply IH; auto. intros k'. destruct (list_eq_dec Z.eq_dec k' k) as [->|Hne].
    + rewrite !tfind_none; auto; intros v' Hin; apply (slt_irrefl k); eauto.
    + specialize (E k'). cbn [tfind] in E. now rewrite !str_eqb_neq in E by auto.
Qed.

(** ** Values *)
Lemma set_get_lemma {V} (fmt : V -> str) (cast : str -> option V) t k v value dflt : ordered_table t -> cast (fmt v) = Some v ->
  getParam fmt cast (setParam fmt t k v) k value dflt = (setParam fmt t k v, v, true).
Proof.
  intros H E. unfold getParam, setParam. rewrite set_find by auto. unfold upd. destruct (list_eq_dec _ k k); [|contradiction]. now rewrite E.
Qed.
Lemma get_missing_lemma {V} (fmt : V -> str) (cast : str -> option V) t k value dflt : ordered_table t -> tfind k t = None ->
  exists t', getParam fmt cast t k value dflt = (t', dflt, false) /\ ordered_table t' /\ forall k', tfind k' t' = upd (fun x => tfind x t) k (fmt dflt) k'.
Proof.
  intros H E. unfold getParam, setParam. rewrite E. eexists. split; [reflexivity|]. split; [now apply set_ordered|]. intros k'. now apply set_find.
Qed.
Lemma get_bad_lemma {V} (fmt : V -> str) (cast : str -> option V) t k s value dflt : tfind k t = Some s -> cast s = None ->
  getParam fmt cast t k value dflt = (t, value, true).
Proof. intros E C. unfold getParam. now rewrite E, C. Qed.
Lemma get_good_lemma {V} (fmt : V -> str) (cast : str -> option V) t k s v value dflt : tfind k t = Some s -> cast s = Some v ->
  getParam fmt cast t k value dflt = (t, v, true).
Proof. intros E C. unfold getParam. now rewrite E, C. Qed.

(** ** Streams *)
Lemma getline_shorter s room acc l r : getline_loop s room acc = LLine l r false -> (length r < length s)%nat.
Proof.
  revert room acc. induction s as [|c s IH]; intros room acc; cbn [getline_loop]; [destruct acc; discriminate|].
  destruct (c =? 10); [intros E; injection E as _ <-; simpl; lia|]. destruct (room <=? 0); [discriminate|]. intros E. apply IH in E. simpl. lia.
Qed.

Lemma read_line_ordered t l : ordered_table t -> ordered_table (read_line t l).
Proof.
  intros H. unfold read_line. destruct (word (c_str l)) as [[name r]|]; auto. destruct (word r) as [[value r2]|]; auto. destruct name as [|c name]; auto.
  destruct (c =? COMMENT); auto. now apply set_ordered.
Qed.

Lemma read_loop_total f : forall t s, (length s < f)%nat -> ordered_table t -> exists t', read_loop f t s = Ret t' /\ ordered_table t'.
Proof.
  induction f as [|f IH]; intros t s Hl Ht; [lia|]. cbn [read_loop]. destruct (getline s MAX_LEN) as [|l r eof] eqn:E; [eauto|].
  destruct eof; [eexists; split; [reflexivity|now apply read_line_ordered]|]. apply IH; [|now apply read_line_ordered].
  apply getline_shorter in E. lia.
Qed.
Lemma read_total t s : ordered_table t -> exists t', read t s = Ret t' /\ ordered_table t'.
Proof. intros H. apply read_loop_total; auto. Qed.

(** More fuel does not matter. *)
Lemma read_loop_fuel f : forall f' t s, (length s < f)%nat -> (length s < f')%nat -> read_loop f t s = read_loop f' t s.
Proof.
  induction f as [|f IH]; intros [|f'] t s H1 H2; try lia. cbn [read_loop]. destruct (getline s MAX_LEN) as [|l r eof] eqn:E; auto. destruct eof; auto.
  apply getline_shorter in E. apply IH; lia.
Qed.

Lemma is_ws_spec c : is_ws c = true <-> space c.
Proof. unfold is_ws, space. rewrite orb_true_iff, andb_true_iff, Z.eqb_eq, !Z.leb_le. reflexivity. Qed.
Lemma is_ws_false c : ~ space c -> is_ws c = false.
Proof. intros H. destruct (is_ws c) eqn:E; auto. now apply is_ws_spec in E. Qed.

Lemma getline_line l rest : Forall (fun c => c <> 10) l -> forall room acc, Z.of_nat (length l) <= room -> getline_loop (l ++ 10 :: rest) room acc = LLine (rev acc ++ l) rest false.
Proof.
  induction 1 as [|c l Hc Hl IH]; intros room acc Hr; cbn [app getline_loop].
  - cbn. now rewrite app_nil_r.
  - destruct (Z.eqb_spec c 10); [contradiction|]. cbn [length] in Hr. destruct (Z.leb_spec room 0); [lia|]. rewrite IH by lia. cbn [rev]. now rewrite <- app_assoc.
Qed.

Lemma skip_plain c s : ~ space c -> skip_ws (c :: s) = c :: s.
Proof. intros H. cbn [skip_ws]. now rewrite is_ws_false. Qed.
Lemma take_word_plain w r : Forall (fun c => ~ space c) w -> (r = [] \/ exists c q, r = c :: q /\ space c) -> take_word (w ++ r) = (w, r).
Proof.
  intros Hw Hr. induction Hw as [|c w Hc Hw IH]; cbn [app take_word].
  - destruct Hr as [->|(c & q & -> & Hc)]; [reflexivity|]. cbn [take_word]. apply is_ws_spec in Hc. now rewrite Hc.
  - rewrite is_ws_false by auto. now rewrite IH.
Qed.
Lemma word_plain w r : w <> [] -> Forall (fun c => ~ space c) w -> (r = [] \/ exists c q, r = c :: q /\ space c) -> word (w ++ r) = Some (w, r).
Proof.
  intros Hne Hw Hr. unfold word. destruct w as [|c w]; [contradiction|]. inversion Hw; subst. cbn [app]. rewrite skip_plain by auto.
  change (c :: w ++ r) with ((c :: w) ++ r). now rewrite take_word_plain.
Qed.
Lemma c_str_id s : Forall (fun c => c <> 0) s -> c_str s = s.
Proof. induction 1 as [|c s Hc Hs IH]; [reflexivity|]. cbn [c_str]. destruct (Z.eqb_spec c 0); [contradiction|]. now rewrite IH. Qed.

Lemma plain_parts w : plain_word w -> w <> [] /\ Forall (fun c => ~ space c) w /\ Forall (fun c => c <> 0) w /\ Forall (fun c => c <> 10) w.
Proof.
  intros [Hne H]. split; [auto|]. split; [|split]; eapply Forall_impl; try exact H; cbn; [tauto|tauto|]. intros c [Hc _] ->. apply Hc. right. lia.
Qed.

Lemma read_line_pair t k v : plain_word k -> plain_word v -> (forall r, k <> 35 :: r) -> read_line t (k ++ [32] ++ v) = setParamString t k v.
Proof.
  intros Hk Hv Hc. destruct (plain_parts k Hk) as (K1 & K2 & K3 & _). destruct (plain_parts v Hv) as (V1 & V2 & V3 & _).
  unfold read_line. rewrite c_str_id by (apply Forall_app; split; auto; apply Forall_app; split; auto; constructor; [lia|constructor]).
  rewrite word_plain; auto; [|right; exists 32, v; split; [reflexivity|now left]].
  assert (E : word ([32] ++ v) = word v) by (unfold word; cbn [app skip_ws]; reflexivity). rewrite E.
  rewrite <- (app_nil_r v) at 1. rewrite word_plain by auto. destruct k as [|c k]; [contradiction|].
  unfold COMMENT. destruct (Z.eqb_spec c 35); [subst; exfalso; now apply (Hc k)|]. reflexivity.
Qed.

Lemma read_write_loop u : Forall writable u -> forall f t, (length (write u) < f)%nat ->
  read_loop f t (write u) = Ret (fold_left (fun a p => setParamString a (fst p) (snd p)) u t).
Proof.
  induction 1 as [|[k v] u (Hk & Hv & Hc & Hl) Hu IH]; intros f t Hf.
  - destruct f; [lia|]. reflexivity.
  - destruct f as [|f]; [lia|]. cbn [fst snd] in *. cbn [read_loop]. unfold write. cbn [map concat]. fold (write u). unfold write_line. cbn [fst snd].
    replace ((k ++ [32] ++ v ++ [10]) ++ write u) with ((k ++ [32] ++ v) ++ 10 :: write u) by (rewrite <- !app_assoc; reflexivity).
    destruct (plain_parts k Hk) as (_ & _ & _ & K). destruct (plain_parts v Hv) as (_ & _ & _ & V).
    unfold getline. rewrite getline_line.
    + cbn [rev]. rewrite app_nil_l. rewrite read_line_pair by auto. cbn [fold_left fst snd]. apply IH.
      unfold write in Hf. cbn [map concat] in Hf. fold (write u) in Hf. rewrite app_length in Hf. unfold write_line in Hf. rewrite !app_length in Hf. simpl in Hf. lia.
    + apply Forall_app; split; auto. apply Forall_app; split; auto. constructor; [lia|constructor].
    + rewrite !app_length. cbn [length]. unfold MAX_LEN. lia.
Qed.

Lemma fold_set_ordered u : forall t, ordered_table t -> ordered_table (fold_left (fun a p => setParamString a (fst p) (snd p)) u t).
Proof. induction u as [|p u IH]; intros t H; cbn [fold_left]; [auto|]. apply IH. now apply set_ordered. Qed.

Lemma fold_set_find u : ordered_table u -> forall t, ordered_table t -> forall k,
  tfind k (fold_left (fun a p => setParamString a (fst p) (snd p)) u t) = match tfind k u with Some v => Some v | None => tfind k t end.
Proof.
  induction 1 as [|k1 v1 u Hu IH Hlt]; intros t Ht k; [reflexivity|]. cbn [fold_left fst snd tfind]. rewrite IH by (now apply set_ordered).
  rewrite set_find by auto. unfold upd. destruct (str_eqb k k1) eqn:E.
  - apply str_eqb_spec in E. subst k1. destruct (list_eq_dec _ k k); [|contradiction].
    rewrite (tfind_none k u); [reflexivity|]. intros v Hin. apply (slt_irrefl k). eauto.
  - destruct (list_eq_dec Z.eq_dec k1 k) as [->|]; [now rewrite str_eqb_refl in E|]. reflexivity.
Qed.

Lemma read_write_lemma u t : ordered_table u -> ordered_table t -> Forall writable u ->
  exists t', read t (write u) = Ret t' /\ ordered_table t' /\ (forall k, tfind k t' = match tfind k u with Some v => Some v | None => tfind k t end) /\
    (t = [] -> t' = u).
Proof.
  intros Hu Ht Hw. eexists. split; [apply read_write_loop; auto|]. split; [now apply fold_set_ordered|]. split; [now apply fold_set_find|].
  intros ->. apply ordered_ext; auto; [now apply fold_set_ordered|]. intros k. rewrite fold_set_find by auto. now destruct (tfind k u).
Qed.

(** Names and values read are words of the line, never a comment: *)
Lemma prefix_skipped u prefix t : ordered_table t -> (exists p, prefix = 35 :: p /\ Forall (fun c => c <> 10) p) -> 
  Forall writable u -> Forall (fun p => Z.of_nat (length prefix + length (fst p) + length (snd p)) <= 1998) u -> read t (write_prefix u prefix) = Ret t.
Proof.
  intros Ht (p & -> & Hp) Hw Hl. unfold read. enough (G : forall f, (length (write_prefix u (35 :: p)%Z) < f)%nat -> read_loop f t (write_prefix u (35 :: p)) = Ret t) by (apply G; lia).
  induction Hw as [|[k v] u (Hk & Hv & Hc & Hlk) Hu IH]; intros [|f] Hf; try lia; [reflexivity|].
  inversion Hl as [|? ? Hl1 Hl2]; subst. cbn [fst snd] in *. unfold write_prefix in *. cbn [map concat] in *. fold (write_prefix u (35 :: p)) in *.
  unfold write_line in *. cbn [fst snd] in *.
  replace (((35 :: p) ++ k ++ [32] ++ v ++ [10]) ++ write_prefix u (35 :: p)) with (((35 :: p) ++ k ++ [32] ++ v) ++ 10 :: write_prefix u (35 :: p)) in * by (rewrite <- !app_assoc; reflexivity).
  destruct (plain_parts k Hk) as (_ & _ & _ & K). destruct (plain_parts v Hv) as (_ & _ & _ & V).
  cbn [read_loop]. unfold getline. rewrite getline_line.
  - cbn [rev app]. assert (E : read_line t (35 :: p ++ k ++ 32 :: v) = t).
    { unfold read_line. cbn [c_str Z.eqb]. unfold word at 1. rewrite skip_plain by (unfold space; lia). cbn [take_word]. rewrite (is_ws_false 35) by (unfold space; lia).
      destruct (take_word _) as [w q]. destruct (word q) as [[? ?]|]; reflexivity. }
    rewrite E. apply IH; auto. rewrite app_length in Hf. simpl in Hf. lia.
  - cbn [app]. constructor; [lia|]. apply Forall_app; split; auto. apply Forall_app; split; auto. constructor; [lia|auto].
  - rewrite !app_length in *. cbn [length] in *. unfold MAX_LEN. lia.
Qed.

Lemma round_trip_refuted_lemma :
  (exists u, ordered_table u /\ read [] (write u) = Ret [] /\ u = [([97], [])]) /\
  (exists u t', ordered_table u /\ read [] (write u) = Ret t' /\ u = [([97], [98; 32; 99])] /\ t' = [([97], [98])]) /\
  (exists u, ordered_table u /\ read [] (write u) = Ret [] /\ u = [([35; 97], [98])]) /\
  (exists u, ordered_table u /\ read [] (write u) = Ret [] /\ u <> []) .
Proof.
  assert (O1 : forall k v, ordered_table [(k, v)]) by (intros; constructor; [constructor|intros ? ? []]).
  split; [|split; [|split]].
  - exists [([97], [])]. split; [auto|]. split; [vm_compute|]; reflexivity.
  - eexists _, _. split; [apply O1|]. split; [|split; reflexivity]. vm_compute. reflexivity.
  - exists [([35; 97], [98])]. split; [auto|]. split; [vm_compute|]; reflexivity.
  - exists [([97], [])]. split; [auto|]. split; [vm_compute; reflexivity|discriminate].
Qed.

(** An overlong first line hides every following parameter. *)
Lemma overlong_lemma l rest t : Forall (fun c => c <> 10) l -> 2000 <= Z.of_nat (length l) -> read t (l ++ 10 :: rest) = Ret t.
Proof.
  intros Hl Hn. unfold read. cbn [read_loop]. unfold getline, MAX_LEN.
  assert (G : forall l, Forall (fun c => c <> 10) l -> forall room acc, room < Z.of_nat (length l) -> 0 <= room -> getline_loop (l ++ 10 :: rest) room acc = LFail).
  { clear. induction 1 as [|c l Hc Hl IH]; intros room acc H1 H2; cbn [length] in H1; [lia|]. cbn [app getline_loop]. destruct (Z.eqb_spec c 10); [contradiction|].
    destruct (Z.leb_spec room 0); [reflexivity|]. apply IH; lia. }
  rewrite G; auto; lia.
Qed.

(** ** Command line *)
Lemma isOption_spec s : ascii_arg s -> exists b, isOption s = Ret b /\ (b = true <-> option_word s).
Proof.
  intros Ha. unfold option_word. destruct s as [|c [|d r]]; cbn [isOption].
  - exists false. split; [reflexivity|]. split; [discriminate|intros (x & y & E & _); discriminate].
  - exists false. split; [reflexivity|]. split; [discriminate|intros (x & y & E & _); discriminate].
  - destruct (Z.eqb_spec c 45) as [->|Hc].
    + unfold is_alpha. specialize (Ha d r eq_refl). destruct (Z.leb_spec 128 d); [lia|]. eexists. split; [reflexivity|].
      rewrite orb_true_iff, !andb_true_iff, !Z.leb_le. split; [intros H'; exists d, r; auto|]. intros (x & y & E & Hl). injection E as -> ->. exact Hl.
    + exists false. split; [reflexivity|]. split; [discriminate|]. intros (x & y & E & _). injection E as -> _ _. congruence.
Qed.

(** The table holds the latest binding among arguments below i. *)
Definition latest (argv : list str) (lo hi : nat) (k : str) (old new : option str) : Prop :=
  (exists i v, (lo <= i < hi)%nat /\ binds argv i k v /\ new = Some v /\ forall j v', (i < j < hi)%nat -> ~ binds argv j k v') \/
  ((forall i v, (lo <= i < hi)%nat -> ~ binds argv i k v) /\ new = old).

Lemma args_loop_spec argv f : Forall ascii_arg argv -> forall t argi, (length argv <= f + argi)%nat -> (1 <= argi)%nat -> ordered_table t ->
  exists t', args_loop f t (length argv) argv argi = Ret t' /\ ordered_table t' /\ forall k, latest argv argi (length argv) k (tfind k t) (tfind k t').
Proof.
  intros Ha. induction f as [|f IH]; intros t argi Hf H1 Ht.
  - cbn [args_loop]. destruct (Nat.ltb_spec argi (length argv)); [lia|]. exists t. split; [reflexivity|]. split; [auto|]. intros k. right. split; [intros; lia|reflexivity].
  - cbn [args_loop]. destruct (Nat.ltb_spec argi (length argv)) as [Hlt|]; [|exists t; split; [reflexivity|]; split; [auto|]; intros k; right; split; [intros; lia|reflexivity]].
    rewrite Forall_forall in Ha.
    destruct (nth_error argv argi) as [name|] eqn:En; [|apply nth_error_None in En; lia]. unfold vread at 1. rewrite En. cbn [obind].
    assert (Hnobind : forall k v, ~ binds argv argi k v -> forall t' old, latest argv (argi + 1) (length argv) k old (tfind k t') -> True) by auto. clear Hnobind.
    assert (Hskip : (forall k v, ~ binds argv argi k v) -> exists t', args_loop f t (length argv) argv (argi + 1) = Ret t' /\ ordered_table t' /\
        forall k, latest argv argi (length argv) k (tfind k t) (tfind k t')).
    { intros Hnb. destruct (IH t (argi + 1)%nat ltac:(lia) ltac:(lia) Ht) as (t' & E & Ho & HL). exists t'. split; [auto|]. split; [auto|]. intros k.
      destruct (HL k) as [(i & v & Hi & Hb & Hn & Hlast)|[Hno He]]; [left; exists i, v; split; [lia|auto]|right].
      split; [|auto]. intros i v Hi. destruct (Nat.eq_dec i argi) as [->|]; [apply Hnb|apply Hno; lia]. }
    destruct (Nat.ltb_spec (argi + 1) (length argv)) as [Hlt2|Hge2].
    + destruct (isOption_spec name (Ha name (nth_error_In _ _ En))) as (b & Eb & Hb). rewrite Eb. cbn [obind]. destruct b.
      * destruct (proj1 Hb eq_refl) as (c & r & -> & Hlet). 
        destruct (nth_error argv (argi + 1)) as [value|] eqn:Ev; [|apply nth_error_None in Ev; lia]. unfold vread. rewrite Ev. cbn [obind].
        destruct (isOption_spec value (Ha value (nth_error_In _ _ Ev))) as (bv & Ebv & Hbv). rewrite Ebv. cbn [obind tl]. destruct bv.
        -- apply Hskip. intros k v (_ & _ & _ & E2 & Hno). replace (S argi) with (argi + 1)%nat in E2 by lia. apply Hno. replace v with value by congruence. now apply Hbv.
        -- assert (HB : binds argv argi (c :: r) value).
           { split; [lia|]. split; [auto|]. split; [exists c, r; auto|]. replace (S argi) with (argi + 1)%nat by lia. split; [auto|]. rewrite <- Hbv. discriminate. }
           destruct (IH (setParamString t (c :: r) value) (argi + 1)%nat ltac:(lia) ltac:(lia) (set_ordered _ _ _ Ht)) as (t' & E & Ho & HL).
           exists t'. split; [auto|]. split; [auto|]. intros k. destruct (HL k) as [(i & v & Hi & Hb' & Hn & Hlast)|[Hno He]]; [left; exists i, v; split; [lia|auto]|].
           rewrite set_find in He by auto. unfold upd in He. destruct (list_eq_dec Z.eq_dec (c :: r) k) as [<-|Hne].
           ++ left. exists argi, value. split; [lia|]. split; [auto|]. split; [auto|]. intros j v' Hj. apply Hno. lia.
           ++ right. split; [|auto]. intros i v Hi. destruct (Nat.eq_dec i argi) as [->|]; [|apply Hno; lia].
              intros (_ & E1 & _). rewrite En in E1. injection E1 as E1. congruence.
      * cbn [obind]. apply Hskip. intros k v (_ & E1 & Ho & _). rewrite En in E1. injection E1 as ->. apply Hb in Ho. discriminate.
    + cbn [obind]. apply Hskip. intros k v (_ & _ & _ & E2 & _). assert (S argi < length argv)%nat by (apply nth_error_Some; congruence). lia.
Qed.

Lemma args_lemma argv t : Forall ascii_arg argv -> ordered_table t ->
  exists t', read_args t (length argv) argv = Ret t' /\ ordered_table t' /\ forall k,
    (exists i v, binds argv i k v /\ tfind k t' = Some v /\ forall j v', (i < j)%nat -> ~ binds argv j k v') \/
    ((forall i v, ~ binds argv i k v) /\ tfind k t' = tfind k t).
Proof.
  intros Ha Ht. destruct (args_loop_spec argv (length argv) Ha t 1%nat ltac:(lia) ltac:(lia) Ht) as (t' & E & Ho & HL). exists t'. split; [exact E|]. split; [auto|].
  assert (Hrange : forall i k v, binds argv i k v -> (1 <= i < length argv)%nat) by (intros i k v (H1 & E1 & _); split; [auto|]; apply nth_error_Some; congruence).
  intros k. destruct (HL k) as [(i & v & Hi & Hb & Hn & Hlast)|[Hno He]].
  - left. exists i, v. split; [auto|]. split; [auto|]. intros j v' Hj Hb'. apply (Hlast j v'); auto. apply Hrange in Hb'. lia.
  - right. split; [|auto]. intros i v Hb. apply (Hno i v); auto. eapply Hrange; eauto.
Qed.

Lemma args_refuted_lemma : exists argv, read_args [] (length argv) argv = UB.
Proof. exists [[97]; [45; 233]; [98]]. reflexivity. Qed.

(** ** Tilde *)
Lemma tilde_first_spec s : tilde_first s = true <-> only_tilde s.
Proof.
  unfold only_tilde. destruct s as [|c r]; cbn [tilde_first]; [split; [discriminate|intros (r & E & _); discriminate]|].
  rewrite andb_true_iff, Z.eqb_eq, negb_true_iff. split.
  - intros [-> H]. exists r. split; [reflexivity|]. intros Hin. assert (existsb (Z.eqb 126) r = true) by (apply existsb_exists; exists 126; auto). congruence.
  - intros (r' & E & H). injection E as -> ->. split; [reflexivity|]. destruct (existsb (Z.eqb 126) r') eqn:Ex; auto. apply existsb_exists in Ex as (x & Hx & Ex).
    apply Z.eqb_eq in Ex. subst. contradiction.
Qed.

Lemma tilde_loop_spec home t : forall rest,
  (rest <> [] /\ (home = None \/ exists p, In p rest /\ only_tilde (snd p)) -> tilde_loop home rest t = UB) /\
  (rest = [] \/ home <> None /\ (forall p, In p rest -> ~ only_tilde (snd p)) -> tilde_loop home rest t = Ret t).
Proof.
  induction rest as [|[k v] rest [IH1 IH2]]; [split; [intros [[] _]; auto|reflexivity]|]. cbn [tilde_loop]. split.
  - intros [_ [->|(p & Hp & Ht)]]; [reflexivity|]. destruct home as [h|]; [|reflexivity]. destruct (tilde_first v) eqn:E; [reflexivity|].
    destruct Hp as [<-|Hp]; [cbn [snd] in Ht; apply tilde_first_spec in Ht; congruence|]. apply IH1. split; [intros ->; destruct Hp|]. right. eauto.
  - intros [H|[Hh Hn]]; [discriminate|]. destruct home as [h|]; [|congruence]. destruct (tilde_first v) eqn:E; [apply tilde_first_spec in E; exfalso; apply (Hn (k, v)); [now left|auto]|].
    apply IH2. right. split; [auto|]. intros p Hp. apply Hn. now right.
Qed.

Lemma tilde_lemma home t :
  (adaptTildeInPaths home t = UB <-> t <> [] /\ (home = None \/ exists p, In p t /\ only_tilde (snd p))) /\
  (adaptTildeInPaths home t <> UB -> adaptTildeInPaths home t = Ret t).
Proof.
  unfold adaptTildeInPaths. destruct (tilde_loop_spec home t t) as [H1 H2].
  assert (D : (t <> [] /\ (home = None \/ exists p, In p t /\ only_tilde (snd p))) \/ (t = [] \/ home <> None /\ (forall p, In p t -> ~ only_tilde (snd p)))).
  { destruct t as [|p0 t0]; [auto|]. destruct home as [h|]; [|left; split; [discriminate|auto]].
    destruct (existsb (fun p => tilde_first (snd p)) (p0 :: t0)) eqn:E.
    - left. split; [discriminate|]. right. apply existsb_exists in E as (p & Hp & E). exists p. split; auto. now apply tilde_first_spec.
    - right. right. split; [discriminate|]. intros p Hp Ht. apply tilde_first_spec in Ht. assert (existsb (fun p => tilde_first (snd p)) (p0 :: t0) = true); [|congruence].
      apply existsb_exists. exists p. auto. }
  split; [split|].
  - intros E. destruct D as [D|D]; [exact D|]. rewrite (H2 D) in E. discriminate.
  - exact H1.
  - intros Hne. destruct D as [D|D]; [rewrite (H1 D) in Hne; congruence|auto].
Qed.

(** ** Tokens *)
Lemma is_in_spec delim c : is_in delim c = true <-> In c delim.
Proof.
  unfold is_in. rewrite existsb_exists. split; [intros (x & Hx & E); apply Z.eqb_eq in E; now subst|]. intros H. exists c. split; [auto|apply Z.eqb_refl].
Qed.

Lemma tok_loop_sound delim s : forall cur, (forall c, In c cur -> ~ In c delim) ->
  (cur = [] -> tokenised delim s (tok_loop delim s cur)) /\ (cur <> [] -> tokenised delim (rev cur ++ s) (tok_loop delim s cur)).
Proof.
  induction s as [|c s IH]; intros cur Hcur; cbn [tok_loop].
  - split; [intros ->; constructor|]. intros Hne. destruct cur as [|x cur]; [contradiction|]. cbn [flush]. rewrite app_nil_r.
    apply tk_last; [intros E; apply (f_equal (@length Z)) in E; rewrite rev_length in E; discriminate|]. intros y Hy. apply Hcur. now apply in_rev.
  - destruct (is_in delim c) eqn:E.
    + apply is_in_spec in E. destruct (IH [] ltac:(intros ? [])) as [H1 _]. specialize (H1 eq_refl). split.
      * intros ->. cbn [flush]. now apply tk_delim.
      * intros Hne. destruct cur as [|x cur]; [contradiction|]. cbn [flush]. apply tk_token; auto; [intros E'; apply (f_equal (@length Z)) in E'; rewrite rev_length in E'; discriminate|].
        intros y Hy. apply Hcur. now apply in_rev.
    + assert (Hc : ~ In c delim) by (rewrite <- is_in_spec; congruence).
      destruct (IH (c :: cur)) as [_ H2]; [intros y [<-|Hy]; auto|]. specialize (H2 ltac:(discriminate)). cbn [rev] in H2. rewrite <- app_assoc in H2. cbn [app] in H2.
      split; [intros ->; exact H2|intros _; exact H2].
Qed.

Lemma tok_loop_run delim w s : forall cur, (forall x, In x w -> ~ In x delim) -> tok_loop delim (w ++ s) cur = tok_loop delim s (rev w ++ cur).
Proof.
  induction w as [|c w IH]; intros cur H; [reflexivity|]. cbn [app tok_loop rev]. replace (is_in delim c) with false.
  - rewrite IH by (intros; apply H; now right). now rewrite <- app_assoc.
  - symmetry. destruct (is_in delim c) eqn:E; auto. apply is_in_spec in E. exfalso. apply (H c); [now left|auto].
Qed.

Lemma tok_complete delim s l : tokenised delim s l -> tok_loop delim s [] = l.
Proof.
  induction 1 as [|c s l Hc Ht IH|w Hw Hd|w c s l Hw Hd Hc Ht IH].
  - reflexivity.
  - cbn [tok_loop]. apply is_in_spec in Hc. rewrite Hc. exact IH.
  - rewrite <- (app_nil_r w) at 1. rewrite tok_loop_run by auto. cbn [tok_loop]. rewrite app_nil_r. destruct w as [|x w]; [contradiction|].
    destruct (rev (x :: w)) eqn:E; [apply (f_equal (@length Z)) in E; rewrite rev_length in E; discriminate|]. cbn [flush]. rewrite <- E. now rewrite rev_involutive.
  - rewrite tok_loop_run by auto. cbn [tok_loop]. apply is_in_spec in Hc. rewrite Hc, IH, app_nil_r. destruct w as [|x w]; [contradiction|].
    destruct (rev (x :: w)) eqn:E; [apply (f_equal (@length Z)) in E; rewrite rev_length in E; discriminate|]. cbn [flush]. rewrite <- E. now rewrite rev_involutive.
Qed.

Lemma tokens_lemma delim s l : Forall (fun c => c <> 0) delim -> (tokens delim s = l <-> tokenised delim s l).
Proof.
  intros H. unfold tokens. rewrite c_str_id by auto. split; [|apply tok_complete]. intros <-. now apply tok_loop_sound.
Qed.

(** ** Containers *)
Section C.
Context {V : Type} (cast : str -> option V).

(** Position of the first token that cannot be converted. *)
Lemma fill_loop_spec dest : forall toks dflt, Forall (eq dflt) dest ->
  length (fill_loop cast toks dest dflt) = length dest /\
  forall i, (i < length dest)%nat -> nth_error (fill_loop cast toks dest dflt) i =
    Some (if forallb (fun s => match cast s with Some _ => true | None => false end) (firstn (S i) toks)
          then match nth_error toks i with Some s => match cast s with Some v => v | None => dflt end | None => dflt end else dflt).
Proof.
  induction dest as [|x dest IH]; intros toks dflt Hd; [split; [reflexivity|simpl; intros; lia]|].
  inversion Hd as [|? ? Hx Hd']; subst x. cbn [fill_loop]. destruct toks as [|s toks].
  - destruct (IH [] dflt Hd') as [L HN]. split; [simpl; lia|]. intros [|i] Hi; [reflexivity|]. cbn [nth_error length] in *. rewrite HN by lia. rewrite !firstn_nil. destruct i; reflexivity.
  - destruct (cast s) as [v|] eqn:E.
    + destruct (IH toks dflt Hd') as [L HN]. split; [simpl; lia|]. intros [|i] Hi; [cbn; now rewrite E|]. cbn [nth_error length] in *. rewrite HN by lia.
      cbn [firstn forallb]. rewrite E. cbn [andb]. reflexivity.
    + split; [reflexivity|]. intros i Hi. cbn [firstn forallb]. rewrite E. cbn [andb].
      assert (Hall : Forall (eq dflt) (dflt :: dest)) by auto. destruct (nth_error (dflt :: dest) i) as [y|] eqn:Ey; [|apply nth_error_None in Ey; lia].
      rewrite Forall_forall in Hall. now rewrite <- (Hall y (nth_error_In _ _ Ey)).
Qed.

Lemma map_const_forall (dest : list V) (dflt : V) : Forall (eq dflt) (map (fun _ => dflt) dest) /\ length (map (fun _ : V => dflt) dest) = length dest.
Proof. split; [|apply map_length]. apply Forall_forall. intros x Hx. apply in_map_iff in Hx as (y & <- & _). reflexivity. Qed.
End C.

Lemma container_lemma {V} (cast : str -> option V) t k dest dfltString dflt delim toks :
  ordered_table t -> Forall (fun c => c <> 0) delim -> tokenised delim (match tfind k t with Some s => s | None => dfltString end) toks ->
  exists t' dest' b, getParamContainer cast t k dest dfltString dflt delim = (t', dest', b) /\
    (b = true <-> exists s, tfind k t = Some s) /\ ordered_table t' /\
    (forall k', tfind k' t' = match tfind k t with Some _ => tfind k' t | None => upd (fun x => tfind x t) k dfltString k' end) /\
    length dest' = length dest /\
    forall i, (i < length dest)%nat -> nth_error dest' i =
      Some (if forallb (fun s => match cast s with Some _ => true | None => false end) (firstn (S i) toks)
            then match nth_error toks i with Some s => match cast s with Some v => v | None => dflt end | None => dflt end else dflt).
Proof.
  intros Ht Hd Htok. apply tokens_lemma in Htok; auto. destruct (map_const_forall dest dflt) as [HF HL].
  destruct (fill_loop_spec cast (map (fun _ => dflt) dest) toks dflt HF) as [L1 L2]. rewrite HL in *.
  unfold getParamContainer, fillWithTokens. destruct (tfind k t) as [s|] eqn:E; rewrite Htok.
  - eexists _, _, _. split; [reflexivity|]. split; [split; eauto|]. split; [auto|]. split; [auto|]. split; [exact L1|exact L2].
  - eexists _, _, _. split; [reflexivity|]. split; [split; [discriminate|intros (s & Hs); discriminate]|]. split; [now apply set_ordered|].
    split; [intros; now apply set_find|]. split; [exact L1|exact L2].
Qed.

Lemma ins_loop_spec {V} (cast : str -> option V) toks : forall vs, ins_loop cast toks = vs <->
  exists n, vs = vs /\ length vs = n /\ (n <= length toks)%nat /\ map Some vs = map cast (firstn n toks) /\ (forall s, nth_error toks n = Some s -> cast s = None).
Proof.
  induction toks as [|s toks IH]; intros vs; cbn [ins_loop].
  - split; [intros <-; exists O; repeat split; auto; intros s; discriminate|]. intros (n & _ & L & Hn & _). simpl in Hn. destruct vs; [reflexivity|simpl in L; lia].
  - destruct (cast s) as [v|] eqn:E.
    + split.
      * intros <-. destruct (proj1 (IH _) eq_refl) as (n & _ & L & Hn & M & Hf). exists (S n). repeat split; [simpl; lia|simpl; lia|cbn; now rewrite E, M|exact Hf].
      * intros (n & _ & L & Hn & M & Hf). destruct n as [|n]; [exfalso; specialize (Hf s eq_refl); congruence|]. destruct vs as [|w vs]; [simpl in L; lia|].
        cbn [firstn map] in M. rewrite E in M. injection M as -> M. f_equal. apply IH. exists n. repeat split; auto; simpl in *; lia.
    + split.
      * intros <-. exists O. repeat split; [simpl; lia|]. intros s' H. injection H as <-. auto.
      * intros (n & _ & L & Hn & M & Hf). destruct n as [|n]; [destruct vs; [reflexivity|discriminate]|]. destruct vs as [|w vs]; [simpl in L; lia|]. cbn in M. rewrite E in M. discriminate.
Qed.

Lemma inserter_lemma {V} (cast : str -> option V) t k delim : ordered_table t -> Forall (fun c => c <> 0) delim ->
  (forall s toks, tfind k t = Some s -> tokenised delim s toks ->
     exists vs, getParamContainerInserter cast t k delim = (t, vs, true) /\ (length vs <= length toks)%nat /\
       map Some vs = map cast (firstn (length vs) toks) /\ (forall s', nth_error toks (length vs) = Some s' -> cast s' = None)) /\
  (tfind k t = None -> exists t', getParamContainerInserter cast t k delim = (t', [], false) /\ ordered_table t' /\ forall k', tfind k' t' = upd (fun x => tfind x t) k [] k').
Proof.
  intros Ht Hd. unfold getParamContainerInserter. split.
  - intros s toks E Htok. rewrite E. apply tokens_lemma in Htok; auto. rewrite Htok. exists (ins_loop cast toks). split; [reflexivity|].
    destruct (proj1 (ins_loop_spec cast toks _) eq_refl) as (n & _ & L & Hn & M & Hf). rewrite L. auto.
  - intros E. rewrite E. eexists. split; [reflexivity|]. split; [now apply set_ordered|]. intros. now apply set_find.
Qed.

(** ** Histories *)
Definition aget (m : amap) (k d : str) : amap := match m k with Some _ => m | None => upd m k d end.

Lemma prun_ordered l : forall t t', ordered_table t -> prun t l = Ret t' -> ordered_table t'.
Proof.
  induction l as [|o l IH]; intros t t' Ht E; cbn [prun] in E; [congruence|].
  destruct (pstep t o) as [t1| | |] eqn:E1; cbn [obind] in E; try discriminate. apply (IH t1); auto. clear IH E.
  destruct o as [k v|k d| |s|argv]; cbn [pstep] in E1.
  - injection E1 as <-. now apply set_ordered.
  - injection E1 as <-. destruct (tfind k t); [auto|now apply set_ordered].
  - injection E1 as <-. constructor.
  - destruct (read_total t s Ht) as (t2 & E2 & H2). congruence.
  - unfold read_args in E1. revert E1. generalize (length argv) at 1 2. intros n. generalize 1%nat. revert t Ht. generalize n at 1. intros f. induction f as [|f IHf]; intros t Ht i E1.
    + cbn [args_loop] in E1. destruct (i <? n)%nat; congruence.
    + cbn [args_loop] in E1. destruct (i <? n)%nat; [|congruence]. destruct (vread argv i) as [name| | |]; cbn [obind] in E1; try discriminate.
      destruct (if (i + 1 <? n)%nat then isOption name else Ret false) as [o| | |]; cbn [obind] in E1; try discriminate. destruct o; [|eapply IHf; eauto].
      destruct (vread argv (i + 1)) as [value| | |]; cbn [obind] in E1; try discriminate. destruct (isOption value) as [ov| | |]; cbn [obind] in E1; try discriminate.
      eapply IHf; [|exact E1]. destruct ov; [auto|now apply set_ordered].
Qed.

Lemma prun_last l t t' k v : ordered_table t -> prun t (l ++ [PSet k v]) = Ret t' ->
  tfind k t' = Some v /\ exists t1, prun t l = Ret t1 /\ forall k', k' <> k -> tfind k' t' = tfind k' t1.
Proof.
  intros Ht. revert t Ht. induction l as [|o l IH]; intros t Ht E.
  - cbn [app prun pstep obind] in E. injection E as <-. split; [rewrite set_find by auto; unfold upd; now destruct (list_eq_dec _ k k)|].
    exists t. split; [reflexivity|]. intros k' Hk. rewrite set_find by auto. unfold upd. destruct (list_eq_dec _ k k'); congruence.
  - cbn [app prun] in *. destruct (pstep t o) as [t1| | |] eqn:E1; cbn [obind] in *; try discriminate. apply IH; auto.
    apply (prun_ordered [o] t); auto. cbn [prun]. now rewrite E1.
Qed.

(** ** Everything read from a stream is writable, so the side conditions of the round trip are exact. *)
Lemma tinsert_writable k v t : writable (k, v) -> Forall writable t -> Forall writable (tinsert k v t).
Proof.
  intros Hp Ht. apply Forall_forall. intros p Hin. apply tinsert_in in Hin as [->|Hin]; [auto|]. rewrite Forall_forall in Ht. auto.
Qed.
Lemma terase_writable k t : Forall writable t -> Forall writable (terase k t).
Proof. intros Ht. apply Forall_forall. intros p Hin. apply terase_in in Hin. rewrite Forall_forall in Ht. auto. Qed.

Lemma take_word_spec s : let '(w, q) := take_word s in s = w ++ q /\ Forall (fun c => ~ space c) w /\ (q = [] \/ exists c r, q = c :: r /\ space c).
Proof.
  induction s as [|c s IH]; cbn [take_word]; [repeat split; auto|]. destruct (is_ws c) eqn:E.
  - apply is_ws_spec in E. split; [reflexivity|]. split; [constructor|]. right. eauto.
  - destruct (take_word s) as [w q]. destruct IH as (-> & Hw & Hq). split; [reflexivity|]. split; [|auto]. constructor; auto. rewrite <- is_ws_spec. congruence.
Qed.
Lemma skip_ws_spec s : exists p, s = p ++ skip_ws s /\ (skip_ws s = [] \/ exists c r, skip_ws s = c :: r /\ ~ space c).
Proof.
  induction s as [|c s (p & E & H)]; cbn [skip_ws]; [exists []; auto|]. destruct (is_ws c) eqn:Ec.
  - exists (c :: p). split; [cbn; now rewrite <- E|auto].
  - exists []. split; [reflexivity|]. right. exists c, s. split; [auto|]. rewrite <- is_ws_spec. congruence.
Qed.
Lemma word_spec s w r : word s = Some (w, r) -> exists p, s = p ++ w ++ r /\ w <> [] /\ Forall (fun c => ~ space c) w /\ (r = [] \/ exists c q, r = c :: q /\ space c).
Proof.
  unfold word. destruct (skip_ws_spec s) as (p & E & H). destruct (skip_ws s) as [|c s'] eqn:Es; [discriminate|]. intros HH0. assert (HH : take_word (c :: s') = (w, r)) by congruence. clear HH0.
  pose proof (take_word_spec (c :: s')) as Ht. rewrite HH in Ht. destruct Ht as (E2 & Hw & Hr). exists p. rewrite E, E2. split; [reflexivity|]. split; [|auto].
  intros ->. destruct H as [H|(c' & r' & H & Hc)]; [discriminate|]. injection H as <- <-. cbn [app] in E2. destruct Hr as [->|(c2 & q2 & -> & Hs)]; [discriminate|]. congruence.
Qed.
Lemma c_str_spec s : Forall (fun c => c <> 0) (c_str s) /\ (length (c_str s) <= length s)%nat.
Proof.
  induction s as [|c s [IH1 IH2]]; cbn [c_str]; [split; [constructor|auto]|]. destruct (Z.eqb_spec c 0); cbn [length]; split; auto; lia.
Qed.
Lemma read_line_writable t l : Z.of_nat (length l) <= 1999 -> Forall writable t -> Forall writable (read_line t l).
Proof.
  intros Hl Ht. unfold read_line. destruct (c_str_spec l) as [Hz Hc]. destruct (word (c_str l)) as [[name r]|] eqn:E1; [|auto].
  destruct (word r) as [[value r2]|] eqn:E2; [|auto]. destruct name as [|c name]; [auto|]. unfold COMMENT. destruct (Z.eqb_spec c 35); [auto|].
  apply word_spec in E1 as (p1 & E1 & N1 & F1 & R1). apply word_spec in E2 as (p2 & E2 & N2 & F2 & R2).
  apply tinsert_writable; [|now apply terase_writable].
  rewrite E1 in Hz, Hc. rewrite E2 in Hz, Hc. rewrite !Forall_app in Hz. destruct Hz as (_ & Z1 & _ & Z2 & _).
  unfold writable, plain_word. cbn [fst snd]. split; [split; [auto|]|split; [split; [auto|]|split]].
  - apply Forall_forall. intros x Hx. rewrite Forall_forall in F1, Z1. auto.
  - apply Forall_forall. intros x Hx. rewrite Forall_forall in F2, Z2. auto.
  - intros r' E'. injection E' as -> _. congruence.
  - rewrite !app_length in Hc. assert (length p2 <> 0)%nat; [|lia]. intros Hp2. apply length_zero_iff_nil in Hp2. subst p2.
    destruct R1 as [->|(c' & q' & -> & Hs)]; [destruct value; [contradiction|discriminate]|]. destruct value as [|x value]; [contradiction|]. cbn in E2. injection E2 as -> _. inversion F2; subst. contradiction.
Qed.
Lemma getline_length s : forall room acc l r e, 0 <= room -> getline_loop s room acc = LLine l r e -> Z.of_nat (length l) <= room + Z.of_nat (length acc).
Proof.
  induction s as [|c s IH]; intros room acc l r e Hr; cbn [getline_loop].
  - destruct acc; [discriminate|]. intros E. injection E as <- _ _. cbn [rev]. rewrite app_length, rev_length. cbn [length]. lia.
  - destruct (c =? 10); [intros E; injection E as <- _ _; rewrite rev_length; lia|]. destruct (Z.leb_spec room 0); [discriminate|]. intros E. apply IH in E; [|lia]. cbn [length] in E. lia.
Qed.
Lemma read_loop_writable f : forall t s t', Forall writable t -> read_loop f t s = Ret t' -> Forall writable t'.
Proof.
  induction f as [|f IH]; intros t s t' Ht; cbn [read_loop]; [discriminate|]. destruct (getline s MAX_LEN) as [|l r eof] eqn:E; [congruence|].
  apply getline_length in E; [|unfold MAX_LEN; lia]. unfold MAX_LEN in E. cbn [length] in E. assert (Z.of_nat (length l) <= 1999) by lia.
  destruct eof; intros E'; [injection E' as <-; now apply read_line_writable|]. eapply IH; [|exact E']. now apply read_line_writable.
Qed.

Lemma round_trip_iff_lemma u : ordered_table u -> (read [] (write u) = Ret u <-> Forall writable u).
Proof.
  intros Hu. split; [apply read_loop_writable; constructor|]. intros Hw. destruct (read_write_lemma u [] Hu ltac:(constructor) Hw) as (t' & E & _ & _ & H). now rewrite E, H.
Qed.
Lemma read_words_lemma t s t' : Forall writable t -> read t s = Ret t' -> Forall writable t'.
Proof. apply read_loop_writable. Qed.

(** Reading the empty history. *)
Lemma args_loop_bad argv f : forall t argi, (exists i s, (argi <= i)%nat /\ (S i < length argv)%nat /\ nth_error argv i = Some s /\ ~ ascii_arg s) ->
  (length argv <= f + argi)%nat -> args_loop f t (length argv) argv argi = UB.
Proof.
  induction f as [|f IH]; intros t argi (i & s & Hi & Hl & Es & Hs) Hf; [lia|]. cbn [args_loop]. destruct (Nat.ltb_spec argi (length argv)); [|lia].
  assert (Hbad : forall q, ~ ascii_arg q -> isOption q = UB).
  { intros q Hq. destruct q as [|c [|d r]]; [exfalso; apply Hq; intros ? ? ?; discriminate|exfalso; apply Hq; intros ? ? ?; discriminate|]. cbn [isOption].
    destruct (Z.eqb_spec c 45); [|exfalso; apply Hq; intros c' r' E'; injection E' as E' _ _; congruence]. subst c. unfold is_alpha. destruct (Z.leb_spec 128 d); [reflexivity|].
    exfalso. apply Hq. intros c' r' E'. injection E' as -> _. lia. }
  assert (Hdec : forall q, (exists b, isOption q = Ret b) \/ isOption q = UB).
  { intros q. destruct q as [|c [|d r]]; cbn [isOption]; eauto. destruct (c =? 45); eauto. unfold is_alpha. destruct (128 <=? d); eauto. }
  destruct (nth_error argv argi) as [name|] eqn:En; [|apply nth_error_None in En; lia]. unfold vread at 1. rewrite En. cbn [obind].
  destruct (Nat.ltb_spec (argi + 1) (length argv)); [|lia]. destruct (Nat.eq_dec i argi) as [->|Hne].
  - rewrite En in Es. injection Es as ->. now rewrite (Hbad s).
  - destruct (Hdec name) as [[b Eb]|Eb]; rewrite Eb; [|reflexivity]. cbn [obind]. assert (Hrec : exists i s, (argi + 1 <= i)%nat /\ (S i < length argv)%nat /\ nth_error argv i = Some s /\ ~ ascii_arg s) by (exists i, s; repeat split; auto; lia).
    destruct b; [|apply IH; [auto|lia]]. destruct (nth_error argv (argi + 1)) as [value|] eqn:Ev; [|apply nth_error_None in Ev; lia]. unfold vread. rewrite Ev. cbn [obind].
    destruct (Hdec value) as [[bv Ebv]|Ebv]; rewrite Ebv; [|reflexivity]. cbn [obind]. apply IH; [auto|lia].
Qed.

Lemma expected_lemma h : Forall simple_op h -> exists t, prun [] h = Ret t /\ ordered_table t /\ forall k, tfind k t = expected (rev h) k.
Proof.
  induction h as [|o h IH] using rev_ind; intros Hs; [exists []; split; [reflexivity|]; split; [constructor|reflexivity]|].
  apply Forall_app in Hs as [Hh Ho]. inversion Ho as [|? ? Ho1 _]; subst. destruct (IH Hh) as (t & E & Ht & Hf).
  assert (Happ : forall l t0, prun t0 (l ++ [o]) = obind (prun t0 l) (fun t1 => pstep t1 o)).
  { induction l as [|a l IHl]; intros t0; cbn [app prun]; [cbn [obind]; destruct (pstep t0 o); reflexivity|]. destruct (pstep t0 a); cbn [obind]; auto. }
  rewrite Happ, E. cbn [obind]. rewrite rev_app_distr. cbn [rev app]. destruct o as [k v|k d| |s|a]; cbn [pstep simple_op expected] in *; try contradiction.
  - eexists. split; [reflexivity|]. split; [now apply set_ordered|]. intros k'. rewrite set_find by auto. unfold upd. destruct (list_eq_dec _ k k'); auto.
  - eexists. split; [reflexivity|]. destruct (tfind k t) as [s|] eqn:Ek.
    + split; [auto|]. intros k'. rewrite <- Hf. destruct (list_eq_dec Z.eq_dec k k') as [<-|]; [now rewrite Ek|reflexivity].
    + split; [now apply set_ordered|]. intros k'. rewrite set_find by auto. unfold upd. rewrite <- Hf. destruct (list_eq_dec Z.eq_dec k k') as [<-|]; [now rewrite Ek|reflexivity].
  - exists []. split; [reflexivity|]. split; [constructor|reflexivity].
Qed.

Lemma args_bad_lemma argv t : (exists i s, (1 <= i)%nat /\ (S i < length argv)%nat /\ nth_error argv i = Some s /\ ~ ascii_arg s) -> read_args t (length argv) argv = UB.
Proof. intros H. apply args_loop_bad; [exact H|lia]. Qed.

(** ** Reading arbitrary text *)
Lemma skip_ws_app a s : Forall space a -> skip_ws (a ++ s) = skip_ws s.
Proof. induction 1 as [|c a H Ha IH]; [reflexivity|]. cbn [app skip_ws]. apply is_ws_spec in H. now rewrite H. Qed.
Lemma skip_ws_ex s : exists p, Forall space p /\ s = p ++ skip_ws s /\ (skip_ws s = [] \/ exists c r, skip_ws s = c :: r /\ ~ space c).
Proof.
  induction s as [|c s (p & Hp & E & H)]; [exists []; repeat split; auto|]. cbn [skip_ws]. destruct (is_ws c) eqn:Ec.
  - apply is_ws_spec in Ec. exists (c :: p). split; [constructor; auto|]. split; [cbn; now rewrite <- E|exact H].
  - exists []. split; [constructor|]. split; [reflexivity|]. right. exists c, s. split; [reflexivity|]. intros Hs. apply is_ws_spec in Hs. congruence.
Qed.
Lemma word_app a s : Forall space a -> word (a ++ s) = word s.
Proof. intros H. unfold word. now rewrite skip_ws_app. Qed.
Lemma word_ex s w r : word s = Some (w, r) -> exists p, Forall space p /\ s = p ++ w ++ r /\ w <> [] /\ Forall (fun c => ~ space c) w /\ (r = [] \/ exists c q, r = c :: q /\ space c).
Proof.
  intros E. destruct (skip_ws_ex s) as (p & Hp & Es & H). unfold word in E. destruct (skip_ws s) as [|c q] eqn:Ek; [discriminate|].
  destruct H as [H|(c' & r' & Ec & Hns)]; [discriminate|]. injection Ec as <- <-.
  pose proof (take_word_spec (c :: q)) as T. assert (E2 : take_word (c :: q) = (w, r)) by congruence. rewrite E2 in T. destruct T as (T1 & T2 & T3).
  exists p. split; [exact Hp|]. split; [rewrite Es, T1; reflexivity|]. split; [|auto].
  intros ->. cbn [app] in T1. rewrite <- T1 in T3. destruct T3 as [T3|(c' & q' & E' & Hs)]; [discriminate|]. injection E' as <- <-. contradiction.
Qed.

Lemma line_binds_words l k v : line_binds l k v <-> exists r c, word l = Some (k, r) /\ word r = Some (v, c) /\ forall q, k <> 35 :: q.
Proof.
  split.
  - intros (a & b & c & -> & Ha & Hb & Hb0 & Hc & Hk0 & Hk & Hv0 & Hv & Hq). exists (b ++ v ++ c), c. split; [|split; [|exact Hq]].
    + rewrite word_app by auto. apply word_plain; auto. right. destruct b as [|x b]; [congruence|]. exists x, (b ++ v ++ c). split; [reflexivity|]. now inversion Hb.
    + rewrite word_app by auto. now apply word_plain.
  - intros (r & c & E1 & E2 & Hq). apply word_ex in E1 as (a & Ha & -> & Hk0 & Hk & Hr). apply word_ex in E2 as (b & Hb & -> & Hv0 & Hv & Hc).
    exists a, b, c. repeat (split; [solve [auto]|]). split; [|tauto]. intros ->. cbn [app] in Hr.
    destruct Hr as [Hr|(x & q & Hr & Hs)].
    + destruct v; [congruence|discriminate].
    + destruct v as [|y v]; [congruence|]. injection Hr as Hr _. subst y. inversion Hv. contradiction.
Qed.

Lemma read_line_binds t l : Forall (fun c => c <> 10 /\ c <> 0) l ->
  (exists k v, line_binds l k v /\ read_line t l = setParamString t k v) \/ ((forall k v, ~ line_binds l k v) /\ read_line t l = t).
Proof.
  intros Hl. unfold read_line. rewrite c_str_id by (eapply Forall_impl; [|exact Hl]; intros ? [? ?]; auto).
  destruct (word l) as [[k r]|] eqn:E1.
  2: { right. split; [|reflexivity]. intros k v H. apply line_binds_words in H as (r & c & H & _). congruence. }
  destruct (word r) as [[v c]|] eqn:E2.
  2: { right. split; [|reflexivity]. intros k' v H. apply line_binds_words in H as (r' & c & H1 & H2 & _). congruence. }
  destruct k as [|x k]; [apply word_ex in E1 as (? & _ & _ & H & _); congruence|].
  destruct (Z.eqb_spec x COMMENT) as [->|Hx].
  - right. split; [|reflexivity]. intros k' v' H. apply line_binds_words in H as (r' & c' & H1 & H2 & H3). rewrite E1 in H1. injection H1 as <- <-. exact (H3 k eq_refl).
  - left. exists (x :: k), v. split; [|reflexivity]. apply line_binds_words. exists r, c. split; [exact E1|]. split; [exact E2|]. intros q Eq. injection Eq as -> _. exact (Hx eq_refl).
Qed.

Lemma line_binds_unique l k v k' v' : line_binds l k v -> line_binds l k' v' -> k = k' /\ v = v'.
Proof.
  intros H1 H2. apply line_binds_words in H1 as (r1 & c1 & A1 & B1 & _). apply line_binds_words in H2 as (r2 & c2 & A2 & B2 & _).
  rewrite A1 in A2. injection A2 as <- <-. rewrite B1 in B2. now injection B2 as <- <-.
Qed.

Lemma getline_last l : Forall (fun c => c <> 10) l -> forall room acc, l <> [] \/ acc <> [] -> Z.of_nat (length l) <= room -> getline_loop l room acc = LLine (rev acc ++ l) [] true.
Proof.
  induction 1 as [|c l H Hl IH]; intros room acc H0 Hr.
  - cbn. destruct acc; [destruct H0; congruence|]. now rewrite app_nil_r.
  - cbn [getline_loop length] in *. rewrite (proj2 (Z.eqb_neq c 10)) by auto. destruct (Z.leb_spec room 0); [lia|].
    rewrite IH by (try lia; right; discriminate). cbn [rev]. now rewrite <- app_assoc.
Qed.

(** Table after reading the given lines. *)
Lemma read_text_fold ls last : Forall good_line (ls ++ [last]) -> forall f t, (length (text_of ls last) < f)%nat ->
  read_loop f t (text_of ls last) = Ret (fold_left read_line (ls ++ [last]) t).
Proof.
  assert (Hg : forall l, good_line l -> Forall (fun c => c <> 10) l /\ Z.of_nat (length l) <= 1999) by (intros l [H1 H2]; split; [eapply Forall_impl; [|exact H1]; intros ? [? ?]; auto|auto]).
  induction ls as [|l ls IH]; intros HF f t Hf; (destruct f as [|f]; [lia|]).
  - cbn [app] in HF. inversion HF as [|? ? H _]; subst. destruct (Hg _ H) as [H1 H2]. unfold text_of. cbn [map concat app fold_left]. cbn [read_loop].
    destruct last as [|c q]; [reflexivity|]. unfold getline, MAX_LEN. rewrite getline_last by (auto; try lia; left; discriminate). reflexivity.
  - cbn [app] in HF. inversion HF as [|? ? H HF']; subst. destruct (Hg _ H) as [H1 H2].
    assert (E : text_of (l :: ls) last = l ++ 10 :: text_of ls last) by (unfold text_of; cbn [map concat]; rewrite <- !app_assoc; reflexivity).
    rewrite E in *. cbn [read_loop]. unfold getline, MAX_LEN. rewrite getline_line by (auto; lia). cbn [rev app fold_left].
    apply IH; [exact HF'|]. rewrite app_length in Hf. cbn [length] in Hf. lia.
Qed.

Lemma fold_lines_find L : Forall good_line L -> forall t, ordered_table t -> ordered_table (fold_left read_line L t) /\ forall k,
  (exists i l v, nth_error L i = Some l /\ line_binds l k v /\ tfind k (fold_left read_line L t) = Some v /\
     forall j l' v', (i < j)%nat -> nth_error L j = Some l' -> ~ line_binds l' k v') \/
  ((forall i l v, nth_error L i = Some l -> ~ line_binds l k v) /\ tfind k (fold_left read_line L t) = tfind k t).
Proof.
  induction 1 as [|l L [Hl _] HL IH]; intros t Ht; cbn [fold_left].
  - split; [auto|]. intros k. right. split; [|reflexivity]. intros [|i] l v E; discriminate.
  - destruct (IH (read_line t l) (read_line_ordered t l Ht)) as [Ho Hf]. split; [exact Ho|]. intros k.
    destruct (Hf k) as [(i & l1 & v & E1 & E2 & E3 & E4)|[H1 H2]].
    + left. exists (S i), l1, v. split; [exact E1|]. split; [auto|]. split; [auto|]. intros [|j] l' v' Hj E; [lia|]. apply (E4 j); auto with arith.
    + assert (Hlate : forall j l' v', (0 < j)%nat -> nth_error (l :: L) j = Some l' -> ~ line_binds l' k v') by (intros [|j] l' v' Hj E; [lia|]; eapply H1; exact E).
      destruct (read_line_binds t l Hl) as [(k1 & v1 & B & E)|[B E]].
      * rewrite E in H2. rewrite set_find in H2 by auto. unfold upd in H2. destruct (list_eq_dec Z.eq_dec k1 k) as [->|Hne].
        -- left. exists 0%nat, l, v1. rewrite E. split; [reflexivity|]. split; [auto|]. split; [exact H2|exact Hlate].
        -- right. rewrite E. split; [|exact H2]. intros [|i] l' v' Ei HB; [|exact (H1 i l' v' Ei HB)]. injection Ei as <-. destruct (line_binds_unique _ _ _ _ _ B HB). congruence.
      * right. rewrite E in *. split; [|exact H2]. intros [|i] l' v' Ei HB; [|exact (H1 i l' v' Ei HB)]. injection Ei as <-. exact (B _ _ HB).
Qed.

Lemma read_text_lemma ls last t : Forall good_line (ls ++ [last]) -> ordered_table t ->
  exists t', read t (text_of ls last) = Ret t' /\ ordered_table t' /\ forall k,
    (exists i l v, nth_error (ls ++ [last]) i = Some l /\ line_binds l k v /\ tfind k t' = Some v /\
       forall j l' v', (i < j)%nat -> nth_error (ls ++ [last]) j = Some l' -> ~ line_binds l' k v') \/
    ((forall i l v, nth_error (ls ++ [last]) i = Some l -> ~ line_binds l k v) /\ tfind k t' = tfind k t).
Proof.
  intros HF Ht. eexists. split; [apply read_text_fold; [exact HF|lia]|]. now apply fold_lines_find.
Qed.
