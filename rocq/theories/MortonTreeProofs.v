(** * Proofs about the Morton tree. *)
From Coq Require Import List ZArith Bool Lia Permutation.
From Verif Require Import Base BaseLemmas BitsModel BitsSpec MortonModel MortonSpec MortonProofs MortonFloatModel MortonFloatSpec MortonFloatProofs
  MortonTreeModel MortonTreeSpec.
Import ListNotations.
Open Scope Z_scope.

(** ** The comparison on a domain *)
Lemma dom_cmp d a b : dom_ok d -> in_dom d (values a) -> in_dom d (values b) ->
  exists r, compareItems (dom_traits d) a b = Ret r /\ (r = true <-> dom_lt d (values a) (values b)) /\
    (r = false <-> values a = values b \/ dom_lt d (values b) (values a)).
Proof.
  unfold compareItems. destruct d as [t n|n]; cbn [dom_ok dom_traits in_dom dom_lt int_traits float_traits compare].
  - intros [Hn Hb] Ha Hb'. apply zorder_lemma with (n := n); auto.
  - intros Hn Ha Hb'. apply fzorder_lemma with (n := n); auto.
Qed.

Lemma dom_irrefl d a : ~ dom_lt d a a.
Proof. destruct d; apply lex_irrefl. Qed.
Lemma dom_trans d a b c : dom_lt d a b -> dom_lt d b c -> dom_lt d a c.
Proof. destruct d; apply lex_trans. Qed.
Lemma dom_asym d a b : dom_lt d a b -> ~ dom_lt d b a.
Proof. intros H1 H2. apply (dom_irrefl d a). eapply dom_trans; eauto. Qed.

Lemma cmp_true d a b : dom_ok d -> in_dom d (values a) -> in_dom d (values b) ->
  (compareItems (dom_traits d) a b = Ret true <-> dom_lt d (values a) (values b)).
Proof.
  intros H1 H2 H3. destruct (dom_cmp d a b H1 H2 H3) as (r & E & T & F). rewrite E. rewrite <- T. split; congruence.
Qed.
Lemma cmp_false d a b : dom_ok d -> in_dom d (values a) -> in_dom d (values b) ->
  (compareItems (dom_traits d) a b = Ret false <-> ~ dom_lt d (values a) (values b)).
Proof.
  intros H1 H2 H3. destruct (dom_cmp d a b H1 H2 H3) as (r & E & T & F). rewrite E. rewrite <- T. destruct r; split; intros H; try congruence.
Qed.
Lemma dom_total d a b : dom_ok d -> in_dom d a -> in_dom d b -> ~ dom_lt d a b -> a = b \/ dom_lt d b a.
Proof.
  intros H1 H2 H3 H. destruct (dom_cmp d (mkItem a 0) (mkItem b 0) H1 H2 H3) as (r & E & T & F). cbn [values] in *. apply F. destruct r; auto. exfalso. apply H, T. auto.
Qed.


Lemma dom_weak d l : dom_ok d -> vals d l -> weak_order (compareItems (dom_traits d)) (fun x => In x l).
Proof.
  intros Hd Hl. unfold vals in Hl. rewrite Forall_forall in Hl. split; [|split; [|split]].
  - intros a b Ha Hb. destruct (dom_cmp d a b Hd (Hl a Ha) (Hl b Hb)) as (r & E & _). eauto.
  - intros a Ha. apply cmp_false; auto. apply dom_irrefl.
  - intros a b c Ha Hb Hc. rewrite !cmp_true by auto. apply dom_trans.
  - intros a b c Ha Hb Hc. rewrite !cmp_false by auto. intros H1 H2 H3.
    destruct (dom_total d _ _ Hd (Hl a Ha) (Hl b Hb) H1) as [E|E]; [rewrite E in H3; auto|].
    apply H2. eapply dom_trans; eauto.
Qed.

(** ** Halving search *)
Lemma bisect_spec right l p : (forall i x, nth_error l i = Some x -> right x = Ret (p i)) ->
  (forall i j, (i <= j < length l)%nat -> p j = true -> p i = true) ->
  forall fuel first len, (len <= fuel)%nat -> (first + len <= length l)%nat ->
    (forall i, (i < first)%nat -> p i = true) -> (forall i, (first + len <= i < length l)%nat -> p i = false) ->
    exists k, bisect fuel right l first len = Ret k /\ (first <= k <= first + len)%nat /\
      (forall i, (i < k)%nat -> p i = true) /\ (forall i, (k <= i < length l)%nat -> p i = false).
Proof.
  intros Hr Hm. induction fuel as [|f IH]; intros first len Hf Hl H1 H2.
  - destruct len; [|lia]. exists first. simpl. rewrite Nat.add_0_r in *. split; [reflexivity|]. split; [lia|auto].
  - destruct len as [|len]; [exists first; simpl; rewrite Nat.add_0_r in *; split; [reflexivity|]; split; [lia|auto]|].
    assert (Hh : (Nat.div2 (S len) <= len)%nat) by (apply Nat.lt_succ_r, Nat.lt_div2; lia).
    set (half := Nat.div2 (S len)) in *. cbn [bisect]. fold half.
    destruct (nth_error l (first + half)) as [m|] eqn:Em; [|apply nth_error_None in Em; lia].
    unfold vread. rewrite Em. cbn [obind]. rewrite (Hr _ _ Em). cbn [obind]. destruct (p (first + half)%nat) eqn:Ep.
    + destruct (IH (first + half + 1)%nat (S len - half - 1)%nat) as (k & E & B & K1 & K2); try lia.
      * intros i Hi. apply (Hm i (first + half)%nat); auto; lia.
      * intros i Hi. apply H2. lia.
      * exists k. split; [exact E|]. split; [lia|auto].
    + destruct (IH first half) as (k & E & B & K1 & K2); try lia; auto.
      * intros i Hi. destruct (p i) eqn:Epi; auto. rewrite (Hm (first + half)%nat i) in Ep; auto; lia.
      * exists k. split; [exact E|]. split; [lia|auto].
Qed.

Lemma in_order_nth d l : dom_ok d -> vals d l -> in_order (compareItems (dom_traits d)) l ->
  forall i j a b, (i <= j)%nat -> nth_error l i = Some a -> nth_error l j = Some b -> ~ dom_lt d (values b) (values a).
Proof.
  intros Hd Hv Ho i j a b Hij Ha Hb. unfold vals in Hv. rewrite Forall_forall in Hv.
  destruct (Nat.eq_dec i j) as [->|].
  - replace b with a by congruence. apply dom_irrefl.
  - apply (cmp_false d b a); auto; [apply Hv; eapply nth_error_In; eauto|apply Hv; eapply nth_error_In; eauto|]. apply (Ho i j a b); auto; lia.
Qed.

(** Partition point of a list. *)
Definition cut_at (l : list item) (P : item -> Prop) (k : nat) : Prop :=
  (k <= length l)%nat /\ (forall i x, nth_error l i = Some x -> ((i < k)%nat <-> P x)).

Lemma lower_spec d l q : dom_ok d -> vals d l -> in_dom d (values q) -> in_order (compareItems (dom_traits d)) l ->
  exists k, lower_bound (dom_traits d) l q = Ret k /\ cut_at l (fun x => dom_lt d (values x) (values q)) k.
Proof.
  intros Hd Hv Hq Ho. pose proof (in_order_nth d l Hd Hv Ho) as HO. unfold vals in Hv. pose proof Hv as Hv'. rewrite Forall_forall in Hv'.
  set (p := fun i => match nth_error l i with Some x => match compareItems (dom_traits d) x q with Ret b => b | _ => false end | None => false end).
  assert (Hp : forall i x, nth_error l i = Some x -> compareItems (dom_traits d) x q = Ret (p i) /\ (p i = true <-> dom_lt d (values x) (values q))).
  { intros i x Ex. unfold p. rewrite Ex. destruct (dom_cmp d x q Hd (Hv' x (nth_error_In _ _ Ex)) Hq) as (r & E & T & F). rewrite E. auto. }
  destruct (bisect_spec (fun m => compareItems (dom_traits d) m q) l p) with (fuel := length l) (first := O) (len := length l) as (k & E & B & K1 & K2); try lia.
  - intros i x Ex. apply Hp; auto.
  - intros i j Hij Hj. destruct (nth_error l j) as [y|] eqn:Ey; [|apply nth_error_None in Ey; lia].
    destruct (nth_error l i) as [x|] eqn:Ex; [|apply nth_error_None in Ex; lia].
    apply (Hp i x Ex). apply (Hp j y Ey) in Hj.
    pose proof (HO i j x y ltac:(lia) Ex Ey) as HN.
    destruct (dom_total d _ _ Hd (Hv' y (nth_error_In _ _ Ey)) (Hv' x (nth_error_In _ _ Ex)) HN) as [<-|H]; [auto|]. eapply dom_trans; eauto.
  - exists k. split; [exact E|]. split; [lia|]. intros i x Ex. destruct (Hp i x Ex) as [_ Hpi]. rewrite <- Hpi.
    assert (i < length l)%nat by (apply nth_error_Some; congruence).
    split; intros H'; [auto|]. destruct (Nat.lt_ge_cases i k); auto. rewrite K2 in H' by lia. discriminate.
Qed.

Lemma upper_spec d l q : dom_ok d -> vals d l -> in_dom d (values q) -> in_order (compareItems (dom_traits d)) l ->
  exists k, upper_bound (dom_traits d) l q = Ret k /\ cut_at l (fun x => ~ dom_lt d (values q) (values x)) k.
Proof.
  intros Hd Hv Hq Ho. pose proof (in_order_nth d l Hd Hv Ho) as HO. unfold vals in Hv. pose proof Hv as Hv'. rewrite Forall_forall in Hv'.
  set (p := fun i => match nth_error l i with Some x => match compareItems (dom_traits d) q x with Ret b => negb b | _ => false end | None => false end).
  assert (Hp : forall i x, nth_error l i = Some x -> obind (compareItems (dom_traits d) q x) (fun b => Ret (negb b)) = Ret (p i) /\ (p i = true <-> ~ dom_lt d (values q) (values x))).
  { intros i x Ex. unfold p. rewrite Ex. destruct (dom_cmp d q x Hd Hq (Hv' x (nth_error_In _ _ Ex))) as (r & E & T & F). rewrite E. split; [reflexivity|].
    rewrite <- T. destruct r; cbn; split; intros H; congruence. }
  destruct (bisect_spec (fun m => obind (compareItems (dom_traits d) q m) (fun b => Ret (negb b))) l p) with (fuel := length l) (first := O) (len := length l) as (k & E & B & K1 & K2); try lia.
  - intros i x Ex. apply Hp; auto.
  - intros i j Hij Hj. destruct (nth_error l j) as [y|] eqn:Ey; [|apply nth_error_None in Ey; lia].
    destruct (nth_error l i) as [x|] eqn:Ex; [|apply nth_error_None in Ex; lia].
    apply (Hp i x Ex). apply (Hp j y Ey) in Hj.
    pose proof (HO i j x y ltac:(lia) Ex Ey) as HN. intros HL. apply Hj.
    destruct (dom_total d _ _ Hd (Hv' y (nth_error_In _ _ Ey)) (Hv' x (nth_error_In _ _ Ex)) HN) as [->|H]; [auto|]. eapply dom_trans; eauto.
  - exists k. split; [exact E|]. split; [lia|]. intros i x Ex. destruct (Hp i x Ex) as [_ Hpi]. rewrite <- Hpi.
    assert (i < length l)%nat by (apply nth_error_Some; congruence).
    split; intros H'; [auto|]. destruct (Nat.lt_ge_cases i k); auto. rewrite K2 in H' by lia. discriminate.
Qed.

(** ** States *)
Definition good (d : domain) (t : tree) : Prop :=
  vals d (items t) /\ (ordered t = true -> in_order (compareItems (dom_traits d)) (items t)).

Lemma vals_perm d l l' : Permutation l l' -> vals d l -> vals d l'.
Proof. unfold vals. rewrite !Forall_forall. intros HP H x Hx. apply H. eapply Permutation_in; [apply Permutation_sym|]; eauto. Qed.

Lemma sort_good d sorter t : dom_ok d -> conforming sorter -> good d t ->
  exists t', sort (dom_traits d) sorter t = Ret t' /\ ordered t' = true /\ Permutation (items t) (items t') /\ good d t' /\
    in_order (compareItems (dom_traits d)) (items t').
Proof.
  intros Hd Hs [Hv _]. destruct (Hs _ _ (dom_weak d _ Hd Hv)) as (l' & E & HP & HO).
  exists (mkTree l' true). unfold sort. rewrite E. cbn [obind items ordered]. split; [reflexivity|]. split; [reflexivity|]. split; [auto|].
  split; [|auto]. split; cbn [items ordered]; auto. eapply vals_perm; eauto.
Qed.

Lemma ensure_good d sorter t : dom_ok d -> conforming sorter -> good d t ->
  exists t', ensure (dom_traits d) sorter t = Ret t' /\ ordered t' = true /\ Permutation (items t) (items t') /\ good d t' /\
    in_order (compareItems (dom_traits d)) (items t').
Proof.
  intros Hd Hs Hg. unfold ensure. destruct (ordered t) eqn:E; [|now apply sort_good].
  exists t. split; [reflexivity|]. split; [auto|]. split; [apply Permutation_refl|]. split; [auto|]. apply Hg. auto.
Qed.

Lemma find_lemma d sorter t q : dom_ok d -> conforming sorter -> good d t -> in_dom d (values q) ->
  exists t' k, findItem (dom_traits d) sorter t q = Ret (t', k) /\ Permutation (items t) (items t') /\ good d t' /\ ordered t' = true /\
    in_order (compareItems (dom_traits d)) (items t') /\ cut_at (items t') (fun x => dom_lt d (values x) (values q)) k.
Proof.
  intros Hd Hs Hg Hq. destruct (ensure_good d sorter t Hd Hs Hg) as (t' & E & O & HP & Hg' & HO). destruct Hg' as [Hv' Ho'].
  destruct (lower_spec d (items t') q Hd Hv' Hq HO) as (k & Ek & HC). exists t', k. unfold findItem. rewrite E. cbn [obind]. rewrite Ek. cbn [obind].
  split; [reflexivity|]. split; [auto|]. split; [split; auto|]. auto.
Qed.

(** ** Insertions *)
Lemma to_int_small n : 0 <= n < 2 ^ 31 -> to_int n = n.
Proof.
  intros H. unfold to_int. change (2 ^ 32) with (2 * 2 ^ 31). rewrite Z.mod_small by lia. cbv zeta. destruct (Z.leb_spec (2 ^ 31) n); lia.
Qed.

Lemma insert_items t x b : Z.of_nat (length (items t)) < 2 ^ 31 ->
  items (insert t x b) = items t ++ [mkItem (values x) (if b then Z.of_nat (length (items t)) else -1)].
Proof. intros H. unfold insert. cbn [items]. rewrite to_int_small by lia. reflexivity. Qed.

Definition range_items (k : nat) (l : list item) (b : bool) : list item :=
  map (fun p => mkItem (values (snd p)) (if b then Z.of_nat (fst p) else -1)) (combine (seq k (length l)) l).
Definition source_items (k : nat) (l : list item) (b : bool) : list item :=
  if b then map (fun p => mkItem (values (snd p)) (Z.of_nat (fst p))) (combine (seq k (length l)) l) else l.

Lemma insert_loop_spec b l : forall t, Z.of_nat (length (items t) + length l) < 2 ^ 31 ->
  exists t', insert_loop t l (Z.of_nat (length (items t))) b = Ret (t', source_items (length (items t)) l b) /\
    items t' = items t ++ range_items (length (items t)) l b.
Proof.
  induction l as [|x l IH]; intros t H.
  - exists t. simpl. unfold range_items, source_items. simpl. rewrite app_nil_r. destruct b; auto.
  - cbn [insert_loop length] in *. unfold sadd. destruct (_ && _) eqn:E; [|apply andb_false_iff in E as [E|E]; [apply Z.leb_gt in E|apply Z.ltb_ge in E]; change (2 ^ (32 - 1)) with (2 ^ 31) in *; lia].
    cbn [obind]. clear E.
    set (x' := if b then mkItem (values x) (Z.of_nat (length (items t))) else x).
    pose proof (insert_items t x' b ltac:(lia)) as Ei.
    assert (Hlen : length (items (insert t x' b)) = S (length (items t))) by (rewrite Ei, app_length; simpl; lia).
    destruct (IH (insert t x' b)) as (t' & E & Et); [lia|].
    rewrite Hlen in *. replace (Z.of_nat (length (items t)) + 1) with (Z.of_nat (S (length (items t)))) by lia. rewrite E. cbn [obind fst snd].
    exists t'. split.
    + f_equal. f_equal. unfold source_items, x'. destruct b; reflexivity.
    + rewrite Et, Ei, <- app_assoc. f_equal. unfold range_items, x'. cbn [length seq combine map app fst snd]. destruct b; reflexivity.
Qed.

Lemma insert_range_spec t l b : Z.of_nat (length (items t) + length l) < 2 ^ 31 ->
  exists t', insert_range t l b = Ret (t', source_items (length (items t)) l b) /\
    items t' = items t ++ range_items (length (items t)) l b /\ ordered t' = false.
Proof.
  intros H. destruct (insert_loop_spec b l t H) as (t' & E & Ei). unfold insert_range. rewrite to_int_small by lia. rewrite E. cbn [obind fst snd].
  eexists. split; [reflexivity|]. cbn [items ordered]. auto.
Qed.

Definition conv_items (k : nat) (l : list item) (b : bool) : list item :=
  map (fun p => mkItem (values (snd p)) (if b then Z.of_nat (fst p) else id (snd p))) (combine (seq k (length l)) l).

Lemma conv_loop_spec b l : forall its, Z.of_nat (length its + length l) < 2 ^ 31 -> conv_loop its l b = its ++ conv_items (length its) l b.
Proof.
  induction l as [|x l IH]; intros its H.
  - simpl. unfold conv_items. simpl. now rewrite app_nil_r.
  - cbn [conv_loop length] in *. rewrite IH by (rewrite app_length; simpl; lia). rewrite app_length, <- app_assoc. cbn [length]. f_equal.
    unfold conv_items. cbn [length seq combine map app fst snd]. rewrite to_int_small by lia. f_equal; [destruct b, x; reflexivity|].
    replace (length its + 1)%nat with (S (length its)) by lia. reflexivity.
Qed.

Lemma op_len k o : length (op_items k o) = match o with OInsert _ _ => 1%nat | ORange l _ | OConv l _ => length l | _ => O end.
Proof. destruct o; cbn [op_items]; try reflexivity; rewrite map_length, combine_length, seq_length; lia. Qed.

Lemma combine_vals d k l (f : nat * item -> item) : (forall p, values (f p) = values (snd p)) -> vals d l -> vals d (map f (combine (seq k (length l)) l)).
Proof.
  unfold vals. rewrite !Forall_forall. intros Hf H x Hx. apply in_map_iff in Hx as ((i & y) & <- & Hy). rewrite Hf. cbn [snd]. apply H. eapply in_combine_r; eauto.
Qed.

Lemma op_vals d k o : vals d (op_args o) -> vals d (op_items k o).
Proof.
  destruct o; cbn [op_args op_items]; intros H; try (constructor; fail).
  - unfold vals in *. inversion H; subst. repeat constructor; auto.
  - apply combine_vals; auto.
  - apply combine_vals; auto.
Qed.

(** Items added by one operation; queries keep them up to order. *)
Lemma step_items d sorter t o t' : dom_ok d -> conforming sorter -> good d t -> vals d (op_args o) ->
  Z.of_nat (length (items t) + length (op_items (length (items t)) o)) < 2 ^ 31 ->
  step (dom_traits d) sorter t o = Ret t' -> good d t' /\ Permutation (items t ++ op_items (length (items t)) o) (items t').
Proof.
  intros Hd Hs Hg Ha Hl E. rewrite op_len in Hl. pose proof (op_vals d (length (items t)) o Ha) as Hov.
  assert (Happ : forall l b, items t' = items t ++ l -> vals d l -> ordered t' = b -> b = false -> good d t' /\ Permutation (items t ++ l) (items t')).
  { intros l b Ei Hv Eo Eb. split; [|rewrite Ei; apply Permutation_refl]. split; [|congruence]. rewrite Ei. apply Forall_app. split; [apply Hg|exact Hv]. }
  assert (Hens : forall t1, ensure (dom_traits d) sorter t = Ret t1 -> t' = t1 -> good d t' /\ Permutation (items t ++ []) (items t')).
  { intros t1 E1 ->. destruct (ensure_good d sorter t Hd Hs Hg) as (t2 & E2 & _ & HP & Hg' & _). rewrite app_nil_r. replace t1 with t2 by congruence. auto. }
  destruct o as [x b|l b|l b| |q|i j|a b]; cbn [step op_items] in *.
  - injection E as <-. apply (Happ _ false); auto. apply insert_items. lia.
  - destruct (insert_range_spec t l b Hl) as (t1 & E1 & Ei & Eo). rewrite E1 in E. cbn [obind fst] in E. injection E as <-. apply (Happ _ false); auto.
  - injection E as <-. apply (Happ _ false); auto. cbn [insert_conv items]. apply conv_loop_spec. lia.
  - destruct (sort_good d sorter t Hd Hs Hg) as (t2 & E2 & _ & HP & Hg' & _). rewrite app_nil_r. replace t' with t2 by congruence. auto.
  - unfold findItem in E. destruct (ensure (dom_traits d) sorter t) as [t1| | |] eqn:E1; cbn [obind] in E; try discriminate.
    apply (Hens t1); auto. destruct (lower_bound _ _ _); cbn [obind fst] in E; congruence.
  - unfold computeLevel in E. destruct (ensure (dom_traits d) sorter t) as [t1| | |] eqn:E1; cbn [obind] in E; try discriminate.
    apply (Hens t1); auto. destruct (vread (items t1) i); cbn [obind] in E; try discriminate. cbv zeta in E.
    destruct (vread (items t1) (if (j =? i)%nat then j else Nat.pred j)); cbn [obind] in E; try discriminate. destruct (distance _ _ _); cbn [obind fst] in E; congruence.
  - unfold searchInBox in E. destruct (ensure (dom_traits d) sorter t) as [t1| | |] eqn:E1; cbn [obind] in E; try discriminate.
    apply (Hens t1); auto. cbv zeta in E. repeat match type of E with context [obind (obind ?e _) _] => destruct e; cbn [obind fst] in E; try discriminate end. congruence.
Qed.

Lemma run_items d sorter ops : dom_ok d -> conforming sorter -> Forall (fun o => vals d (op_args o)) ops ->
  forall t, good d t -> Z.of_nat (length (items t) + length (inserted (length (items t)) ops)) < 2 ^ 31 ->
  forall t', run (dom_traits d) sorter t ops = Ret t' -> good d t' /\ Permutation (items t ++ inserted (length (items t)) ops) (items t').
Proof.
  intros Hd Hs. induction 1 as [|o ops Ho Hops IH]; intros t Hg Hl t' E.
  - cbn [run inserted] in *. injection E as <-. rewrite app_nil_r. auto.
  - cbn [run inserted] in *. destruct (step _ _ t o) as [t1| | |] eqn:E1; cbn [obind] in E; try discriminate.
    rewrite app_length in Hl. destruct (step_items d sorter t o t1 Hd Hs Hg Ho ltac:(lia) E1) as [Hg1 HP1].
    pose proof (Permutation_length HP1) as HL. rewrite app_length in HL.
    destruct (IH t1 Hg1) with (t' := t') as [Hg2 HP2]; auto; rewrite <- HL in *; [lia|].
    split; auto. rewrite app_assoc. eapply Permutation_trans; [|exact HP2]. apply Permutation_app_tail. auto.
Qed.

Lemma run_total d sorter ops : dom_ok d -> conforming sorter -> Forall (fun o => vals d (op_args o) /\ op_query o = false) ops ->
  forall t, good d t -> Z.of_nat (length (items t) + length (inserted (length (items t)) ops)) < 2 ^ 31 ->
  exists t', run (dom_traits d) sorter t ops = Ret t'.
Proof.
  intros Hd Hs. induction 1 as [|o ops [Ho Hq] Hops IH]; intros t Hg Hl; [exists t; reflexivity|].
  cbn [run inserted] in *. rewrite app_length in Hl.
  assert (exists t1, step (dom_traits d) sorter t o = Ret t1) as [t1 E1].
  { rewrite op_len in Hl. destruct o as [x b|l b|l b| |q|i j|a b]; cbn [step op_query op_args] in *; try discriminate; eauto.
    - destruct (insert_range_spec t l b) as (t1 & E1 & Ei & Eo); [lia|]. rewrite E1. cbn [obind]. eauto.
    - destruct (sort_good d sorter t Hd Hs Hg) as (t2 & E2 & _). eauto.
    - inversion Ho; subst. destruct (find_lemma d sorter t q Hd Hs Hg) as (t2 & k & E2 & _); auto. rewrite E2. cbn [obind]. eauto. }
  rewrite E1. cbn [obind]. destruct (step_items d sorter t o t1 Hd Hs Hg Ho ltac:(lia) E1) as [Hg1 HP1].
  pose proof (Permutation_length HP1) as HL. rewrite app_length in HL. apply IH; auto. rewrite <- HL. lia.
Qed.

Lemma empty_good d : good d empty_tree.
Proof. split; [constructor|]. intros _ i j a b _ Ha. destruct i; discriminate. Qed.

Lemma tree_lemma d sorter ops t q : dom_ok d -> conforming sorter -> Forall (fun o => vals d (op_args o)) ops ->
  Z.of_nat (length (inserted 0 ops)) < 2 ^ 31 -> run (dom_traits d) sorter empty_tree ops = Ret t -> in_dom d (values q) ->
  exists t' k, findItem (dom_traits d) sorter t q = Ret (t', k) /\ Permutation (inserted 0 ops) (items t') /\
    (forall i j a b, (i < j)%nat -> nth_error (items t') i = Some a -> nth_error (items t') j = Some b -> ~ dom_lt d (values b) (values a)) /\
    (k <= length (items t'))%nat /\ (forall i x, nth_error (items t') i = Some x -> ((i < k)%nat <-> dom_lt d (values x) (values q))).
Proof.
  intros Hd Hs Ho Hl E Hq. destruct (run_items d sorter ops Hd Hs Ho empty_tree (empty_good d) Hl t E) as [Hg HP].
  destruct (find_lemma d sorter t q Hd Hs Hg Hq) as (t' & k & E' & HP' & [Hv' Ho'] & HT & HO & HC1 & HC2). exists t', k.
  split; [auto|]. split; [eapply Permutation_trans; eauto|]. split; [|auto].
  intros i j a b Hij. apply (in_order_nth d (items t')); auto. lia.
Qed.

Lemma sort_lemma d sorter ops t : dom_ok d -> conforming sorter -> Forall (fun o => vals d (op_args o)) ops ->
  Z.of_nat (length (inserted 0 ops)) < 2 ^ 31 -> run (dom_traits d) sorter empty_tree ops = Ret t ->
  Permutation (inserted 0 ops) (items t) /\
  exists t', sort (dom_traits d) sorter t = Ret t' /\ Permutation (inserted 0 ops) (items t') /\
    (forall i j a b, (i < j)%nat -> nth_error (items t') i = Some a -> nth_error (items t') j = Some b -> ~ dom_lt d (values b) (values a)).
Proof.
  intros Hd Hs Ho Hl E. destruct (run_items d sorter ops Hd Hs Ho empty_tree (empty_good d) Hl t E) as [Hg HP].
  split; [exact HP|]. destruct (sort_good d sorter t Hd Hs Hg) as (t' & E' & _ & HP' & [Hv' Ho'] & HO). exists t'.
  split; [auto|]. split; [eapply Permutation_trans; eauto|].
  intros i j a b Hij. apply (in_order_nth d (items t')); auto. lia.
Qed.

(** ** Box search on integers *)
Lemma interval_upp t x y lev lo mi up : in_type t x -> in_type t y -> intervalPow2Int t x y = Ret (lev, lo, mi, up) ->
  in_type t up /\ x <= up /\ y <= up.
Proof.
  intros Hx Hy E. assert (Hne : intervalPow2Int t x y <> UB) by congruence. rewrite (interval_ub t x y Hx Hy) in Hne.
  pose proof (plevel_le t (x, y) (conj Hx Hy)) as HK. assert (Hxy : x <> y) by tauto. pose proof (plevel_nz t (x, y) (conj Hx Hy) Hxy) as HK1.
  destruct (Z.eq_dec (plevel t (x, y)) (bit_num t)) as [Ek|Nk].
  - unfold intervalPow2Int in E. rewrite (level_bl t _ _ Hx Hy) in E. change (bl (Z.lxor (u t x) (u t y))) with (plevel t (x, y)) in E. rewrite Ek in E.
    rewrite Z.ltb_irrefl in E. cbv zeta in E. injection E as _ _ _ <-. clear - Hx Hy. unfold in_type, lim_max in *. destruct t; cbn [is_signed bit_num tmin tmax] in *; lia.
  - assert (Hs : splittable t (x, y)) by (unfold splittable; left; lia).
    pose proof (interval_ok t (x, y) (conj Hx Hy) Hs) as EE. cbn [fst snd] in EE. rewrite EE in E. clear EE. injection E as _ _ _ <-.
    split; [apply bup_in; [split; auto|lia]|]. destruct (block_lemma t (x, y) (conj Hx Hy) Hxy) as (k & Hk & H1 & H2 & [B1 B2] & [B3 B4] & -> & _). cbn [fst snd] in *. lia.
Qed.

Definition upp_ok (t : ity) (L : list (Z * Z)) (upp : list Z) : Prop :=
  length upp = length L /\ forall i, (i < length L)%nat -> in_type t (nth i upp 0) /\ fst (nth i L (0, 0)) <= nth i upp 0 /\ snd (nth i L (0, 0)) <= nth i upp 0.

Lemma upp_snoc t L upp x y lev lo mi up : in_type t x -> in_type t y -> upp_ok t L upp -> intervalPow2Int t x y = Ret (lev, lo, mi, up) ->
  upp_ok t (L ++ [(x, y)]) (upp ++ [up]).
Proof.
  intros Hx Hy [Hl H] E. pose proof (interval_upp t x y lev lo mi up Hx Hy E) as HU. split; [rewrite !app_length; simpl; lia|].
  intros i Hi. rewrite app_length in Hi. simpl in Hi. destruct (Nat.lt_ge_cases i (length L)).
  - rewrite !app_nth1 by lia. auto.
  - assert (i = length L) by lia. subst i. rewrite !app_nth2 by lia. rewrite Hl, Nat.sub_diag. cbn [nth fst snd]. tauto.
Qed.

Lemma split_loop_upp t r : forall L ds lev low mid upp a b c, Forall (pair_ok t) r -> upp_ok t L upp ->
  split_loop t r ds lev low mid upp = Ret (a, b, c) -> upp_ok t (L ++ r) c.
Proof.
  induction r as [|[x y] r IH]; intros L ds lev low mid upp a b c Hr HU E.
  - cbn [split_loop] in E. injection E as _ _ <-. now rewrite app_nil_r.
  - inversion Hr as [|? ? [Hx Hy] Hr']; subst. cbn [fst snd] in *. cbn [split_loop] in E.
    destruct (intervalPow2Int t x y) as [[[[lv lo] mi] up]| | |] eqn:EI; cbn [obind] in E; try discriminate.
    pose proof (upp_snoc t L upp x y lv lo mi up Hx Hy HU EI) as HU'. replace (L ++ (x, y) :: r) with ((L ++ [(x, y)]) ++ r) by (rewrite <- app_assoc; reflexivity).
    destruct (lev <? lv).
    + destruct (vread low ds); cbn [obind] in E; try discriminate. eapply IH; eauto.
    + eapply IH; eauto.
Qed.

Lemma split_upp t n v1 v2 lo mi up : point t n v1 -> point t n v2 -> mortonSplitInt t v1 v2 = Ret (lo, mi, up) ->
  point t n up /\ forall i, (i < n)%nat -> nth i v1 0 <= nth i up 0 /\ nth i v2 0 <= nth i up 0.
Proof.
  intros H1 H2 E. destruct (combine_ok t n v1 v2 H1 H2) as [Hc Hl].
  assert (HU : upp_ok t (combine v1 v2) up).
  { unfold mortonSplitInt in E. destruct (combine v1 v2) as [|[x y] r]; [discriminate|]. inversion Hc as [|? ? [Hx Hy] Hc']; subst. cbn [fst snd] in *.
    destruct (intervalPow2Int t x y) as [[[[lv l0] m0] u0]| | |] eqn:EI; cbn [obind] in E; try discriminate.
    change ((x, y) :: r) with ([(x, y)] ++ r). eapply split_loop_upp; [exact Hc'| |exact E].
    apply (upp_snoc t [] [] x y lv l0 m0 u0); auto. split; [reflexivity|]. intros i Hi. inversion Hi. }
  destruct HU as [HL HU]. destruct H1 as [L1 F1], H2 as [L2 F2].
  assert (Hcn : forall i, nth i (combine v1 v2) (0, 0) = (nth i v1 0, nth i v2 0)) by (intros; apply combine_nth; lia).
  split.
  - split; [lia|]. apply Forall_forall. intros x Hx. destruct (In_nth up x 0 Hx) as (i & Hi & <-). apply HU. lia.
  - intros i Hi. specialize (HU i). rewrite Hcn in HU. cbn [fst snd] in HU. apply HU. lia.
Qed.

Lemma bucket_upp t n l c1 c2 low mid upp : (0 < n)%nat -> Z.of_nat n <= 2 ^ bit_num t -> vals (DInt t n) l -> in_order (compareItems (int_traits t)) l ->
  findTreeBucket (int_traits t) l c1 c2 = Ret (low, mid, upp) -> (c2 < upp)%nat.
Proof.
  intros Hn Hb Hv Ho E. unfold findTreeBucket in E.
  destruct (vread l c1) as [a| | |] eqn:Ea; cbn [obind] in E; try discriminate.
  destruct (vread l c2) as [b| | |] eqn:Eb; cbn [obind] in E; try discriminate.
  destruct (split (int_traits t) (values a) (values b)) as [[[bl0 bm] bu]| | |] eqn:Es; cbn [obind] in E; try discriminate.
  destruct (lower_bound (int_traits t) l (mkItem bl0 (-1))) as [k1| | |]; cbn [obind] in E; try discriminate.
  destruct (lower_bound (int_traits t) l (mkItem bm (-1))) as [k2| | |]; cbn [obind] in E; try discriminate.
  destruct (upper_bound (int_traits t) l (mkItem bu (-1))) as [k3| | |] eqn:Ek; cbn [obind] in E; try discriminate.
  destruct (vread l k1); cbn [obind] in E; try discriminate. destruct (vread l k2); cbn [obind] in E; try discriminate. destruct (vread l k3); cbn [obind] in E; try discriminate.
  injection E as _ _ <-. apply vread_Ret in Ea, Eb. pose proof Hv as Hv'. unfold vals in Hv'. rewrite Forall_forall in Hv'.
  pose proof (Hv' a (nth_error_In _ _ Ea)) as Pa. pose proof (Hv' b (nth_error_In _ _ Eb)) as Pb. cbn [in_dom] in Pa, Pb.
  destruct (split_upp t n _ _ _ _ _ Pa Pb Es) as [Pu HU].
  destruct (upper_spec (DInt t n) l (mkItem bu (-1))) as (k & E' & _ & HC); auto; [split; auto|].
  cbn [dom_traits] in E'. rewrite Ek in E'. injection E' as <-. apply (HC c2 b Eb). cbn [values dom_lt]. apply (zmono t n); auto. intros i Hi. apply HU. auto.
Qed.

Lemma search_nothing t n l : (0 < n)%nat -> Z.of_nat n <= 2 ^ bit_num t -> vals (DInt t n) l -> in_order (compareItems (int_traits t)) l ->
  forall fuel queue out r, search_loop (int_traits t) fuel l queue out = Ret r -> r = out.
Proof.
  intros Hn Hb Hv Ho. induction fuel as [|f IH]; intros queue out r E; [cbn [search_loop] in E; destruct queue; congruence|].
  destruct queue as [|[c1 c2] q]; [cbn [search_loop] in E; congruence|]. cbn [search_loop] in E.
  destruct (findTreeBucket (int_traits t) l c1 c2) as [[[low mid] upp]| | |] eqn:EB; cbn [obind] in E; try discriminate.
  pose proof (bucket_upp t n l c1 c2 low mid upp Hn Hb Hv Ho EB) as HU.
  replace (c2 =? upp)%nat with false in E by (symmetry; apply Nat.eqb_neq; lia). rewrite andb_false_r in E. eapply IH; eauto.
Qed.

Lemma search_lemma t n sorter ops tr bmin bmax out t' r : (0 < n)%nat -> Z.of_nat n <= 2 ^ bit_num t -> conforming sorter ->
  Forall (fun o => vals (DInt t n) (op_args o)) ops -> Z.of_nat (length (inserted 0 ops)) < 2 ^ 31 ->
  run (int_traits t) sorter empty_tree ops = Ret tr -> searchInBox (int_traits t) sorter tr bmin bmax out = Ret (t', r) -> r = out.
Proof.
  intros Hn Hb Hs Ho Hl E ES. assert (Hd : dom_ok (DInt t n)) by (split; auto).
  destruct (run_items (DInt t n) sorter ops Hd Hs Ho empty_tree (empty_good _) Hl tr E) as [Hg _].
  destruct (ensure_good (DInt t n) sorter tr Hd Hs Hg) as (t1 & E1 & _ & _ & [Hv1 _] & HO). cbn [dom_traits] in *.
  unfold searchInBox in ES. rewrite E1 in ES. cbn [obind] in ES. cbv zeta in ES.
  destruct (print_loop _ _ _ _); cbn [obind] in ES; try discriminate.
  destruct (upper_bound _ _ bmin) as [c1| | |]; cbn [obind] in ES; try discriminate. destruct (lower_bound _ _ bmax) as [c2| | |]; cbn [obind] in ES; try discriminate.
  destruct (vread _ c1); cbn [obind] in ES; try discriminate. destruct (vread _ c2); cbn [obind] in ES; try discriminate.
  destruct (search_loop _ _ _ _ _) as [r'| | |] eqn:EL; cbn [obind] in ES; try discriminate. injection ES as _ <-. eapply search_nothing; eauto.
Qed.

Lemma print_total d l bmin bmax : dom_ok d -> vals d l -> in_dom d (values bmin) -> in_dom d (values bmax) -> print_loop (dom_traits d) l bmin bmax = Ret tt.
Proof.
  intros Hd Hv H1 H2. induction Hv as [|x l Hx Hv IH]; [reflexivity|]. cbn [print_loop].
  destruct (dom_cmp d x bmin Hd Hx H1) as (r1 & -> & _). destruct (dom_cmp d x bmax Hd Hx H2) as (r2 & -> & _). cbn [obind]. exact IH.
Qed.

(** The initial message dereferences end() when every item precedes the upper corner. *)
Lemma search_end_lemma d sorter ops tr bmin bmax out : dom_ok d -> conforming sorter -> Forall (fun o => vals d (op_args o)) ops ->
  Z.of_nat (length (inserted 0 ops)) < 2 ^ 31 -> run (dom_traits d) sorter empty_tree ops = Ret tr -> in_dom d (values bmin) -> in_dom d (values bmax) ->
  Forall (fun x => dom_lt d (values x) (values bmax)) (inserted 0 ops) -> searchInBox (dom_traits d) sorter tr bmin bmax out = UB.
Proof.
  intros Hd Hs Ho Hl E Hmin Hmax Hlt.
  destruct (run_items d sorter ops Hd Hs Ho empty_tree (empty_good _) Hl tr E) as [Hg HP].
  destruct (ensure_good d sorter tr Hd Hs Hg) as (t1 & E1 & _ & HP1 & [Hv1 _] & HO).
  unfold searchInBox. rewrite E1. cbn [obind]. cbv zeta. rewrite print_total by auto. cbn [obind].
  destruct (upper_spec d (items t1) bmin Hd Hv1 Hmin HO) as (c1 & -> & _). cbn [obind].
  destruct (lower_spec d (items t1) bmax Hd Hv1 Hmax HO) as (c2 & -> & HC1 & HC2). cbn [obind].
  assert (Hend : nth_error (items t1) c2 = None).
  { destruct (nth_error (items t1) c2) as [x|] eqn:Ex; [|reflexivity]. exfalso. assert (Hx : (c2 < c2)%nat); [|lia]. apply (HC2 c2 x Ex).
    rewrite Forall_forall in Hlt. apply Hlt. eapply Permutation_in; [apply Permutation_sym; exact HP|]. eapply Permutation_in; [apply Permutation_sym; exact HP1|].
    eapply nth_error_In; eauto. }
  destruct (vread (items t1) c1) eqn:Ev; cbn [obind]; unfold vread in *; try reflexivity; try (destruct (nth_error (items t1) c1); discriminate).
  rewrite Hend. reflexivity.
Qed.


(** ** Aligned cubes are convex in Z-order *)
Lemma plv_le t n a b i k : point t n a -> point t n b -> (i < n)%nat -> 0 <= k ->
  (plv t a b i <= k <-> u t (nth i a 0) / 2 ^ k = u t (nth i b 0) / 2 ^ k).
Proof.
  intros Ha Hb Hi Hk. unfold plv. apply bl_xor_le; auto; apply u_range; eapply nth_in_type; eauto.
Qed.

Lemma cube_convex t n a m b k : (0 < n)%nat -> point t n a -> point t n m -> point t n b -> 0 <= k ->
  ~ lex_lt (zkey t m) (zkey t a) -> ~ lex_lt (zkey t b) (zkey t m) -> mortonDistanceInt t a b <= k -> mortonDistanceInt t a m <= k.
Proof.
  intros Hn Ha Hm Hb Hk H1 H2 Hab. rewrite (distance_le t n) in Hab by auto. apply (distance_le t n); auto.
  destruct (first_max_ex (plv t a m) n Hn) as (D & HD & HD1 & HD2).
  destruct (Z.le_gt_cases (plv t a m D) k) as [Hle|Hgt].
  { intros i Hi. apply (plv_le t n a m i k); auto. specialize (HD2 i Hi). lia. }
  exfalso. assert (Hj : forall i j, (i < n)%nat -> k <= j -> (plv t b m i <= j <-> plv t a m i <= j)).
  { intros i j Hi Hj. rewrite !(plv_le t n) by (auto; lia). rewrite (div_mono_exp (u t (nth i a 0)) (u t (nth i b 0)) k j) by (auto; lia). reflexivity. }
  assert (HbD : plv t b m D = plv t a m D).
  { pose proof (proj2 (Hj D (plv t a m D) HD ltac:(lia)) ltac:(lia)). pose proof (proj1 (Hj D (plv t a m D - 1) HD ltac:(lia))). lia. }
  assert (HFb : first_max (plv t b m) n D).
  { split; [auto|]. rewrite HbD. split; intros i Hi.
    - specialize (HD1 i Hi). pose proof (proj2 (Hj i (plv t a m D - 1) ltac:(lia) ltac:(lia)) ltac:(lia)). lia.
    - specialize (HD2 i Hi). apply (Hj i (plv t a m D)); auto; lia. }
  assert (HFa : first_max (plv t a m) n D) by (split; auto).
  destruct (Z.eq_dec (nth D a 0) (nth D m 0)) as [E|Hne].
  { pose proof (proj2 (plv_le t n a m D 0 Ha Hm HD ltac:(lia))) as H. rewrite E in H. specialize (H eq_refl). lia. }
  assert (Ham : nth D a 0 < nth D m 0).
  { destruct (Z.lt_ge_cases (nth D a 0) (nth D m 0)); auto. exfalso. apply H1. apply (cmp_true_lex t n m a D); auto; [|lia].
    assert (Hs : forall i, plv t m a i = plv t a m i) by (intros; unfold plv; now rewrite Z.lxor_comm). destruct HFa as (F1 & F2 & F3).
    split; [auto|]. split; intros i Hi; rewrite !Hs; auto. }
  apply H2. apply (cmp_true_lex t n b m D); auto.
  destruct (Z.lt_ge_cases (nth D b 0) (nth D m 0)) as [|Hge]; auto. exfalso.
  assert (E : u t (nth D a 0) / 2 ^ k = u t (nth D m 0) / 2 ^ k).
  { apply Z.le_antisymm; [apply Z.div_le_mono; unfold u; lia|]. rewrite (Hab D HD). apply Z.div_le_mono; unfold u; lia. }
  apply (plv_le t n a m D k) in E; auto. lia.
Qed.

(** ** computeLevel *)
Lemma level_lemma t n sorter ops tr i j : (0 < n)%nat -> Z.of_nat n <= 2 ^ bit_num t -> conforming sorter ->
  Forall (fun o => vals (DInt t n) (op_args o)) ops -> Z.of_nat (length (inserted 0 ops)) < 2 ^ 31 ->
  run (int_traits t) sorter empty_tree ops = Ret tr -> (i < j <= length (inserted 0 ops))%nat ->
  exists t' lev, computeLevel (int_traits t) sorter tr i j = Ret (t', lev) /\ Permutation (inserted 0 ops) (items t') /\
    forall k, 0 <= k -> (lev <= k <-> forall p q x y c, (i <= p < j)%nat -> (i <= q < j)%nat -> nth_error (items t') p = Some x -> nth_error (items t') q = Some y ->
      (c < n)%nat -> (nth c (values x) 0 - tmin t) / 2 ^ k = (nth c (values y) 0 - tmin t) / 2 ^ k).
Proof.
  intros Hn Hb Hs Ho Hl E Hij. assert (Hd : dom_ok (DInt t n)) by (split; auto).
  destruct (run_items (DInt t n) sorter ops Hd Hs Ho empty_tree (empty_good _) Hl tr E) as [Hg HP].
  destruct (ensure_good (DInt t n) sorter tr Hd Hs Hg) as (t1 & E1 & _ & HP1 & [Hv1 _] & HO). cbn [dom_traits] in *.
  assert (HPP : Permutation (inserted 0 ops) (items t1)) by (eapply Permutation_trans; eauto).
  pose proof (Permutation_length HPP) as HL. pose proof (in_order_nth (DInt t n) (items t1) Hd Hv1 HO) as HN. cbn [dom_lt] in HN.
  assert (Hpt : forall p x, nth_error (items t1) p = Some x -> point t n (values x)).
  { intros p x Ex. unfold vals in Hv1. rewrite Forall_forall in Hv1. apply (Hv1 x). eapply nth_error_In; eauto. }
  unfold computeLevel. rewrite E1. cbn [obind]. destruct (Nat.eqb_spec j i); [lia|].
  destruct (nth_error (items t1) i) as [a|] eqn:Ea; [|apply nth_error_None in Ea; lia].
  destruct (nth_error (items t1) (Nat.pred j)) as [b|] eqn:Eb; [|apply nth_error_None in Eb; lia].
  unfold vread. rewrite Ea. cbn [obind]. rewrite Eb. cbn [obind int_traits distance].
  eexists _, _. split; [reflexivity|]. split; [auto|]. intros k Hk. split.
  - intros Hle. assert (HA : forall p x c, (i <= p < j)%nat -> nth_error (items t1) p = Some x -> (c < n)%nat -> u t (nth c (values a) 0) / 2 ^ k = u t (nth c (values x) 0) / 2 ^ k).
    { intros p x c Hp Ex Hc. assert (Hle' : mortonDistanceInt t (values a) (values x) <= k).
      { apply (cube_convex t n (values a) (values x) (values b) k); auto; try (eapply Hpt; eauto; fail).
        - apply (HN i p a x); auto; lia.
        - apply (HN p (Nat.pred j) x b); auto; lia. }
      rewrite (distance_le t n) in Hle'; auto; eapply Hpt; eauto. }
    intros p q x y c Hp Hq Ex Ey Hc. pose proof (HA p x c Hp Ex Hc) as A1. pose proof (HA q y c Hq Ey Hc) as A2. unfold u in A1, A2. congruence.
  - intros H. apply (distance_le t n); auto; try (eapply Hpt; eauto; fail). intros c Hc. apply (H i (Nat.pred j)); auto; lia.
Qed.

(** ** A conforming sorting function *)
Lemma ins_spec cmp x l : weak_order cmp (fun y => In y (x :: l)) -> in_order cmp l ->
  exists l', ins cmp x l = Ret l' /\ Permutation (x :: l) l' /\ in_order cmp l'.
Proof.
  induction l as [|y r IH]; intros (W1 & W2 & W3 & W4) Ho.
  - exists [x]. split; [reflexivity|]. split; [apply Permutation_refl|]. intros i j a b Hij Ha Hb. destruct j as [|[|j]]; try lia; discriminate.
  - cbn [ins]. destruct (W1 y x) as [r0 Er]; [right; left; reflexivity|left; reflexivity|]. rewrite Er.
    assert (Hr : in_order cmp r) by (intros i j a b Hij Ha Hb; apply (Ho (S i) (S j) a b); auto; lia).
    destruct r0.
    + destruct IH as (r' & E & HP & Ho'); auto.
      { split; [|split; [|split]]; intros; [apply W1|apply W2|eapply W3|eapply W4]; eauto; try (destruct H as [<-|H]; [left; reflexivity|right; right; assumption]);
          try (destruct H0 as [<-|H0]; [left; reflexivity|right; right; assumption]); try (destruct H1 as [<-|H1]; [left; reflexivity|right; right; assumption]). }
      rewrite E. exists (y :: r'). split; [reflexivity|]. split; [eapply Permutation_trans; [apply perm_swap|]; now apply perm_skip|].
      intros i j a b Hij Ha Hb. destruct j as [|j]; [lia|]. cbn [nth_error] in Hb. destruct i as [|i].
      * cbn [nth_error] in Ha. injection Ha as <-. assert (Hin : In b (x :: r)) by (eapply Permutation_in; [apply Permutation_sym; exact HP|]; eapply nth_error_In; eauto).
        destruct Hin as [<-|Hin].
        -- destruct (W1 x y) as [[|] E2]; [left; reflexivity|right; left; reflexivity| |exact E2].
           pose proof (W3 x y x ltac:(left; reflexivity) ltac:(right; left; reflexivity) ltac:(left; reflexivity) E2 Er) as E3. rewrite W2 in E3 by (left; reflexivity). discriminate.
        -- destruct (In_nth_error _ _ Hin) as [k Hk]. apply (Ho O (S k) y b); auto; lia.
      * apply (Ho' i j a b); auto. lia.
    + exists (x :: y :: r). split; [reflexivity|]. split; [apply Permutation_refl|].
      intros i j a b Hij Ha Hb. destruct j as [|j]; [lia|]. cbn [nth_error] in Hb. destruct i as [|i]; [|apply (Ho i j a b); auto; lia].
      cbn [nth_error] in Ha. injection Ha as <-. destruct j as [|j]; cbn [nth_error] in Hb; [injection Hb as <-; auto|].
      apply (W4 b y x); [right; right; eapply nth_error_In; eauto|right; left; reflexivity|left; reflexivity| |auto].
      apply (Ho O (S j) y b); auto; lia.
Qed.

Lemma weak_incl cmp (P Q : item -> Prop) : (forall x, Q x -> P x) -> weak_order cmp P -> weak_order cmp Q.
Proof. intros H (W1 & W2 & W3 & W4). split; [|split; [|split]]; eauto. Qed.

Lemma isort_conforming : conforming isort.
Proof.
  intros cmp l. induction l as [|x l IH]; intros HW.
  - exists []. split; [reflexivity|]. split; [constructor|]. intros i j a b _ Ha. destruct i; discriminate.
  - destruct IH as (l' & E & HP & Ho); [eapply weak_incl; [|exact HW]; intros; right; auto|].
    cbn [isort]. rewrite E. destruct (ins_spec cmp x l') as (l2 & E2 & HP2 & Ho2); auto.
    + eapply weak_incl; [|exact HW]. intros y [<-|Hy]; [left; auto|right]. eapply Permutation_in; [apply Permutation_sym|]; eauto.
    + exists l2. split; [auto|]. split; auto. eapply Permutation_trans; [apply perm_skip; exact HP|]. auto.
Qed.

(** ** Witnesses *)
Definition pt2 (x y : Z) : item := mkItem [x; y] 7.
Lemma search_refuted_lemma : exists l bmin bmax t', run (int_traits I32) isort empty_tree (map (fun x => OInsert x true) l) = Ret t' /\
  Forall (fun x => point I32 2 (values x)) (bmin :: bmax :: l) /\ (exists x, In x l /\ in_box (values bmin) (values bmax) (values x)) /\
  exists t2, searchInBox (int_traits I32) isort t' bmin bmax [] = Ret (t2, []).
Proof.
  exists [pt2 9 9; pt2 0 1; pt2 5 6; pt2 30 40; pt2 100 200], (pt2 0 0), (pt2 7 7). eexists. split; [vm_compute; reflexivity|].
  split; [repeat constructor; cbn; discriminate|]. split.
  - exists (pt2 5 6). split; [cbn; auto|]. intros i Hi. cbn [values pt2] in *. destruct i as [|[|i]]; [cbn; lia|cbn; lia|cbn in Hi; lia].
  - eexists. vm_compute. reflexivity.
Qed.

Lemma ids_refuted_lemma : exists x t', insert empty_tree x false = t' /\ id x = 7 /\ map id (items t') = [-1].
Proof. exists (pt2 1 2). eexists. repeat split. Qed.
Lemma ids_range_refuted_lemma : exists l t' s, insert_range empty_tree l false = Ret (t', s) /\ map id l = [7; 7] /\ map id (items t') = [-1; -1].
Proof. exists [pt2 1 2; pt2 3 4]. do 2 eexists. split; [reflexivity|]. split; reflexivity. Qed.

(** ** Identifiers *)
Lemma ids_lemma d sorter ops t : dom_ok d -> conforming sorter -> Forall (fun o => vals d (op_args o)) ops ->
  Z.of_nat (length (inserted 0 ops)) < 2 ^ 31 -> run (dom_traits d) sorter empty_tree ops = Ret t ->
  Permutation (inserted 0 ops) (items t).
Proof. intros Hd Hs Ho Hl E. apply (run_items d sorter ops Hd Hs Ho empty_tree (empty_good d) Hl t E). Qed.

(** All insertions with reset: the item with id k holds the k-th value passed in. *)

Lemma combine_ids k (l : list item) :
  map (fun p : nat * item => mkItem (values (snd p)) (Z.of_nat (fst p))) (combine (seq k (length l)) l) =
  map (fun p => mkItem (snd p) (Z.of_nat (fst p))) (combine (seq k (length (map values l))) (map values l)).
Proof. revert k. induction l as [|x l IH]; intros k; [reflexivity|]. cbn [length map seq combine fst snd]. now rewrite IH. Qed.

Lemma combine_seq_app {A} (l1 l2 : list A) k : combine (seq k (length (l1 ++ l2))) (l1 ++ l2) =
  combine (seq k (length l1)) l1 ++ combine (seq (k + length l1) (length l2)) l2.
Proof.
  revert k. induction l1 as [|x l1 IH]; intros k; cbn [length app seq combine]; [now rewrite Nat.add_0_r|]. rewrite IH. cbn [app]. f_equal.
  now rewrite Nat.add_succ_comm.
Qed.

Lemma inserted_reset ops : Forall (fun o => op_reset o = true) ops -> forall k,
  inserted k ops = map (fun p => mkItem (snd p) (Z.of_nat (fst p))) (combine (seq k (length (concat (map op_values ops)))) (concat (map op_values ops))).
Proof.
  induction 1 as [|o ops Ho Hops IH]; intros k; [reflexivity|]. cbn [inserted map concat]. rewrite combine_seq_app, map_app. 
  assert (E : op_items k o = map (fun p => mkItem (snd p) (Z.of_nat (fst p))) (combine (seq k (length (op_values o))) (op_values o))).
  { destruct o as [x b|l b|l b| | | |]; cbn [op_reset] in Ho; subst; cbn [op_items op_values]; try reflexivity; apply combine_ids. }
  rewrite E at 1. f_equal. rewrite IH. do 3 f_equal; rewrite E, map_length, combine_length, seq_length; lia.
Qed.

Lemma reset_lemma d sorter ops t : dom_ok d -> conforming sorter -> Forall (fun o => vals d (op_args o)) ops -> Forall (fun o => op_reset o = true) ops ->
  Z.of_nat (length (concat (map op_values ops))) < 2 ^ 31 -> run (dom_traits d) sorter empty_tree ops = Ret t ->
  length (items t) = length (concat (map op_values ops)) /\
  forall k v, nth_error (concat (map op_values ops)) k = Some v <-> In (mkItem v (Z.of_nat k)) (items t).
Proof.
  intros Hd Hs Ho Hr Hl E. pose proof (inserted_reset ops Hr 0) as EI.
  assert (HP : Permutation (inserted 0 ops) (items t)).
  { eapply ids_lemma; eauto. rewrite EI, map_length, combine_length, seq_length, Nat.min_id. auto. }
  split; [rewrite <- (Permutation_length HP), EI, map_length, combine_length, seq_length; lia|].
  intros k v. rewrite EI in HP. clear EI Hl E. set (V := concat (map op_values ops)) in *.
  assert (HI : In (mkItem v (Z.of_nat k)) (items t) <-> In (k, v) (combine (seq 0 (length V)) V)).
  { split; intros H.
    - eapply Permutation_in in H; [|apply Permutation_sym; exact HP]. apply in_map_iff in H as ([k' v'] & Ek & H). cbn [fst snd] in Ek. injection Ek as -> Ek. apply Nat2Z.inj in Ek. now subst.
    - eapply Permutation_in; [exact HP|]. apply in_map_iff. exists (k, v). auto. }
  rewrite HI. clear. assert (G : forall V s, nth_error V k = Some v <-> In ((s + k)%nat, v) (combine (seq s (length V)) V)).
  { clear. induction k as [|k IH]; intros [|w V] s; cbn [nth_error length seq combine In]; try (split; [discriminate|contradiction]).
    - rewrite Nat.add_0_r. split; [intros H; left; congruence|]. intros [H|H]; [congruence|]. apply in_combine_l in H. apply in_seq in H. lia.
    - rewrite (IH V (S s)). rewrite Nat.add_succ_comm. split; [auto|]. intros [H|H]; [|auto]. injection H as H _. lia. }
  rewrite (G V O). reflexivity.
Qed.

(** Converter insertions without reset keep the ids. *)
Lemma conv_keep_lemma t l : items (insert_conv t l false) = items t ++ l.
Proof.
  unfold insert_conv. cbn [items]. generalize (items t). induction l as [|x l IH]; intros its; cbn [conv_loop]; [now rewrite app_nil_r|].
  rewrite IH, <- app_assoc. reflexivity.
Qed.
(** The other two lose them. *)
Lemma insert_lose_lemma t x : map id (items (insert t x false)) = map id (items t) ++ [-1].
Proof. unfold insert. cbn [items]. now rewrite map_app. Qed.

Lemma double_find_lemma sorter x q : length (values x) = length (values q) ->
  (exists i, (i < length (values x))%nat /\ double (nth i (values x) 0) /\ double (nth i (values q) 0) /\
     d_neg (nth i (values x) 0) = d_neg (nth i (values q) 0) /\ nth i (values x) 0 <> nth i (values q) 0) ->
  findItem (float_traits F64) sorter (mkTree [x] true) q = UB.
Proof.
  intros Hl (i & Hi & H1 & H2 & H3 & H4). unfold findItem, ensure. cbn [ordered obind items]. unfold lower_bound. cbn [length bisect Nat.div2 Nat.add vread nth_error obind].
  unfold compareItems. cbn [float_traits compare]. rewrite (fcmp_double_lemma _ _ i); auto.
Qed.

(** ** Source items of a range insertion *)
Lemma source_lemma t l b : Z.of_nat (length (items t) + length l) < 2 ^ 31 ->
  exists t' src, insert_range t l b = Ret (t', src) /\ length src = length l /\
    forall k x, nth_error l k = Some x -> nth_error src k = Some (if b then mkItem (values x) (Z.of_nat (length (items t) + k)) else x).
Proof.
  intros H. destruct (insert_range_spec t l b H) as (t' & E & _). exists t', (source_items (length (items t)) l b). split; [exact E|].
  unfold source_items. destruct b; [|auto]. split; [rewrite map_length, combine_length, seq_length; lia|].
  intros k x Hk. generalize (length (items t)). clear -Hk. revert k Hk. induction l as [|y l IH]; intros [|k] Hk n; try discriminate.
  - injection Hk as ->. cbn. now rewrite Nat.add_0_r.
  - cbn in *. rewrite (IH k Hk (S n)). do 3 f_equal. lia.
Qed.

Lemma source_refuted_lemma : exists l t' src, insert_range empty_tree l true = Ret (t', src) /\ src <> l.
Proof. exists [pt2 1 2]. do 2 eexists. split; [reflexivity|discriminate]. Qed.

(** ** Centred boxes *)
Lemma add_in_ok t x y : in_type t (x + y) -> add_in t x y = Ret (x + y).
Proof.
  intros H. unfold in_type, add_in, sadd, conv, swrap, wrap in *.
  destruct t; cbn [is_signed bit_num tmin tmax] in *; try (f_equal; rewrite Z.mod_small; lia);
    (destruct (_ && _) eqn:E; [reflexivity|apply andb_false_iff in E as [E|E]; [apply Z.leb_gt in E|apply Z.ltb_ge in E]; lia]).
Qed.

Lemma add_in_ub t x y : t = I32 \/ t = I64 -> ~ in_type t (x + y) -> add_in t x y = UB.
Proof.
  intros Ht H. unfold in_type, add_in, sadd in *. destruct Ht as [->| ->]; cbn [bit_num tmin tmax] in *;
    (destruct (_ && _) eqn:E; [apply andb_true_iff in E as [E1 E2]; apply Z.leb_le in E1; apply Z.ltb_lt in E2; lia|reflexivity]).
Qed.

Lemma add_in_wrap t x y : t <> I32 -> t <> I64 -> add_in t x y = Ret (conv t (x + y)).
Proof. destruct t; try congruence; reflexivity. Qed.

Lemma corner_ok t s c r : Forall (fun x => in_type t (x + s * r)) c -> box_corner t s c r = Ret (map (fun x => x + s * r) c).
Proof. induction 1 as [|x c H Hc IH]; [reflexivity|]. cbn [box_corner map]. rewrite add_in_ok by auto. cbn [obind]. now rewrite IH. Qed.

Lemma corner_pure t s c r : (exists l, box_corner t s c r = Ret l) \/ box_corner t s c r = UB.
Proof.
  induction c as [|x c IH]; [left; eexists; reflexivity|]. cbn [box_corner].
  assert (H : (exists y, add_in t x (s * r) = Ret y) \/ add_in t x (s * r) = UB) by (unfold add_in, sadd; destruct t; try destruct (_ && _); eauto).
  destruct H as [[y ->]| ->]; [|right; reflexivity]. cbn [obind]. destruct IH as [[l ->]| ->]; [left; eexists|right]; reflexivity.
Qed.

Lemma corner_ub t s c r : t = I32 \/ t = I64 -> Exists (fun x => ~ in_type t (x + s * r)) c -> box_corner t s c r = UB.
Proof.
  intros Ht. induction 1 as [x c H|x c Hc IH]; cbn [box_corner].
  - rewrite add_in_ub by auto. reflexivity.
  - rewrite IH. destruct (add_in t x (s * r)) eqn:E; cbn [obind]; auto; unfold add_in, sadd in E; destruct Ht as [->| ->]; destruct (_ && _); discriminate.
Qed.

Lemma centre_lemma t sorter tr c r out :
  (Forall (fun x => in_type t (x - r) /\ in_type t (x + r)) (values c) ->
    searchInBoxCentre t sorter tr c r out =
    searchInBox (int_traits t) sorter tr (mkItem (map (fun x => x - r) (values c)) (-1)) (mkItem (map (fun x => x + r) (values c)) (-1)) out) /\
  (t = I32 \/ t = I64 -> Exists (fun x => ~ in_type t (x - r) \/ ~ in_type t (x + r)) (values c) -> searchInBoxCentre t sorter tr c r out = UB).
Proof.
  unfold searchInBoxCentre. split.
  - intros H. rewrite !corner_ok.
    2: { eapply Forall_impl; [|exact H]. cbv beta. intros x [_ Hx]. now replace (x + 1 * r) with (x + r) by lia. }
    2: { eapply Forall_impl; [|exact H]. cbv beta. intros x [Hx _]. now replace (x + -1 * r) with (x - r) by lia. }
    cbn [obind].
    rewrite (map_ext (fun x => x + -1 * r) (fun x => x - r)), (map_ext (fun x => x + 1 * r) (fun x => x + r)) by (intros; lia). reflexivity.
  - intros Ht H. destruct (corner_pure t (-1) (values c) r) as [[lo E]|E]; rewrite E; [|reflexivity]. cbn [obind].
    rewrite (corner_ub t 1); [reflexivity|auto|].
    apply Exists_exists in H as (x & Hx & Hn). apply Exists_exists. exists x. split; [auto|]. replace (x + 1 * r) with (x + r) by lia.
    destruct Hn as [Hn|Hn]; [|exact Hn]. exfalso.
    rewrite (corner_ub t (-1)) in E; [discriminate|auto|]. apply Exists_exists. exists x. split; [auto|]. now replace (x + -1 * r) with (x - r) by lia.
Qed.

Lemma centre_wrap_lemma t sorter tr c r out : t <> I32 -> t <> I64 ->
  searchInBoxCentre t sorter tr c r out =
  searchInBox (int_traits t) sorter tr (mkItem (map (fun x => conv t (x - r)) (values c)) (-1)) (mkItem (map (fun x => conv t (x + r)) (values c)) (-1)) out.
Proof.
  intros H1 H2. unfold searchInBoxCentre.
  assert (E : forall s l, box_corner t s l r = Ret (map (fun x => conv t (x + s * r)) l)).
  { intros s. induction l as [|x l IH]; [reflexivity|]. cbn [box_corner map]. rewrite add_in_wrap, IH by auto. reflexivity. }
  rewrite !E. cbn [obind].
  rewrite (map_ext (fun x => conv t (x + -1 * r)) (fun x => conv t (x - r))), (map_ext (fun x => conv t (x + 1 * r)) (fun x => conv t (x + r))) by (intros; f_equal; lia). reflexivity.
Qed.

(** The corners for centre 1 and range 2 in uint8_t: 255 and 3. *)
Lemma centre_refuted_lemma : exists c r lo hi, in_type U8 c /\ 0 <= r /\ in_type U8 r /\
  (forall sorter tr out, searchInBoxCentre U8 sorter tr (mkItem [c] 0) r out = searchInBox (int_traits U8) sorter tr (mkItem [lo] (-1)) (mkItem [hi] (-1)) out) /\
  ~ in_box [lo] [hi] [c].
Proof.
  exists 1, 2, 255, 3. do 3 (split; [try split; vm_compute; congruence|]). split.
  - intros. rewrite centre_wrap_lemma by discriminate. reflexivity.
  - intros H. specialize (H O ltac:(simpl; lia)). cbn in H. lia.
Qed.

(** ** Ids beyond the range of int *)
Lemma to_int_wraps n : as_int n (to_int n).
Proof.
  unfold as_int, to_int. pose proof (Z.mod_pos_bound n (2 ^ 32) ltac:(lia)) as B. pose proof (Z.div_mod n (2 ^ 32) ltac:(lia)) as D. cbv zeta.
  destruct (Z.leb_spec (2 ^ 31) (n mod 2 ^ 32)).
  - split; [lia|]. exists (n / 2 ^ 32 + 1). lia.
  - split; [lia|]. exists (n / 2 ^ 32). lia.
Qed.
Lemma insert_id t x : exists z, items (insert t x true) = items t ++ [mkItem (values x) z] /\ as_int (Z.of_nat (length (items t))) z.
Proof. exists (to_int (Z.of_nat (length (items t)))). split; [reflexivity|apply to_int_wraps]. Qed.
Lemma run_inserts tr sorter l : forall t, exists t' new, run tr sorter t (map (fun x => OInsert x true) l) = Ret t' /\ items t' = items t ++ new /\ length new = length l /\
  forall k y, nth_error new k = Some y -> exists x, nth_error l k = Some x /\ values y = values x /\ as_int (Z.of_nat (length (items t) + k)) (id y).
Proof.
  induction l as [|x l IH]; intros t.
  - exists t, []. cbn. rewrite app_nil_r. repeat split. intros [|k] y H; discriminate.
  - cbn [map run step obind]. destruct (insert_id t x) as (z & E & Z). destruct (IH (insert t x true)) as (t' & new & R & I & N & H). exists t', (mkItem (values x) z :: new).
    split; [exact R|]. split; [rewrite I, E, <- app_assoc; reflexivity|]. split; [cbn; now rewrite N|]. intros [|k] y Hy; cbn [nth_error] in *.
    + injection Hy as <-. exists x. rewrite Nat.add_0_r. auto.
    + destruct (H k y Hy) as (x' & X & V & A). exists x'. split; [exact X|]. split; [exact V|]. rewrite E, app_length in A. cbn [length] in A. replace (length (items t) + S k)%nat with (length (items t) + 1 + k)%nat by lia. exact A.
Qed.
Lemma late_id tr sorter x k : 2 ^ 31 <= Z.of_nat k -> exists l t' y, run tr sorter empty_tree (map (fun x => OInsert x true) l) = Ret t' /\ nth_error (items t') k = Some y /\ nth_error l k = Some x /\ id y <> Z.of_nat k.
Proof.
  intros K. set (l := repeat x (S k)). destruct (run_inserts tr sorter l empty_tree) as (t' & new & R & I & N & H). cbn [items empty_tree app] in I. assert (L : length l = S k) by apply repeat_length.
  destruct (nth_error (items t') k) as [y|] eqn:E; [|apply nth_error_None in E; rewrite I, N, L in E; lia].
  exists l, t', y. split; [exact R|]. split; [exact E|]. assert (X : nth_error l k = Some x) by (apply nth_error_repeat; lia). split; [exact X|].
  rewrite I in E. destruct (H k y E) as (_ & _ & _ & [A _]). lia.
Qed.
