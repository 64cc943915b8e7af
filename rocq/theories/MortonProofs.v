(** Proofs about the Morton order of integer points. *)
From Coq Require Import List ZArith Bool Lia ZifyBool Arith.
From Verif Require Import Base BaseLemmas BitsModel BitsSpec BitsProofs MortonModel MortonSpec.
Import ListNotations.
Open Scope outcome_scope.
Open Scope Z_scope.

(** ** Exclusive or of offset values *)
Definition u (t : ity) (x : Z) : Z := x - tmin t.

Lemma bit_num_pos t : 0 < bit_num t.
Proof. destruct t; cbn; lia. Qed.

Lemma u_range t x : in_type t x -> 0 <= u t x < 2 ^ bit_num t.
Proof. intros H. unfold u. destruct t; ity_lia. Qed.

Lemma u_inj t x y : u t x = u t y -> x = y.
Proof. unfold u. lia. Qed.

Lemma wrap_lxor w a b : 0 <= w -> wrap w (Z.lxor a b) = Z.lxor (wrap w a) (wrap w b).
Proof.
  intros Hw. unfold wrap. rewrite <- !Z.land_ones by auto. apply Z.bits_inj'. intros i Hi.
  rewrite Z.lxor_spec, !Z.land_spec, Z.lxor_spec. destruct (Z.testbit a i), (Z.testbit b i), (Z.testbit (Z.ones w) i); reflexivity.
Qed.

Lemma lxor_top k z : 0 <= k -> 0 <= z < 2 ^ k -> Z.lxor z (2 ^ k) = z + 2 ^ k.
Proof.
  intros Hk Hz. symmetry. apply Z.add_nocarry_lxor. apply Z.bits_inj'. intros i Hi. rewrite Z.land_spec, Z.testbit_0_l.
  destruct (Z.eq_dec i k) as [->|Hne].
  - replace (Z.testbit z k) with false; [reflexivity|]. symmetry. destruct (Z.eq_dec z 0) as [->|]; [apply Z.testbit_0_l|].
    apply Z.bits_above_log2; [lia|]. apply Z.log2_lt_pow2; lia.
  - rewrite Z.pow2_bits_false by auto. apply andb_false_r.
Qed.

Lemma u_xor_signed t x : is_signed t = true -> in_type t x -> u t x = Z.lxor (wrap (bit_num t) x) (2 ^ (bit_num t - 1)).
Proof.
  intros Hs Hx. pose proof (bit_num_pos t) as Hw. set (w := bit_num t) in *.
  assert (E2 : 2 ^ w = 2 * 2 ^ (w - 1)) by (rewrite <- Z.pow_succ_r by lia; f_equal; lia).
  assert (Ht : tmin t = - 2 ^ (w - 1) /\ tmax t = 2 ^ (w - 1) - 1) by (unfold w; destruct t; try discriminate; split; reflexivity).
  destruct Ht as [Ht Ht2]. unfold in_type in Hx. unfold u.
  destruct (Z.lt_ge_cases x 0).
  - replace (wrap w x) with (x + 2 ^ w) by (unfold wrap; apply (Z.mod_unique _ _ (-1)); lia).
    replace (x + 2 ^ w) with ((x + 2 ^ (w - 1)) + 2 ^ (w - 1)) by lia.
    rewrite <- lxor_top by lia. rewrite Z.lxor_assoc, Z.lxor_nilpotent, Z.lxor_0_r. lia.
  - rewrite wrap_small by lia. rewrite lxor_top by lia. lia.
Qed.

Lemma xor_u t x y : in_type t x -> in_type t y -> xorRS t x y = Z.lxor (u t x) (u t y).
Proof.
  intros Hx Hy. pose proof (bit_num_pos t) as Hw. unfold xorRS, removeSign. destruct (is_signed t) eqn:Hs.
  - rewrite !u_xor_signed by auto. rewrite !wrap_lxor by lia. apply Z.bits_inj'. intros i _. rewrite !Z.lxor_spec.
    destruct (Z.testbit (wrap _ x) i), (Z.testbit (wrap _ y) i), (Z.testbit (wrap _ 1) i), (Z.testbit (2 ^ _) i); reflexivity.
  - unfold u. replace (tmin t) with 0 by (destruct t; try discriminate; reflexivity). now rewrite !Z.sub_0_r.
Qed.

Lemma lxor_range k a b : 0 <= k -> 0 <= a < 2 ^ k -> 0 <= b < 2 ^ k -> 0 <= Z.lxor a b < 2 ^ k.
Proof.
  intros Hk Ha Hb. assert (Hnn : 0 <= Z.lxor a b) by (apply Z.lxor_nonneg; lia). split; [auto|].
  destruct (Z.eq_dec (Z.lxor a b) 0) as [->|Hne]; [lia|].
  apply Z.log2_lt_pow2; [lia|].
  pose proof (Z.log2_lxor a b ltac:(lia) ltac:(lia)).
  assert (forall c, 0 <= c < 2 ^ k -> Z.log2 c < k \/ k = 0).
  { intros c Hc. destruct (Z.eq_dec k 0); [auto|]. left. destruct (Z.eq_dec c 0) as [->|]; [cbn; lia|]. apply Z.log2_lt_pow2; lia. }
  destruct (Z.eq_dec k 0) as [->|].
  - assert (a = 0) by (cbn in *; lia). assert (b = 0) by (cbn in *; lia). subst. now cbn in Hne.
  - pose proof (H0 a Ha). pose proof (H0 b Hb). lia.
Qed.

(** ** Bit length *)
Definition bl (x : Z) : Z := if x =? 0 then 0 else Z.log2 x + 1.

Lemma bl_nonneg x : 0 <= bl x.
Proof. unfold bl. pose proof (Z.log2_nonneg x). destruct (Z.eqb_spec x 0); lia. Qed.

Lemma bl_le k a : 0 <= a -> 0 <= k -> (bl a <= k <-> a < 2 ^ k).
Proof.
  intros Ha Hk. unfold bl. destruct (Z.eqb_spec a 0) as [->|Hn]; [lia|].
  pose proof (Z.log2_lt_pow2 a k ltac:(lia)). lia.
Qed.

Lemma bl_0 a : 0 <= a -> bl a = 0 -> a = 0.
Proof. intros Ha. unfold bl. pose proof (Z.log2_nonneg a). destruct (Z.eqb_spec a 0); lia. Qed.

(** Levels: agreement above bit k. *)
Lemma bl_xor_le k a b : 0 <= k -> 0 <= a -> 0 <= b -> (bl (Z.lxor a b) <= k <-> a / 2 ^ k = b / 2 ^ k).
Proof.
  intros Hk Ha Hb. assert (Hn : 0 <= Z.lxor a b) by (apply Z.lxor_nonneg; lia).
  rewrite bl_le by auto. rewrite <- !Z.shiftr_div_pow2 by auto.
  rewrite <- (Z.lxor_eq_0_iff (Z.shiftr a k)), <- Z.shiftr_lxor, Z.shiftr_div_pow2 by auto. rewrite Z.div_small_iff by lia. lia.
Qed.

Lemma msb_spec a b : 0 <= a -> 0 <= b -> msb a b = (bl a <? bl b).
Proof.
  intros Ha Hb. unfold msb. assert (Hn : 0 <= Z.lxor a b) by (apply Z.lxor_nonneg; lia).
  destruct (Z.ltb_spec (bl a) (bl b)) as [H|H].
  - assert (Hb0 : b <> 0) by (intros ->; pose proof (bl_nonneg a); cbn in H; lia).
    assert (Hlb : bl b = Z.log2 b + 1) by (unfold bl; destruct (Z.eqb_spec b 0); lia).
    pose proof (Z.log2_nonneg b) as Hl0.
    assert (Ha2 : a < 2 ^ Z.log2 b) by (apply bl_le; lia).
    pose proof (Z.log2_spec b ltac:(lia)) as Hs.
    assert (~ Z.lxor a b < 2 ^ Z.log2 b).
    { intros Hx. apply bl_le in Hx; auto. apply bl_xor_le in Hx; auto.
      rewrite (Z.div_small a) in Hx by lia. pose proof (Z.div_str_pos b (2 ^ Z.log2 b) ltac:(lia)). lia. }
    destruct (Z.ltb_spec a b), (Z.ltb_spec a (Z.lxor a b)); cbn; auto; lia.
  - destruct (Z.ltb_spec a b) as [Hab|Hab]; [|reflexivity]. cbn [andb]. apply Z.ltb_ge.
    assert (Ea : bl a = bl b).
    { assert (bl a <= bl b); [|lia]. pose proof (bl_nonneg b). apply bl_le; auto. apply Z.lt_trans with b; [auto|]. apply bl_le; auto. lia. }
    assert (Ha0 : a <> 0).
    { intros ->. cbn in Ea. assert (b = 0) by (apply bl_0; auto). lia. }
    assert (Hla : bl a = Z.log2 a + 1) by (unfold bl; destruct (Z.eqb_spec a 0); lia).
    assert (Hlb : bl b = Z.log2 b + 1) by (unfold bl; destruct (Z.eqb_spec b 0); lia).
    pose proof (Z.log2_nonneg a) as Hl0.
    pose proof (Z.log2_spec a ltac:(lia)) as Hsa. pose proof (Z.log2_spec b ltac:(lia)) as Hsb.
    assert (Hq : Z.lxor a b < 2 ^ Z.log2 a).
    { apply bl_le; auto. apply bl_xor_le; auto. replace (Z.log2 b) with (Z.log2 a) in Hsb by lia.
      assert (E2 : 2 ^ Z.succ (Z.log2 a) = 2 * 2 ^ Z.log2 a) by (rewrite Z.pow_succ_r by lia; lia).
      transitivity 1; [symmetry|]; [apply (Z.div_unique _ _ _ (a - 2 ^ Z.log2 a)); lia|apply (Z.div_unique _ _ _ (b - 2 ^ Z.log2 a)); lia]. }
    lia.
Qed.

Lemma level_bl t x y : in_type t x -> in_type t y -> level t x y = bl (Z.lxor (u t x) (u t y)).
Proof.
  intros Hx Hy. unfold level. rewrite xor_u by auto.
  assert (Hr : 0 <= Z.lxor (u t x) (u t y) < utop t).
  { apply lxor_range; [pose proof (bit_num_pos t); lia| |]; now apply u_range. }
  rewrite it_nlz_val by auto. unfold lzv, bl. cbn [fst snd]. destruct (Z.eqb_spec (Z.lxor (u t x) (u t y)) 0); lia.
Qed.

(** ** The loop of mortonCmpInt finds the first coordinate of the highest level *)
Definition lv (t : ity) (L : list (Z * Z)) (i : nat) : Z := bl (xorRS t (fst (nth i L (0, 0))) (snd (nth i L (0, 0)))).

Definition first_max (f : nat -> Z) (n D : nat) : Prop :=
  (D < n)%nat /\ (forall i, (i < D)%nat -> f i < f D) /\ (forall i, (i < n)%nat -> f i <= f D).

Lemma xorRS_nonneg t x y : in_type t x -> in_type t y -> 0 <= xorRS t x y.
Proof. intros Hx Hy. rewrite xor_u by auto. apply Z.lxor_nonneg. pose proof (u_range t x Hx). pose proof (u_range t y Hy). lia. Qed.

Definition pair_ok (t : ity) (p : Z * Z) : Prop := in_type t (fst p) /\ in_type t (snd p).

Lemma nth_pair_ok t L i : Forall (pair_ok t) L -> (i < length L)%nat -> pair_ok t (nth i L (0, 0)).
Proof. intros H Hi. rewrite Forall_forall in H. apply H. now apply nth_In. Qed.

Lemma cmp_loop_spec t r : forall P D, Forall (pair_ok t) (P ++ r) -> Z.of_nat (length (P ++ r)) <= 2 ^ bit_num t ->
  first_max (lv t P) (length P) D ->
  exists D', fst (cmp_loop t (Z.of_nat (length P)) r (Z.of_nat D) (xorRS t (fst (nth D P (0, 0))) (snd (nth D P (0, 0))))) = Z.of_nat D' /\
    first_max (lv t (P ++ r)) (length (P ++ r)) D'.
Proof.
  induction r as [|[x y] r IH]; intros P D Hok Hlen (HD & H1 & H2).
  - exists D. rewrite app_nil_r. split; [reflexivity|]. split; auto.
  - replace (P ++ (x, y) :: r) with ((P ++ [(x, y)]) ++ r) in * by (rewrite <- app_assoc; reflexivity).
    assert (Hlen2 : length (P ++ [(x, y)]) = S (length P)) by (rewrite app_length; simpl; lia).
    assert (Hlen3 : Z.of_nat (length P) < 2 ^ bit_num t) by (rewrite app_length, Hlen2 in Hlen; lia).
    assert (HokP : Forall (pair_ok t) (P ++ [(x, y)])) by (apply Forall_app in Hok; tauto).
    assert (Hxy : pair_ok t (x, y)).
    { replace (x, y) with (nth (length P) (P ++ [(x, y)]) (0, 0)).
      - apply nth_pair_ok; [auto|lia].
      - rewrite app_nth2 by lia. now rewrite Nat.sub_diag. }
    assert (HDok : pair_ok t (nth D P (0, 0))).
    { apply nth_pair_ok; auto. apply Forall_app in HokP; tauto. }
    cbn [cmp_loop]. rewrite msb_spec by (apply xorRS_nonneg; apply HDok || apply Hxy).
    assert (Hold : forall i, (i < length P)%nat -> lv t (P ++ [(x, y)]) i = lv t P i).
    { intros i Hi. unfold lv. rewrite app_nth1 by auto. reflexivity. }
    assert (Hnew : lv t (P ++ [(x, y)]) (length P) = bl (xorRS t x y)).
    { unfold lv. rewrite app_nth2, Nat.sub_diag by lia. reflexivity. }
    replace (Z.of_nat (length P) + 1) with (Z.of_nat (length (P ++ [(x, y)]))) by lia.
    destruct (Z.ltb_spec (bl (xorRS t (fst (nth D P (0, 0))) (snd (nth D P (0, 0))))) (bl (xorRS t x y))) as [Hlt|Hge].
    + rewrite wrap_small by lia.
      destruct (IH (P ++ [(x, y)]) (length P) Hok Hlen) as (D' & E & HM).
      * split; [lia|]. rewrite Hnew. fold (lv t P D) in Hlt. split.
        -- intros i Hi. rewrite Hold by auto. specialize (H2 i Hi). unfold lv in *. lia.
        -- intros i Hi. destruct (Nat.eq_dec i (length P)) as [->|]; [lia|]. rewrite Hold by lia. specialize (H2 i ltac:(lia)). unfold lv in *. lia.
      * exists D'. split; [|auto]. rewrite <- E. rewrite app_nth2, Nat.sub_diag by lia. reflexivity.
    + destruct (IH (P ++ [(x, y)]) D Hok Hlen) as (D' & E & HM).
      * split; [lia|]. split.
        -- intros i Hi. rewrite !Hold by lia. auto.
        -- intros i Hi. rewrite (Hold D) by auto. destruct (Nat.eq_dec i (length P)) as [->|]; [rewrite Hnew; unfold lv; lia|]. rewrite Hold by lia. apply H2. lia.
      * exists D'. split; [|auto]. rewrite <- E. rewrite app_nth1 by auto. reflexivity.
Qed.

Lemma combine_ok t n v1 v2 : point t n v1 -> point t n v2 -> Forall (pair_ok t) (combine v1 v2) /\ length (combine v1 v2) = n.
Proof.
  intros [H1 H1'] [H2 H2']. split; [|rewrite combine_length; lia].
  apply Forall_forall. intros [x y] H. rewrite Forall_forall in H1', H2'. split; [apply H1'; eapply in_combine_l; eauto|apply H2'; eapply in_combine_r; eauto].
Qed.

Definition plv (t : ity) (v1 v2 : list Z) (i : nat) : Z := bl (Z.lxor (u t (nth i v1 0)) (u t (nth i v2 0))).

Lemma lv_plv t n v1 v2 i : point t n v1 -> point t n v2 -> (i < n)%nat -> lv t (combine v1 v2) i = plv t v1 v2 i.
Proof.
  intros H1 H2 Hi. destruct (combine_ok t n v1 v2 H1 H2) as [Hc Hl]. unfold lv.
  pose proof (nth_pair_ok t _ i Hc ltac:(lia)) as [Ha Hb].
  rewrite combine_nth in * by (destruct H1, H2; lia). cbn [fst snd] in *. rewrite xor_u by auto. reflexivity.
Qed.

Lemma mortonCmp_char t n v1 v2 : point t n v1 -> point t n v2 -> (0 < n)%nat -> Z.of_nat n <= 2 ^ bit_num t ->
  exists D, first_max (plv t v1 v2) n D /\ mortonCmpInt t v1 v2 = Ret (nth D v1 0 <? nth D v2 0).
Proof.
  intros H1 H2 Hn Hw. destruct (combine_ok t n v1 v2 H1 H2) as [Hc Hl]. unfold mortonCmpInt.
  assert (Hplv := fun i Hi => lv_plv t n v1 v2 i H1 H2 Hi).
  destruct (combine v1 v2) as [|[x y] r] eqn:E; [simpl in Hl; lia|].
  destruct (cmp_loop_spec t r [(x, y)] 0) as (D & ED & HD).
  - exact Hc.
  - cbn [app]. lia.
  - split; [simpl; lia|]. split; [lia|]. intros i Hi. simpl in Hi. replace i with O by lia. lia.
  - cbn [length app nth fst snd] in *. change (Z.of_nat 1) with 1 in ED. change (Z.of_nat 0) with 0 in ED.
    destruct (cmp_loop t 1 r 0 (xorRS t x y)) as [ld lx]. cbn [fst] in ED. subst ld. rewrite Nat2Z.id.
    destruct HD as (HD1 & HD2 & HD3). simpl in Hl. rewrite Hl in *.
    destruct H1 as [H1 H1'], H2 as [H2 H2'].
    exists D. split.
    + split; [auto|]. split; intros i Hi; rewrite <- !Hplv by lia; auto.
    + unfold vread. rewrite !(nth_error_nth' _ 0) by lia. reflexivity.
Qed.

(** ** Lexicographic order of bit strings *)
Lemma lex_irrefl a : ~ lex_lt a a.
Proof. intros H. remember a as b eqn:E in H at 2. induction H; try discriminate; injection E; auto; subst; auto. Qed.

Lemma lex_cons x y a b : lex_lt (x :: a) (y :: b) <-> (x = false /\ y = true) \/ (x = y /\ lex_lt a b).
Proof.
  split.
  - intros H. inversion H; subst; auto.
  - intros [[-> ->]|[-> H]]; constructor; auto.
Qed.

Lemma lex_nil_l a : ~ lex_lt [] a.
Proof. intros H. inversion H. Qed.
Lemma lex_nil_r a : ~ lex_lt a [].
Proof. intros H. inversion H. Qed.

Lemma lex_trans a : forall b c, lex_lt a b -> lex_lt b c -> lex_lt a c.
Proof.
  induction a as [|x a IH]; intros [|y b] [|z c] H1 H2; try (now apply lex_nil_l in H1); try (now apply lex_nil_r in H1); try (now apply lex_nil_r in H2).
  apply lex_cons in H1, H2. apply lex_cons. destruct H1 as [[-> ->]|[-> H1]], H2 as [[E1 E2]|[E H2]]; subst; auto; try discriminate.
  right. split; auto. eapply IH; eauto.
Qed.

Lemma lex_asym a b : lex_lt a b -> ~ lex_lt b a.
Proof. intros H1 H2. exact (lex_irrefl a (lex_trans _ _ _ H1 H2)). Qed.

Lemma lex_app_l a b c d : lex_lt a b -> lex_lt (a ++ c) (b ++ d).
Proof. induction 1; simpl; constructor; auto. Qed.

Lemma lex_app_r a c d : lex_lt c d -> lex_lt (a ++ c) (a ++ d).
Proof. induction a; simpl; auto. intros. constructor. auto. Qed.

(** First difference in a row. *)
Lemma lex_row (f : Z -> bool) v1 : forall v2 D, length v1 = length v2 -> (D < length v1)%nat ->
  (forall i, (i < D)%nat -> f (nth i v1 0) = f (nth i v2 0)) -> f (nth D v1 0) = false -> f (nth D v2 0) = true ->
  lex_lt (map f v1) (map f v2).
Proof.
  induction v1 as [|x v1 IH]; intros [|y v2] D Hl HD H Hf Ht; simpl in *; try lia.
  destruct D as [|D].
  - rewrite Hf, Ht. constructor.
  - pose proof (H O ltac:(lia)) as H0. simpl in H0. rewrite H0. constructor. apply (IH v2 D); auto; try lia.
    intros i Hi. apply (H (S i)). lia.
Qed.

Lemma seq_split_at w b : (b < w)%nat -> rev (seq 0 w) = rev (seq (S b) (w - S b)) ++ b :: rev (seq 0 b).
Proof.
  intros H. replace w with (b + S (w - S b))%nat at 1 by lia. rewrite seq_app, rev_app_distr. simpl.
  rewrite <- app_assoc. reflexivity.
Qed.

(** Lowest level at which the offset values agree. *)
Lemma zlex_intro t n v1 v2 b D : length v1 = n -> length v2 = n -> (b < Z.to_nat (bit_num t))%nat -> (D < n)%nat ->
  (forall i k, (i < n)%nat -> (b < k)%nat -> Z.testbit (u t (nth i v1 0)) (Z.of_nat k) = Z.testbit (u t (nth i v2 0)) (Z.of_nat k)) ->
  (forall i, (i < D)%nat -> Z.testbit (u t (nth i v1 0)) (Z.of_nat b) = Z.testbit (u t (nth i v2 0)) (Z.of_nat b)) ->
  Z.testbit (u t (nth D v1 0)) (Z.of_nat b) = false -> Z.testbit (u t (nth D v2 0)) (Z.of_nat b) = true ->
  lex_lt (zkey t v1) (zkey t v2).
Proof.
  intros Hl1 Hl2 Hb HD Habove Hrow Hf Ht. unfold zkey. rewrite (seq_split_at _ b Hb), !map_app, !concat_app. cbn [map concat].
  replace (map (zlevel t v1) (rev (seq (S b) (Z.to_nat (bit_num t) - S b)))) with (map (zlevel t v2) (rev (seq (S b) (Z.to_nat (bit_num t) - S b)))).
  - apply lex_app_r. apply lex_app_l. apply (lex_row (fun x => Z.testbit (x - tmin t) (Z.of_nat b)) v1 v2 D); auto; lia.
  - apply map_ext_in. intros k Hk. apply in_rev, in_seq in Hk. unfold zlevel.
    apply nth_ext with (d := false) (d' := false); rewrite !map_length; [lia|]. intros i Hi.
    rewrite !(nth_indep _ false (Z.testbit (0 - tmin t) (Z.of_nat k))) by (rewrite map_length; lia).
    rewrite !(map_nth (fun x => Z.testbit (x - tmin t) (Z.of_nat k))). symmetry. apply Habove; lia.
Qed.

Lemma div_testbit a b k i : 0 <= k <= i -> a / 2 ^ k = b / 2 ^ k -> Z.testbit a i = Z.testbit b i.
Proof.
  intros Hk H. rewrite <- !Z.shiftr_div_pow2 in H by lia.
  replace i with ((i - k) + k) by lia. rewrite <- !Z.shiftr_spec by lia. now rewrite H.
Qed.

(** Two numbers that agree above bit k-1 but not above k... the smaller has bit k clear. *)
Lemma bit_decides a b k : 0 <= k -> 0 <= a -> a / 2 ^ (k + 1) = b / 2 ^ (k + 1) -> a / 2 ^ k <> b / 2 ^ k -> a < b ->
  Z.testbit a k = false /\ Z.testbit b k = true.
Proof.
  intros Hk Ha H1 H2 Hab. rewrite !Z.pow_add_r, <- !Z.div_div in H1 by lia. change (2 ^ 1) with 2 in H1.
  assert (Hle : a / 2 ^ k <= b / 2 ^ k) by (apply Z.div_le_mono; lia).
  pose proof (Z.testbit_spec' a k Hk) as Ea. pose proof (Z.testbit_spec' b k Hk) as Eb.
  pose proof (Z.div_mod (a / 2 ^ k) 2 ltac:(lia)). pose proof (Z.div_mod (b / 2 ^ k) 2 ltac:(lia)).
  pose proof (Z.mod_pos_bound (a / 2 ^ k) 2 ltac:(lia)). pose proof (Z.mod_pos_bound (b / 2 ^ k) 2 ltac:(lia)).
  destruct (Z.testbit a k), (Z.testbit b k); cbn in Ea, Eb; auto; lia.
Qed.

Lemma nth_in_type t n v i : point t n v -> (i < n)%nat -> in_type t (nth i v 0).
Proof. intros [Hl H] Hi. rewrite Forall_forall in H. apply H. apply nth_In. lia. Qed.

Lemma cmp_true_lex t n v1 v2 D : point t n v1 -> point t n v2 -> first_max (plv t v1 v2) n D ->
  nth D v1 0 < nth D v2 0 -> lex_lt (zkey t v1) (zkey t v2).
Proof.
  intros H1 H2 (HD & Hlt & Hle) Hx.
  assert (Hu1 : forall i, (i < n)%nat -> 0 <= u t (nth i v1 0) < 2 ^ bit_num t) by (intros; apply u_range; eapply nth_in_type; eauto).
  assert (Hu2 : forall i, (i < n)%nat -> 0 <= u t (nth i v2 0) < 2 ^ bit_num t) by (intros; apply u_range; eapply nth_in_type; eauto).
  pose proof (bit_num_pos t) as Hw.
  set (K := plv t v1 v2 D) in *.
  assert (HK1 : K <> 0).
  { unfold K, plv. intros E. apply bl_0 in E; [|apply Z.lxor_nonneg; specialize (Hu1 D HD); specialize (Hu2 D HD); lia].
    apply Z.lxor_eq in E. apply u_inj in E. lia. }
  assert (HK0 : 0 <= K) by apply bl_nonneg.
  assert (HKw : K <= bit_num t).
  { unfold K, plv. apply bl_le; [apply Z.lxor_nonneg; specialize (Hu1 D HD); specialize (Hu2 D HD); lia|lia|]. apply lxor_range; auto; lia. }
  assert (Hag : forall i k, (i < n)%nat -> 0 <= k -> (plv t v1 v2 i <= k <-> u t (nth i v1 0) / 2 ^ k = u t (nth i v2 0) / 2 ^ k)).
  { intros i k Hi Hk. unfold plv. apply bl_xor_le; [auto|apply Hu1; auto|apply Hu2; auto]. }
  assert (Hbits : Z.testbit (u t (nth D v1 0)) (K - 1) = false /\ Z.testbit (u t (nth D v2 0)) (K - 1) = true).
  { apply bit_decides; [lia|apply Hu1; auto| | |unfold u; lia].
    - replace (K - 1 + 1) with K by lia. apply Hag; auto; unfold K; lia.
    - rewrite <- Hag by (auto; lia). unfold K. lia. }
  apply (zlex_intro t n v1 v2 (Z.to_nat (K - 1)) D); try (destruct H1, H2; lia).
  - intros i k Hi Hk. apply (div_testbit _ _ K); [lia|]. apply Hag; auto.
  - intros i Hi. rewrite Z2Nat.id by lia. apply (div_testbit _ _ (K - 1)); [lia|]. apply Hag; [lia|lia|]. specialize (Hlt i Hi). lia.
  - rewrite Z2Nat.id by lia. tauto.
  - rewrite Z2Nat.id by lia. tauto.
Qed.

Lemma first_max_sym t v1 v2 n D : first_max (plv t v1 v2) n D -> first_max (plv t v2 v1) n D.
Proof.
  assert (E : forall i, plv t v2 v1 i = plv t v1 v2 i) by (intros i; unfold plv; now rewrite Z.lxor_comm).
  intros (H1 & H2 & H3). split; [auto|]. split; intros i Hi; rewrite !E; auto.
Qed.

Lemma cmp_eq t n v1 v2 D : point t n v1 -> point t n v2 -> first_max (plv t v1 v2) n D -> nth D v1 0 = nth D v2 0 -> v1 = v2.
Proof.
  intros H1 H2 (HD & _ & Hle) E. destruct H1 as [L1 F1], H2 as [L2 F2].
  apply nth_ext with (d := 0) (d' := 0); [congruence|]. intros i Hi. rewrite L1 in Hi. specialize (Hle i Hi).
  assert (Hz : plv t v1 v2 D = 0) by (unfold plv; rewrite E, Z.lxor_nilpotent; reflexivity).
  pose proof (u_range t _ (nth_in_type t n v1 i (conj L1 F1) Hi)). pose proof (u_range t _ (nth_in_type t n v2 i (conj L2 F2) Hi)).
  assert (Hn : 0 <= Z.lxor (u t (nth i v1 0)) (u t (nth i v2 0))) by (apply Z.lxor_nonneg; lia).
  rewrite Hz in Hle. unfold plv in Hle. pose proof (bl_nonneg (Z.lxor (u t (nth i v1 0)) (u t (nth i v2 0)))).
  assert (Hbz : bl (Z.lxor (u t (nth i v1 0)) (u t (nth i v2 0))) = 0) by lia.
  apply bl_0 in Hbz; auto. apply Z.lxor_eq in Hbz. now apply u_inj in Hbz.
Qed.

(** ** C28 *)
Lemma zorder_lemma t n v1 v2 : point t n v1 -> point t n v2 -> (0 < n)%nat -> Z.of_nat n <= 2 ^ bit_num t ->
  exists b, mortonCmpInt t v1 v2 = Ret b /\ (b = true <-> lex_lt (zkey t v1) (zkey t v2)) /\ (b = false <-> v1 = v2 \/ lex_lt (zkey t v2) (zkey t v1)).
Proof.
  intros H1 H2 Hn Hw. destruct (mortonCmp_char t n v1 v2 H1 H2 Hn Hw) as (D & HD & E). rewrite E.
  eexists. split; [reflexivity|].
  destruct (Z.ltb_spec (nth D v1 0) (nth D v2 0)) as [Hlt|Hge].
  - pose proof (cmp_true_lex t n v1 v2 D H1 H2 HD Hlt) as HL. split; [tauto|]. split; [discriminate|].
    intros [->|H]; [now apply lex_irrefl in HL|now apply lex_asym in HL].
  - destruct (Z.eq_dec (nth D v1 0) (nth D v2 0)) as [Heq|Hne].
    + rewrite (cmp_eq t n v1 v2 D H1 H2 HD Heq). split; [|tauto]. split; [discriminate|]. intros H. now apply lex_irrefl in H.
    + assert (HL : lex_lt (zkey t v2) (zkey t v1)).
      { apply (cmp_true_lex t n v2 v1 D); auto; [now apply first_max_sym|lia]. }
      split; [|tauto]. split; [discriminate|]. intros H. now apply lex_asym in H.
Qed.

Lemma total_order_lemma t n : (0 < n)%nat -> Z.of_nat n <= 2 ^ bit_num t ->
  (forall a, point t n a -> mortonCmpInt t a a = Ret false) /\
  (forall a b c, point t n a -> point t n b -> point t n c -> mortonCmpInt t a b = Ret true -> mortonCmpInt t b c = Ret true -> mortonCmpInt t a c = Ret true) /\
  (forall a b, point t n a -> point t n b -> a <> b ->
     (mortonCmpInt t a b = Ret true /\ mortonCmpInt t b a = Ret false) \/ (mortonCmpInt t a b = Ret false /\ mortonCmpInt t b a = Ret true)).
Proof.
  intros Hn Hw. assert (Z := fun v1 v2 H1 H2 => zorder_lemma t n v1 v2 H1 H2 Hn Hw).
  split; [|split].
  - intros a Ha. destruct (Z a a Ha Ha) as (b & E & H1 & H2). rewrite E. f_equal. apply H2. auto.
  - intros a b c Ha Hb Hc Eab Ebc. destruct (Z a b Ha Hb) as (b1 & E1 & H1 & _). destruct (Z b c Hb Hc) as (b2 & E2 & H2 & _).
    destruct (Z a c Ha Hc) as (b3 & E3 & H3 & _). rewrite E3. f_equal. apply H3.
    apply lex_trans with (zkey t b); [apply H1; congruence|apply H2; congruence].
  - intros a b Ha Hb Hne. destruct (Z a b Ha Hb) as (b1 & E1 & H1 & H1'). destruct (Z b a Hb Ha) as (b2 & E2 & H2 & H2').
    rewrite E1, E2. destruct b1.
    + left. split; [auto|]. f_equal. apply H2'. right. now apply H1.
    + right. split; [auto|]. f_equal. apply H2. destruct H1' as [H1' _]. destruct (H1' eq_refl); [congruence|auto].
Qed.

(** 8-bit coordinates and 257 dimensions: lastDim wraps to 0. *)
Lemma wide_refuted_lemma : exists n a b, point U8 n a /\ point U8 n b /\ a <> b /\ mortonCmpInt U8 a b = Ret false /\ mortonCmpInt U8 b a = Ret false.
Proof.
  assert (Ha : point U8 257 (repeat 0 257)) by (split; [reflexivity|apply Forall_forall; intros x Hx; apply repeat_spec in Hx; subst; unfold in_type; cbn; lia]).
  assert (Hb : point U8 257 (repeat 0 256 ++ [1])).
  { split; [reflexivity|]. apply Forall_app. split; [apply Forall_forall; intros x Hx; apply repeat_spec in Hx; subst; unfold in_type; cbn; lia|].
    repeat constructor; cbn; lia. }
  exists 257%nat, (repeat 0 257), (repeat 0 256 ++ [1]). split; [auto|]. split; [auto|]. split; [vm_compute; discriminate|].
  split; vm_compute; reflexivity.
Qed.

(** ** C29 *)
Definition mstep (f : Z * Z -> Z) (a : Z) (p : Z * Z) : Z := let b := f p in if a <? b then b else a.

Lemma fold_max_ge f l : forall m, m <= fold_left (mstep f) l m /\ (forall p, In p l -> f p <= fold_left (mstep f) l m) /\
  (fold_left (mstep f) l m = m \/ exists p, In p l /\ fold_left (mstep f) l m = f p).
Proof.
  induction l as [|p l IH]; intros m; cbn [fold_left].
  - split; [lia|]. split; [intros q []|auto].
  - destruct (IH (mstep f m p)) as (H1 & H2 & H3).
    assert (Hm : m <= mstep f m p /\ f p <= mstep f m p /\ (mstep f m p = m \/ mstep f m p = f p)).
    { unfold mstep. cbv zeta. destruct (Z.ltb_spec m (f p)); lia. }
    destruct Hm as (M1 & M2 & M3).
    split; [lia|]. split; [intros q [<-|Hq]; [lia|auto]|].
    destruct H3 as [H3|(q & Hq & H3)]; [|right; exists q; simpl; auto].
    destruct M3 as [M3|M3]; [left; congruence|right; exists p; simpl; split; [auto|congruence]].
Qed.

Lemma distance_le t n v1 v2 k : point t n v1 -> point t n v2 -> 0 <= k ->
  (mortonDistanceInt t v1 v2 <= k <-> forall i, (i < n)%nat -> u t (nth i v1 0) / 2 ^ k = u t (nth i v2 0) / 2 ^ k).
Proof.
  intros H1 H2 Hk. destruct (combine_ok t n v1 v2 H1 H2) as [Hc Hl]. change (mortonDistanceInt t v1 v2) with (fold_left (mstep (fun xy => level t (fst xy) (snd xy))) (combine v1 v2) 0).
  destruct (fold_max_ge (fun xy => level t (fst xy) (snd xy)) (combine v1 v2) 0) as (G0 & G1 & G2).
  assert (Hlev : forall i, (i < n)%nat -> level t (nth i v1 0) (nth i v2 0) <= k <-> u t (nth i v1 0) / 2 ^ k = u t (nth i v2 0) / 2 ^ k).
  { intros i Hi. rewrite level_bl by (eapply nth_in_type; eauto). apply bl_xor_le; auto; apply u_range; eapply nth_in_type; eauto. }
  assert (Hnth : forall i, (i < n)%nat -> nth i (combine v1 v2) (0, 0) = (nth i v1 0, nth i v2 0)) by (intros; apply combine_nth; destruct H1, H2; lia).
  split.
  - intros H i Hi. apply Hlev; auto. specialize (G1 (nth i v1 0, nth i v2 0)). cbn [fst snd] in G1.
    assert (In (nth i v1 0, nth i v2 0) (combine v1 v2)) by (rewrite <- Hnth by auto; apply nth_In; lia).
    specialize (G1 H0). lia.
  - intros H. destruct G2 as [G2|(p & Hp & G2)]; [lia|]. rewrite G2.
    apply In_nth with (d := (0, 0)) in Hp as (i & Hi & <-). rewrite Hnth by lia. cbn [fst snd]. apply Hlev; [lia|]. apply H. lia.
Qed.

Lemma distance_nonneg t v1 v2 : 0 <= mortonDistanceInt t v1 v2.
Proof. apply (fold_max_ge (fun xy => level t (fst xy) (snd xy))). Qed.

Lemma distance_lemma t n a b c : point t n a -> point t n b -> point t n c ->
  mortonDistanceInt t a b = mortonDistanceInt t b a /\
  (mortonDistanceInt t a b = 0 <-> a = b) /\
  mortonDistanceInt t a c <= Z.max (mortonDistanceInt t a b) (mortonDistanceInt t b c) /\
  0 <= mortonDistanceInt t a b <= bit_num t.
Proof.
  intros Ha Hb Hc. pose proof (distance_nonneg t a b) as N1. pose proof (distance_nonneg t b a) as N2. pose proof (distance_nonneg t b c) as N3.
  assert (Hsym : forall v1 v2, point t n v1 -> point t n v2 -> mortonDistanceInt t v1 v2 <= mortonDistanceInt t v2 v1).
  { intros v1 v2 H1 H2. apply (distance_le t n); auto; [apply distance_nonneg|]. intros i Hi. symmetry.
    apply (distance_le t n v2 v1 (mortonDistanceInt t v2 v1)); auto; [apply distance_nonneg|lia]. }
  split; [apply Z.le_antisymm; apply Hsym; auto|]. split; [|split].
  - split.
    + intros E. assert (Hz : mortonDistanceInt t a b <= 0) by lia. rewrite (distance_le t n a b 0) in Hz by (auto; lia).
      destruct Ha as [La Fa], Hb as [Lb Fb]. apply nth_ext with (d := 0) (d' := 0); [congruence|]. intros i Hi. rewrite La in Hi.
      specialize (Hz i Hi). rewrite !Z.div_1_r in Hz. now apply u_inj in Hz.
    + intros ->. apply Z.le_antisymm; [|apply distance_nonneg]. apply (distance_le t n); auto. lia.
  - apply (distance_le t n); auto; [lia|]. intros i Hi. transitivity (u t (nth i b 0) / 2 ^ Z.max (mortonDistanceInt t a b) (mortonDistanceInt t b c)).
    + apply (distance_le t n a b); auto; lia.
    + apply (distance_le t n b c); auto; lia.
  - split; [auto|]. pose proof (bit_num_pos t). apply (distance_le t n); auto; [lia|]. intros i Hi.
    rewrite !Z.div_small; auto; apply u_range; eapply nth_in_type; eauto.
Qed.

(** ** C30 *)
Definition blo (t : ity) (p : Z * Z) : Z := let K := bl (Z.lxor (u t (fst p)) (u t (snd p))) in tmin t + 2 ^ K * (u t (fst p) / 2 ^ K).
Definition bmi (t : ity) (p : Z * Z) : Z := blo t p + 2 ^ (bl (Z.lxor (u t (fst p)) (u t (snd p))) - 1).
Definition bup (t : ity) (p : Z * Z) : Z := blo t p + 2 ^ bl (Z.lxor (u t (fst p)) (u t (snd p))) - 1.

Lemma land_lnot_mask a k : 0 <= k -> Z.land a (Z.lnot (2 ^ k - 1)) = 2 ^ k * (a / 2 ^ k).
Proof.
  intros Hk. replace (2 ^ k - 1) with (Z.ones k) by (rewrite Z.ones_equiv; lia).
  rewrite <- Z.ldiff_land, Z.ldiff_ones_r, Z.shiftl_mul_pow2, Z.shiftr_div_pow2 by auto. lia.
Qed.

Lemma lor_low q k m : 0 <= k -> 0 <= m < 2 ^ k -> Z.lor (2 ^ k * q) m = 2 ^ k * q + m.
Proof.
  intros Hk Hm. assert (Hz : Z.land (2 ^ k * q) m = 0).
  { apply Z.bits_inj'. intros i Hi. rewrite Z.land_spec, Z.testbit_0_l. destruct (Z.lt_ge_cases i k).
    - rewrite Z.mul_comm, Z.mul_pow2_bits_low by lia. reflexivity.
    - replace (Z.testbit m i) with false; [apply andb_false_r|]. symmetry. destruct (Z.eq_dec m 0) as [->|]; [apply Z.testbit_0_l|].
      apply Z.bits_above_log2; [lia|]. enough (Z.log2 m < k) by lia. apply Z.log2_lt_pow2; lia. }
  rewrite Z.add_nocarry_lxor by auto. symmetry. apply Z.lxor_lor. auto.
Qed.

Lemma shl1_small s : 0 <= s <= 30 -> shl1 s = Ret (2 ^ s).
Proof.
  intros H. unfold shl1. destruct (Z.ltb_spec s 0); [lia|]. destruct (Z.leb_spec 32 s); [lia|]. destruct (Z.eqb_spec s 31); [lia|]. reflexivity.
Qed.

Definition plevel (t : ity) (p : Z * Z) : Z := bl (Z.lxor (u t (fst p)) (u t (snd p))).

Definition splittable (t : ity) (p : Z * Z) : Prop := (1 <= plevel t p <= 30 /\ plevel t p < bit_num t) \/ (plevel t p = bit_num t /\ is_signed t = true).

Lemma plevel_le t p : pair_ok t p -> 0 <= plevel t p <= bit_num t.
Proof.
  intros [H1 H2]. pose proof (u_range t _ H1). pose proof (u_range t _ H2). pose proof (bit_num_pos t). unfold plevel. split; [apply bl_nonneg|].
  apply bl_le; [apply Z.lxor_nonneg; lia|lia|apply lxor_range; lia].
Qed.

Lemma blo_small t p : pair_ok t p -> plevel t p < bit_num t -> blo t p = 2 ^ plevel t p * (fst p / 2 ^ plevel t p).
Proof.
  intros Hp HL. pose proof (plevel_le t p Hp) as HK. unfold blo. fold (plevel t p). set (K := plevel t p) in *. cbv zeta.
  assert (Ht : exists q, tmin t = q * 2 ^ K).
  { replace (tmin t) with (if is_signed t then - 2 ^ (bit_num t - 1) else 0) by (destruct t; reflexivity). destruct (is_signed t).
    - exists (- 2 ^ (bit_num t - 1 - K)). rewrite Z.mul_opp_l, <- Z.pow_add_r by lia. replace (bit_num t - 1 - K + K) with (bit_num t - 1) by lia. reflexivity.
    - exists 0. lia. }
  destruct Ht as [q Hq]. unfold u. rewrite Hq. replace (fst p - q * 2 ^ K) with (fst p + (- q) * 2 ^ K) by lia. rewrite Z.div_add by lia. nia.
Qed.

Lemma interval_ok t p : pair_ok t p -> splittable t p -> intervalPow2Int t (fst p) (snd p) = Ret (plevel t p, blo t p, bmi t p, bup t p).
Proof.
  intros Hp Hs. pose proof (plevel_le t p Hp) as HK. unfold intervalPow2Int. destruct Hp as [H1 H2]. rewrite (level_bl t _ _ H1 H2). fold (plevel t p).
  destruct (Z.ltb_spec (plevel t p) (bit_num t)) as [Hlt|Hge].
  - assert (HK2 : 1 <= plevel t p <= 30) by (destruct Hs as [Hs|[Hs _]]; lia).
    pose proof (blo_small t p (conj H1 H2) Hlt) as Eb. unfold bmi, bup. fold (plevel t p).
    set (K := plevel t p) in *. rewrite !shl1_small by lia. cbn [obind].
    assert (0 < 2 ^ K) by lia. destruct (Z.eqb_spec (2 ^ K) (- 2 ^ 31)); [lia|].
    rewrite land_lnot_mask by lia. rewrite !lor_low; [|lia| |lia|].
    + rewrite Eb. f_equal. f_equal. lia.
    + lia.
    + split; [lia|]. apply Z.pow_lt_mono_r; lia.
  - assert (Es : is_signed t = true) by (destruct Hs as [[_ Hs]|[_ Hs]]; [lia|auto]).
    assert (HKw : plevel t p = bit_num t) by lia.
    pose proof (u_range t _ H1) as Hu.
    assert (Eb : blo t p = tmin t) by (unfold blo; fold (plevel t p); cbv zeta; rewrite HKw, Z.div_small by auto; lia).
    unfold bmi, bup. fold (plevel t p). rewrite Eb, HKw. clear -Es. destruct t; try discriminate; reflexivity.
Qed.

Lemma interval_ub t x y : in_type t x -> in_type t y ->
  (intervalPow2Int t x y = UB <-> x = y \/ (31 <= plevel t (x, y) < bit_num t)).
Proof.
  intros H1 H2. pose proof (plevel_le t (x, y) (conj H1 H2)) as HK. unfold intervalPow2Int. rewrite (level_bl t _ _ H1 H2).
  change (bl (Z.lxor (u t x) (u t y))) with (plevel t (x, y)).
  assert (HE : x = y <-> plevel t (x, y) = 0).
  { unfold plevel. cbn [fst snd]. split; [intros ->; now rewrite Z.lxor_nilpotent|]. intros E.
    apply bl_0 in E; [|apply Z.lxor_nonneg; pose proof (u_range t _ H1); pose proof (u_range t _ H2); lia]. apply Z.lxor_eq in E. now apply u_inj in E. }
  rewrite HE. set (K := plevel t (x, y)) in *. destruct (Z.ltb_spec K (bit_num t)) as [Hlt|Hge].
  - destruct (Z.lt_ge_cases K 31).
    + rewrite shl1_small by lia. cbn [obind]. assert (0 < 2 ^ K) by lia. destruct (Z.eqb_spec (2 ^ K) (- 2 ^ 31)); [lia|].
      destruct (Z.eq_dec K 0) as [E0|].
      * rewrite E0. cbn. tauto.
      * rewrite shl1_small by lia. cbn [obind]. split; [discriminate|lia].
    + split; [lia|]. intros _. destruct (Z.eq_dec K 31) as [->|]; [reflexivity|]. unfold shl1.
      destruct (Z.ltb_spec K 0); [lia|]. destruct (Z.leb_spec 32 K); [|lia]. reflexivity.
  - split; [discriminate|]. pose proof (bit_num_pos t). lia.
Qed.

Lemma share_iff t k x y : 0 <= k -> in_type t x -> in_type t y -> (share_block t k x y <-> u t x / 2 ^ k = u t y / 2 ^ k).
Proof.
  intros Hk H1 H2. assert (0 < 2 ^ k) by lia. split.
  - intros (lo & [_ [q Hq]] & [B1 B2] & [B3 B4]).
    assert (E : forall z, lo <= z < lo + 2 ^ k -> u t z / 2 ^ k = q).
    { intros z Hz. symmetry. apply (Z.div_unique _ _ _ (z - lo)); unfold u; lia. }
    rewrite !E by lia. reflexivity.
  - intros E. exists (tmin t + 2 ^ k * (u t x / 2 ^ k)). 
    pose proof (Z.div_mod (u t x) (2 ^ k) ltac:(lia)) as D1. pose proof (Z.div_mod (u t y) (2 ^ k) ltac:(lia)) as D2.
    pose proof (Z.mod_pos_bound (u t x) (2 ^ k) ltac:(lia)). pose proof (Z.mod_pos_bound (u t y) (2 ^ k) ltac:(lia)).
    split; [split; [auto|]; exists (u t x / 2 ^ k); lia|]. rewrite <- E in D2. unfold in_block, u in *. lia.
Qed.

Lemma block_lemma t p : pair_ok t p -> fst p <> snd p -> block_ok t (fst p) (snd p) (blo t p) (bmi t p) (bup t p).
Proof.
  intros Hp Hne. pose proof (plevel_le t p Hp) as HK. destruct Hp as [H1 H2].
  pose proof (u_range t _ H1) as U1. pose proof (u_range t _ H2) as U2.
  exists (plevel t p). unfold bmi, bup, blo. fold (plevel t p). cbv zeta.
  assert (Hag : forall k, 0 <= k -> (plevel t p <= k <-> u t (fst p) / 2 ^ k = u t (snd p) / 2 ^ k)) by (intros; apply bl_xor_le; lia).
  assert (HK1 : plevel t p <> 0).
  { intros E. pose proof (proj1 (Hag 0 ltac:(lia)) ltac:(lia)) as E2. rewrite !Z.div_1_r in E2. apply u_inj in E2. auto. }
  pose proof (proj1 (Hag (plevel t p) ltac:(lia)) ltac:(lia)) as EK.
  split; [split|split; [lia|]].
  - apply share_iff; auto; lia.
  - intros k' H. assert (0 <= k') by (destruct H as (? & [? _] & _); auto). apply share_iff in H; auto. now apply Hag.
  - set (K := plevel t p) in *. set (A := u t (fst p)) in *. set (B := u t (snd p)) in *.
    pose proof (Z.div_mod A (2 ^ K) ltac:(lia)) as D1. pose proof (Z.div_mod B (2 ^ K) ltac:(lia)) as D2.
    pose proof (Z.mod_pos_bound A (2 ^ K) ltac:(lia)). pose proof (Z.mod_pos_bound B (2 ^ K) ltac:(lia)).
    rewrite <- EK in D2. split; [split; [lia|]; exists (A / 2 ^ K); lia|]. unfold in_block. unfold A, B, u in *. lia.
Qed.

Lemma interval_spec t x y : in_type t x -> in_type t y -> x <> y ->
  (forall k, span t x y k -> (k <= 30 /\ k < bit_num t) \/ (k = bit_num t /\ is_signed t = true)) ->
  exists lev low mid upp, intervalPow2Int t x y = Ret (lev, low, mid, upp) /\ span t x y lev /\ block_ok t x y low mid upp.
Proof.
  intros H1 H2 Hne H. pose proof (block_lemma t (x, y) (conj H1 H2) Hne) as Hb.
  assert (Hsp : span t x y (plevel t (x, y))).
  { pose proof (plevel_le t (x, y) (conj H1 H2)). pose proof (u_range t _ H1). pose proof (u_range t _ H2).
    assert (Hag : forall k, 0 <= k -> (plevel t (x, y) <= k <-> u t x / 2 ^ k = u t y / 2 ^ k)) by (intros; apply bl_xor_le; lia).
    split; [apply share_iff; auto; [lia|]; apply Hag; lia|].
    intros k' Hk'. assert (0 <= k') by (destruct Hk' as (? & [? _] & _); auto). apply share_iff in Hk'; auto. now apply Hag. }
  exists (plevel t (x, y)), (blo t (x, y)), (bmi t (x, y)), (bup t (x, y)). split; [|split; auto].
  apply (interval_ok t (x, y)); [split; auto|]. destruct (H _ Hsp) as [[Hk Hk']|Hk]; [left|right; auto]. split; [|auto]. split; [|auto].
  destruct Hb as (k & [_ Hk2] & Hk1 & _). specialize (Hk2 _ (proj1 Hsp)). lia.
Qed.

(** ** C31 *)
Lemma first_max_ex f n : (0 < n)%nat -> exists D, first_max f n D.
Proof.
  induction n as [|n IH]; [lia|]. intros _. destruct (Nat.eq_dec n 0) as [->|].
  - exists O. split; [lia|]. split; [lia|]. intros i Hi. replace i with O by lia. lia.
  - destruct IH as (D & H1 & H2 & H3); [lia|]. destruct (Z.lt_ge_cases (f D) (f n)).
    + exists n. split; [lia|]. split; intros i Hi; [specialize (H3 i ltac:(lia)); lia|].
      destruct (Nat.eq_dec i n) as [->|]; [lia|]. specialize (H3 i ltac:(lia)). lia.
    + exists D. split; [lia|]. split; [auto|]. intros i Hi. destruct (Nat.eq_dec i n) as [->|]; [lia|]. apply H3. lia.
Qed.

Lemma zmono t n a b : (0 < n)%nat -> point t n a -> point t n b -> (forall i, (i < n)%nat -> nth i a 0 <= nth i b 0) -> ~ lex_lt (zkey t b) (zkey t a).
Proof.
  intros Hn Ha Hb H HL. destruct (first_max_ex (plv t a b) n Hn) as (D & HD).
  destruct (Z.eq_dec (nth D a 0) (nth D b 0)) as [E|E].
  - rewrite (cmp_eq t n a b D Ha Hb HD E) in HL. now apply lex_irrefl in HL.
  - apply lex_asym in HL. apply HL. apply (cmp_true_lex t n a b D); auto. specialize (H D (proj1 HD)). lia.
Qed.

Lemma lset_app_end {A} (l : list A) x y : lset (l ++ [x]) (length l) y = l ++ [y].
Proof. induction l; simpl; [reflexivity|]. now rewrite IHl. Qed.

Lemma lset_app_l {A} (l : list A) r i y : (i < length l)%nat -> lset (l ++ r) i y = lset l i y ++ r.
Proof. revert i. induction l; intros [|i] Hi; simpl in *; try lia; [reflexivity|]. rewrite IHl by lia. reflexivity. Qed.

Lemma lset_back {A} (l : list A) i x y : nth_error l i = Some x -> lset (lset l i y) i x = l.
Proof. revert i. induction l; intros [|i] H; simpl in *; try discriminate; [congruence|]. now rewrite IHl. Qed.

Lemma split_loop_spec t r : forall P D, Forall (pair_ok t) (P ++ r) -> Forall (splittable t) (P ++ r) ->
  first_max (fun i => plevel t (nth i P (0, 0))) (length P) D ->
  exists D', split_loop t r D (plevel t (nth D P (0, 0))) (map (blo t) P) (lset (map (blo t) P) D (bmi t (nth D P (0, 0)))) (map (bup t) P)
    = Ret (map (blo t) (P ++ r), lset (map (blo t) (P ++ r)) D' (bmi t (nth D' (P ++ r) (0, 0))), map (bup t) (P ++ r)) /\
    first_max (fun i => plevel t (nth i (P ++ r) (0, 0))) (length (P ++ r)) D'.
Proof.
  induction r as [|p r IH]; intros P D Hok Hsp HM; pose proof HM as (HD & H1 & H2).
  - exists D. rewrite app_nil_r. split; [reflexivity|auto].
  - replace (P ++ p :: r) with ((P ++ [p]) ++ r) in * by (rewrite <- app_assoc; reflexivity).
    assert (Hlen2 : length (P ++ [p]) = S (length P)) by (rewrite app_length; simpl; lia).
    assert (HokP : pair_ok t p) by (apply Forall_app in Hok as [Hok _]; apply Forall_app in Hok as [_ Hok]; now inversion Hok).
    assert (HspP : splittable t p) by (apply Forall_app in Hsp as [Hsp _]; apply Forall_app in Hsp as [_ Hsp]; now inversion Hsp).
    assert (Hold : forall i, (i < length P)%nat -> nth i (P ++ [p]) (0, 0) = nth i P (0, 0)) by (intros i Hi; now rewrite app_nth1).
    assert (Hnew : nth (length P) (P ++ [p]) (0, 0) = p) by (rewrite app_nth2, Nat.sub_diag by lia; reflexivity).
    destruct p as [x y]. cbn [split_loop]. pose proof (interval_ok t (x, y) HokP HspP) as E. cbn [fst snd] in E. rewrite E. cbn [obind].
    destruct (Z.ltb_spec (plevel t (nth D P (0, 0))) (plevel t (x, y))) as [Hlt|Hge].
    + assert (Hv : nth_error (map (blo t) P) D = Some (blo t (nth D P (0, 0)))) by (rewrite nth_error_map, (nth_error_nth' P (0, 0) HD); reflexivity).
      unfold vread. rewrite Hv. cbn [obind]. rewrite (lset_back _ _ _ _ Hv).
      destruct (IH (P ++ [(x, y)]) (length P) Hok Hsp) as (D' & E' & HM').
      * split; [lia|]. rewrite Hnew. split; intros i Hi.
        -- rewrite Hold by auto. specialize (H2 i Hi). cbv beta in H2. lia.
        -- destruct (Nat.eq_dec i (length P)) as [->|]; [rewrite Hnew; lia|]. rewrite Hold by lia. specialize (H2 i ltac:(lia)). cbv beta in H2. lia.
      * exists D'. split; [|auto]. rewrite <- E'. rewrite Hnew, !map_app. cbn [map]. rewrite <- (map_length (blo t) P) at 2. rewrite lset_app_end, map_length. reflexivity.
    + destruct (IH (P ++ [(x, y)]) D Hok Hsp) as (D' & E' & HM').
      * split; [lia|]. rewrite Hold by auto. split; intros i Hi; [rewrite Hold by lia; auto|].
        destruct (Nat.eq_dec i (length P)) as [->|]; [rewrite Hnew; lia|]. rewrite Hold by lia. apply H2. lia.
      * exists D'. split; [|auto]. rewrite <- E'. rewrite Hold, !map_app by auto. cbn [map]. rewrite lset_app_l by (rewrite map_length; auto). reflexivity.
Qed.

Lemma split_char t n v1 v2 : (0 < n)%nat -> point t n v1 -> point t n v2 -> Forall (splittable t) (combine v1 v2) ->
  exists D, first_max (fun i => plevel t (nth i (combine v1 v2) (0, 0))) n D /\
   mortonSplitInt t v1 v2 = Ret (map (blo t) (combine v1 v2), lset (map (blo t) (combine v1 v2)) D (bmi t (nth D (combine v1 v2) (0, 0))), map (bup t) (combine v1 v2)).
Proof.
  intros Hn H1 H2 Hsp. destruct (combine_ok t n v1 v2 H1 H2) as [Hc Hl]. unfold mortonSplitInt.
  destruct (combine v1 v2) as [|p r]; [simpl in Hl; lia|].
  assert (Hp : pair_ok t p) by now inversion Hc. assert (Hs : splittable t p) by now inversion Hsp.
  pose proof (interval_ok t p Hp Hs) as E. destruct p as [x y]. cbn [fst snd] in E. rewrite E. cbn [obind].
  destruct (split_loop_spec t r [(x, y)] 0) as (D & E' & HM); [auto|auto| |].
  - split; [simpl; lia|]. split; [lia|]. intros i Hi. simpl in Hi. replace i with O by lia. lia.
  - exists D. cbn [app] in *. rewrite Hl in HM. split; [auto|]. exact E'.
Qed.

Lemma nth_lset {A} (l : list A) i j x d : (i < length l)%nat -> nth j (lset l i x) d = if (j =? i)%nat then x else nth j l d.
Proof. revert i j. induction l; intros [|i] [|j] Hi; simpl in *; try lia; try reflexivity. rewrite IHl by lia. reflexivity. Qed.

Lemma bup_in t p : pair_ok t p -> plevel t p <> 0 -> in_type t (blo t p) /\ in_type t (bmi t p) /\ in_type t (bup t p).
Proof.
  intros Hp HK0. pose proof (plevel_le t p Hp) as HK. destruct Hp as [H1 H2]. pose proof (u_range t _ H1) as U1. unfold bmi, bup, blo. fold (plevel t p). cbv zeta.
  set (K := plevel t p) in *. set (A := u t (fst p)) in *.
  assert (HA : 0 <= A / 2 ^ K) by (apply Z.div_pos; lia).
  assert (E : 2 ^ bit_num t = 2 ^ K * 2 ^ (bit_num t - K)) by (rewrite <- Z.pow_add_r by lia; f_equal; lia).
  assert (HB : A / 2 ^ K < 2 ^ (bit_num t - K)) by (apply Z.div_lt_upper_bound; lia).
  assert (Hmx : tmax t = tmin t + 2 ^ bit_num t - 1) by (destruct t; reflexivity).
  assert (EK : 2 ^ K = 2 * 2 ^ (K - 1)) by (rewrite <- Z.pow_succ_r by lia; f_equal; lia).
  unfold in_type. rewrite Hmx, E. nia.
Qed.

Lemma mod_agree q k r : 0 <= k -> 0 <= r < 2 ^ k -> (2 ^ k * q + r) / 2 ^ k = q.
Proof. intros. symmetry. apply (Z.div_unique _ _ _ r); lia. Qed.

Lemma div_mono_exp a b k k' : 0 <= k <= k' -> a / 2 ^ k = b / 2 ^ k -> a / 2 ^ k' = b / 2 ^ k'.
Proof.
  intros Hk E. replace k' with (k + (k' - k)) by lia. rewrite !Z.pow_add_r, <- !Z.div_div by lia. now rewrite E.
Qed.

Lemma split_separates t n p q D mid : (0 < n)%nat -> point t n p -> point t n q -> length mid = n ->
  first_max (plv t p q) n D ->
  (forall i, (i < n)%nat -> plv t p q i <> 0) ->
  (forall i, (i < n)%nat -> nth i mid 0 = if (i =? D)%nat then bmi t (nth i p 0, nth i q 0) else blo t (nth i p 0, nth i q 0)) ->
  nth D p 0 < nth D q 0 ->
  lex_lt (zkey t p) (zkey t mid) /\ ~ lex_lt (zkey t q) (zkey t mid) /\ nth D p 0 < nth D mid 0 <= nth D q 0.
Proof.
  intros Hn Hp Hq Hlm (HD & Hlt & Hle) Hnz Hmid Hpq.
  assert (Hok : forall i, (i < n)%nat -> pair_ok t (nth i p 0, nth i q 0)) by (intros i Hi; split; eapply nth_in_type; eauto).
  assert (Hpl : forall i, plevel t (nth i p 0, nth i q 0) = plv t p q i) by reflexivity.
  assert (Hup : forall i, (i < n)%nat -> 0 <= u t (nth i p 0)) by (intros i Hi; apply u_range; eapply nth_in_type; eauto).
  assert (Huq : forall i, (i < n)%nat -> 0 <= u t (nth i q 0)) by (intros i Hi; apply u_range; eapply nth_in_type; eauto).
  assert (Hag : forall i k, (i < n)%nat -> 0 <= k -> (plv t p q i <= k <-> u t (nth i p 0) / 2 ^ k = u t (nth i q 0) / 2 ^ k)).
  { intros i k Hi Hk. unfold plv. apply bl_xor_le; auto. }
  assert (Hpos : forall i, 0 <= plv t p q i) by (intros; apply bl_nonneg).
  assert (HKle : forall i, (i < n)%nat -> plv t p q i <= bit_num t) by (intros i Hi; apply (plevel_le t _ (Hok i Hi))).
  (* the values of the split point *)
  assert (Hlow : forall i, (i < n)%nat -> i <> D -> u t (nth i mid 0) = 2 ^ plv t p q i * (u t (nth i p 0) / 2 ^ plv t p q i) + 0).
  { intros i Hi HiD. rewrite Hmid by auto. destruct (Nat.eqb_spec i D); [lia|]. unfold blo. cbn [fst snd]. cbv zeta.
    change (bl (Z.lxor (u t (nth i p 0)) (u t (nth i q 0)))) with (plv t p q i). unfold u at 1. lia. }
  assert (HmD : u t (nth D mid 0) = 2 ^ plv t p q D * (u t (nth D p 0) / 2 ^ plv t p q D) + 2 ^ (plv t p q D - 1)).
  { rewrite Hmid by auto. rewrite Nat.eqb_refl. unfold bmi, blo. cbn [fst snd]. cbv zeta.
    change (bl (Z.lxor (u t (nth D p 0)) (u t (nth D q 0)))) with (plv t p q D). unfold u at 1. lia. }
  set (K := plv t p q D) in *.
  assert (HK1 : 1 <= K) by (pose proof (Hnz D HD); pose proof (Hpos D); unfold K in *; lia).
  assert (EK : 2 ^ K = 2 * 2 ^ (K - 1)) by (rewrite <- Z.pow_succ_r by lia; f_equal; lia).
  assert (HKw : K <= bit_num t) by (apply HKle; auto).
  assert (Hlow2 : forall i k, (i < n)%nat -> i <> D -> plv t p q i <= k -> u t (nth i mid 0) / 2 ^ k = u t (nth i p 0) / 2 ^ k).
  { intros i k Hi HiD Hk. apply (div_mono_exp _ _ (plv t p q i)); [pose proof (Hpos i); lia|]. rewrite Hlow by auto. apply mod_agree; [auto|]. pose proof (Hpos i). lia. }
  assert (HmD2 : u t (nth D mid 0) / 2 ^ K = u t (nth D p 0) / 2 ^ K) by (rewrite HmD; apply mod_agree; lia).
  assert (HDne : u t (nth D p 0) / 2 ^ (K - 1) <> u t (nth D q 0) / 2 ^ (K - 1)) by (rewrite <- Hag by (auto; lia); unfold K; lia).
  pose proof (proj1 (Hag D K HD ltac:(lia)) ltac:(unfold K; lia)) as HDeq.
  assert (Hbits : Z.testbit (u t (nth D p 0)) (K - 1) = false /\ Z.testbit (u t (nth D q 0)) (K - 1) = true).
  { apply bit_decides; [lia|auto| |auto|unfold u; lia]. now replace (K - 1 + 1) with K by lia. }
  assert (Hodd : u t (nth D mid 0) / 2 ^ (K - 1) = 2 * (u t (nth D p 0) / 2 ^ K) + 1).
  { symmetry. apply (Z.div_unique _ _ _ 0); [lia|]. rewrite HmD, EK. nia. }
  assert (Hbm : Z.testbit (u t (nth D mid 0)) (K - 1) = true).
  { pose proof (Z.testbit_spec' (u t (nth D mid 0)) (K - 1) ltac:(lia)) as E. rewrite Hodd in E.
    rewrite Z.add_comm, Z.mul_comm, Z.mod_add in E by lia. change (1 mod 2) with 1 in E. destruct (Z.testbit (u t (nth D mid 0)) (K - 1)); [auto|cbn in E; lia]. }
  assert (Hpm : point t n mid).
  { split; [auto|]. apply Forall_forall. intros x Hx. apply In_nth with (d := 0) in Hx as (i & Hi & <-). rewrite Hlm in Hi. rewrite Hmid by auto.
    destruct (bup_in t _ (Hok i Hi)) as (B1 & B2 & B3); [rewrite Hpl; auto|]. destruct (i =? D)%nat; auto. }
  assert (HDm : nth D p 0 < nth D mid 0 <= nth D q 0).
  { clear - HmD HDeq HDne EK HK1 Hpq. unfold u in *.
    pose proof (Z.div_mod (nth D p 0 - tmin t) (2 ^ K) ltac:(lia)) as D1. pose proof (Z.div_mod (nth D q 0 - tmin t) (2 ^ K) ltac:(lia)) as D2.
    pose proof (Z.mod_pos_bound (nth D p 0 - tmin t) (2 ^ K) ltac:(lia)) as M1. pose proof (Z.mod_pos_bound (nth D q 0 - tmin t) (2 ^ K) ltac:(lia)) as M2.
    rewrite <- HDeq in D2.
    set (Q := (nth D p 0 - tmin t) / 2 ^ K) in *. set (R1 := (nth D p 0 - tmin t) mod 2 ^ K) in *. set (R2 := (nth D q 0 - tmin t) mod 2 ^ K) in *.
    assert (Hd : forall R, 0 <= R < 2 ^ K -> (2 ^ K * Q + R) / 2 ^ (K - 1) = 2 * Q + (if R <? 2 ^ (K - 1) then 0 else 1)).
    { intros R HR. symmetry. destruct (Z.ltb_spec R (2 ^ (K - 1))).
      - apply (Z.div_unique _ _ _ R); [lia|]. rewrite EK. ring.
      - apply (Z.div_unique _ _ _ (R - 2 ^ (K - 1))); [lia|]. rewrite EK. ring. }
    rewrite D1, D2, !Hd in HDne by auto.
    destruct (Z.ltb_spec R1 (2 ^ (K - 1))), (Z.ltb_spec R2 (2 ^ (K - 1))); lia. }
  split; [|split].
  - apply (zlex_intro t n p mid (Z.to_nat (K - 1)) D); try (destruct Hp, Hq; lia).
    + intros i k Hi Hk. apply (div_testbit _ _ K); [lia|]. destruct (Nat.eq_dec i D) as [->|]; [auto|]. symmetry. apply Hlow2; auto.
    + intros i Hi. rewrite Z2Nat.id by lia. apply (div_testbit _ _ (K - 1)); [lia|]. symmetry. apply Hlow2; [lia|lia|]. specialize (Hlt i Hi). lia.
    + rewrite Z2Nat.id by lia. tauto.
    + rewrite Z2Nat.id by lia. tauto.
  - apply (zmono t n); auto. intros i Hi. destruct (Nat.eq_dec i D) as [->|HiD]; [lia|].
    specialize (Hlow i Hi HiD). pose proof (proj1 (Hag i (plv t p q i) Hi ltac:(auto)) ltac:(lia)) as E. rewrite E in Hlow.
    pose proof (Z.mul_div_le (u t (nth i q 0)) (2 ^ plv t p q i) ltac:(pose proof (Hpos i); lia)). unfold u in *. lia.
  - auto.
Qed.

Lemma plevel_span t p : pair_ok t p -> span t (fst p) (snd p) (plevel t p).
Proof.
  intros [H1 H2]. pose proof (plevel_le t p (conj H1 H2)). pose proof (u_range t _ H1). pose proof (u_range t _ H2).
  assert (Hag : forall k, 0 <= k -> (plevel t p <= k <-> u t (fst p) / 2 ^ k = u t (snd p) / 2 ^ k)) by (intros; apply bl_xor_le; lia).
  split; [apply share_iff; auto; [lia|]; apply Hag; lia|].
  intros k' Hk'. assert (0 <= k') by (destruct Hk' as (? & [? _] & _); auto). apply share_iff in Hk'; auto. now apply Hag.
Qed.

Lemma span_unique t x y k k' : span t x y k -> span t x y k' -> k = k'.
Proof. intros [H1 H2] [H3 H4]. specialize (H2 _ H3). specialize (H4 _ H1). lia. Qed.

Lemma plevel_nz t p : pair_ok t p -> fst p <> snd p -> 1 <= plevel t p.
Proof.
  intros Hp Hne. pose proof (plevel_span t p Hp) as Hs. destruct (block_lemma t p Hp Hne) as (k & Hk & H1 & _).
  rewrite (span_unique _ _ _ _ _ Hs Hk). auto.
Qed.

Lemma handled_splittable t p : pair_ok t p -> handled t (fst p) (snd p) -> splittable t p.
Proof.
  intros Hp [Hne H]. pose proof (plevel_nz t p Hp Hne). specialize (H _ (plevel_span t p Hp)). unfold splittable. tauto.
Qed.

Lemma interval_lemma t x y : in_type t x -> in_type t y -> handled t x y ->
  exists lev low mid upp, intervalPow2Int t x y = Ret (lev, low, mid, upp) /\ span t x y lev /\ block_ok t x y low mid upp.
Proof. intros H1 H2 [H3 H4]. apply interval_spec; auto. Qed.

Lemma interval_ub_lemma t x y : in_type t x -> in_type t y ->
  (intervalPow2Int t x y = UB <-> x = y \/ exists k, span t x y k /\ 31 <= k < bit_num t).
Proof.
  intros H1 H2. rewrite interval_ub by auto. pose proof (plevel_span t (x, y) (conj H1 H2)) as Hs. cbn [fst snd] in Hs. split; (intros [H|H]; [auto|right]).
  - eauto.
  - destruct H as (k & Hk & Hb). now rewrite (span_unique _ _ _ _ _ Hs Hk).
Qed.

Lemma interval_unsigned_lemma t x y : in_type t x -> in_type t y -> is_signed t = false -> span t x y (bit_num t) ->
  exists low mid upp, intervalPow2Int t x y = Ret (bit_num t, low, mid, upp) /\ low = tmin t /\ upp = tmax t /\ mid = 2 ^ (bit_num t - 1) - 1.
Proof.
  intros H1 H2 Hs Hsp. pose proof (plevel_span t (x, y) (conj H1 H2)) as Hs2. cbn [fst snd] in Hs2.
  pose proof (span_unique _ _ _ _ _ Hs2 Hsp) as E. unfold intervalPow2Int. rewrite (level_bl t _ _ H1 H2).
  change (bl (Z.lxor (u t x) (u t y))) with (plevel t (x, y)). rewrite E, Z.ltb_irrefl. do 3 eexists. split; [reflexivity|]. destruct t; try discriminate; repeat split; reflexivity.
Qed.

Lemma first_max_split t n v1 v2 D : point t n v1 -> point t n v2 -> first_max (plv t v1 v2) n D -> plv t v1 v2 D <> 0 -> split_coord t v1 v2 D.
Proof.
  intros H1 H2 (HD & Hlt & Hle) Hnz.
  assert (Hu1 : forall i, (i < n)%nat -> 0 <= u t (nth i v1 0)) by (intros i Hi; apply u_range; eapply nth_in_type; eauto).
  assert (Hu2 : forall i, (i < n)%nat -> 0 <= u t (nth i v2 0)) by (intros i Hi; apply u_range; eapply nth_in_type; eauto).
  assert (Hag : forall i k, (i < n)%nat -> 0 <= k -> (plv t v1 v2 i <= k <-> u t (nth i v1 0) / 2 ^ k = u t (nth i v2 0) / 2 ^ k)).
  { intros i k Hi Hk. unfold plv. apply bl_xor_le; auto. }
  assert (HK0 : 0 <= plv t v1 v2 D) by apply bl_nonneg. set (K := plv t v1 v2 D) in *.
  destruct H1 as [L1 F1]. split; [lia|]. exists (K - 1). split; [lia|].
  split; [|split].
  - intros i k Hi Hk. apply (div_testbit (u t (nth i v1 0)) (u t (nth i v2 0)) K); [lia|]. apply Hag; [lia|lia|]. apply Hle. lia.
  - intros i Hi. apply (div_testbit (u t (nth i v1 0)) (u t (nth i v2 0)) (K - 1)); [lia|]. apply Hag; [lia|lia|]. specialize (Hlt i Hi). lia.
  - fold (u t (nth D v1 0)) (u t (nth D v2 0)).
    pose proof (proj1 (Hag D K HD ltac:(lia)) ltac:(unfold K; lia)) as E1.
    assert (E2 : u t (nth D v1 0) / 2 ^ (K - 1) <> u t (nth D v2 0) / 2 ^ (K - 1)) by (rewrite <- Hag by (auto; lia); unfold K; lia).
    replace K with (K - 1 + 1) in E1 by lia.
    destruct (Z.lt_trichotomy (u t (nth D v1 0)) (u t (nth D v2 0))) as [G|[G|G]].
    + destruct (bit_decides _ _ (K - 1) ltac:(lia) (Hu1 D HD) E1 E2 G) as [-> ->]. discriminate.
    + now rewrite G in E2.
    + destruct (bit_decides _ _ (K - 1) ltac:(lia) (Hu2 D HD) (eq_sym E1) (not_eq_sym E2) G) as [-> ->]. discriminate.
Qed.

Lemma blo_sym t x y : in_type t x -> in_type t y -> blo t (x, y) = blo t (y, x) /\ bmi t (x, y) = bmi t (y, x).
Proof.
  intros H1 H2. pose proof (u_range t _ H1). pose proof (u_range t _ H2).
  assert (E : blo t (x, y) = blo t (y, x)).
  { unfold blo. cbn [fst snd]. cbv zeta. rewrite (Z.lxor_comm (u t y) (u t x)).
    rewrite (proj1 (bl_xor_le (bl (Z.lxor (u t x) (u t y))) (u t x) (u t y) (bl_nonneg _) ltac:(lia) ltac:(lia))) by lia. reflexivity. }
  split; [auto|]. unfold bmi. rewrite E. cbn [fst snd]. now rewrite (Z.lxor_comm (u t y) (u t x)).
Qed.

Lemma split_lemma t n v1 v2 : (0 < n)%nat -> point t n v1 -> point t n v2 -> (forall i, (i < n)%nat -> handled t (nth i v1 0) (nth i v2 0)) ->
  exists low mid upp, mortonSplitInt t v1 v2 = Ret (low, mid, upp) /\ point t n low /\ point t n mid /\ point t n upp /\
    exists D, split_coord t v1 v2 D /\
    (forall i, (i < n)%nat -> exists m, block_ok t (nth i v1 0) (nth i v2 0) (nth i low 0) m (nth i upp 0) /\ nth i mid 0 = if (i =? D)%nat then m else nth i low 0) /\
    Z.min (nth D v1 0) (nth D v2 0) < nth D mid 0 <= Z.max (nth D v1 0) (nth D v2 0) /\
    (lex_lt (zkey t v1) (zkey t v2) -> lex_lt (zkey t v1) (zkey t mid) /\ ~ lex_lt (zkey t v2) (zkey t mid)) /\
    (lex_lt (zkey t v2) (zkey t v1) -> lex_lt (zkey t v2) (zkey t mid) /\ ~ lex_lt (zkey t v1) (zkey t mid)).
Proof.
  intros Hn H1 H2 Hh. pose proof H1 as [L1 F1]. pose proof H2 as [L2 F2]. destruct (combine_ok t n v1 v2 H1 H2) as [Hc Hl].
  assert (Hnth : forall i, (i < n)%nat -> nth i (combine v1 v2) (0, 0) = (nth i v1 0, nth i v2 0)) by (intros; apply combine_nth; lia).
  assert (Hok : forall i, (i < n)%nat -> pair_ok t (nth i v1 0, nth i v2 0)) by (intros i Hi; split; eapply nth_in_type; eauto).
  assert (Hsp : Forall (splittable t) (combine v1 v2)).
  { apply Forall_forall. intros p Hp. apply In_nth with (d := (0, 0)) in Hp as (i & Hi & <-). rewrite Hl in Hi. rewrite Hnth by auto.
    apply handled_splittable; auto. apply Hh. auto. }
  destruct (split_char t n v1 v2 Hn H1 H2 Hsp) as (D & HM & E).
  assert (HMp : first_max (plv t v1 v2) n D).
  { destruct HM as (A & B & C). split; [auto|]. split; intros i Hi.
    - specialize (B i Hi). cbv beta in B. rewrite !Hnth in B by lia. exact B.
    - specialize (C i Hi). cbv beta in C. rewrite !Hnth in C by lia. exact C. }
  assert (HD : (D < n)%nat) by apply HMp.
  assert (Hnz : forall i, (i < n)%nat -> plv t v1 v2 i <> 0).
  { intros i Hi. pose proof (plevel_nz t _ (Hok i Hi) (proj1 (Hh i Hi))). unfold plevel in H. cbn [fst snd] in H. unfold plv. lia. }
  set (low := map (blo t) (combine v1 v2)) in *. set (mid := lset low D (bmi t (nth D (combine v1 v2) (0, 0)))) in *. set (upp := map (bup t) (combine v1 v2)) in *.
  assert (Ll : length low = n) by (unfold low; rewrite map_length; auto).
  assert (Lm : length mid = n) by (unfold mid; rewrite length_lset; auto).
  assert (Lu : length upp = n) by (unfold upp; rewrite map_length; auto).
  assert (Hlow : forall i, (i < n)%nat -> nth i low 0 = blo t (nth i v1 0, nth i v2 0)).
  { intros i Hi. unfold low. rewrite (nth_indep _ 0 (blo t (0, 0))) by (rewrite map_length; lia). rewrite map_nth, Hnth by auto. reflexivity. }
  assert (Hupp : forall i, (i < n)%nat -> nth i upp 0 = bup t (nth i v1 0, nth i v2 0)).
  { intros i Hi. unfold upp. rewrite (nth_indep _ 0 (bup t (0, 0))) by (rewrite map_length; lia). rewrite map_nth, Hnth by auto. reflexivity. }
  assert (Hmid : forall i, (i < n)%nat -> nth i mid 0 = if (i =? D)%nat then bmi t (nth i v1 0, nth i v2 0) else blo t (nth i v1 0, nth i v2 0)).
  { intros i Hi. unfold mid. rewrite nth_lset by lia. destruct (Nat.eqb_spec i D) as [->|]; [now rewrite Hnth by auto|auto]. }
  assert (Hin : forall i, (i < n)%nat -> in_type t (blo t (nth i v1 0, nth i v2 0)) /\ in_type t (bmi t (nth i v1 0, nth i v2 0)) /\ in_type t (bup t (nth i v1 0, nth i v2 0))).
  { intros i Hi. apply bup_in; [auto|]. apply Hnz. auto. }
  assert (Hpt : forall l, length l = n -> (forall i, (i < n)%nat -> in_type t (nth i l 0)) -> point t n l).
  { intros l Hll H. split; [auto|]. apply Forall_forall. intros x Hx. apply In_nth with (d := 0) in Hx as (i & Hi & <-). apply H. lia. }
  exists low, mid, upp. split; [exact E|].
  split; [apply Hpt; auto; intros i Hi; rewrite Hlow by auto; apply Hin; auto|].
  split; [apply Hpt; auto; intros i Hi; rewrite Hmid by auto; destruct (i =? D)%nat; apply Hin; auto|].
  split; [apply Hpt; auto; intros i Hi; rewrite Hupp by auto; apply Hin; auto|].
  exists D. split; [apply (first_max_split t n); auto|]. split.
  { intros i Hi. exists (bmi t (nth i v1 0, nth i v2 0)). rewrite Hlow, Hupp by auto. split; [apply (block_lemma t (nth i v1 0, nth i v2 0)); auto; apply (Hh i Hi)|auto]. }
  assert (HDne : nth D v1 0 <> nth D v2 0) by (apply (Hh D HD)).
  destruct (Z.lt_ge_cases (nth D v1 0) (nth D v2 0)) as [Hlt|Hge].
  - destruct (split_separates t n v1 v2 D mid Hn H1 H2 Lm HMp Hnz Hmid Hlt) as (S1 & S2 & S3).
    pose proof (cmp_true_lex t n v1 v2 D H1 H2 HMp Hlt) as HL. split; [lia|]. split; [auto|]. intros HL2. now apply lex_asym in HL.
  - assert (Hmid2 : forall i, (i < n)%nat -> nth i mid 0 = if (i =? D)%nat then bmi t (nth i v2 0, nth i v1 0) else blo t (nth i v2 0, nth i v1 0)).
    { intros i Hi. rewrite Hmid by auto. destruct (blo_sym t (nth i v1 0) (nth i v2 0)) as [-> ->]; [apply (Hok i Hi)|apply (Hok i Hi)|]. reflexivity. }
    assert (Hnz2 : forall i, (i < n)%nat -> plv t v2 v1 i <> 0) by (intros i Hi; unfold plv; rewrite Z.lxor_comm; apply Hnz; auto).
    destruct (split_separates t n v2 v1 D mid Hn H2 H1 Lm (first_max_sym _ _ _ _ _ HMp) Hnz2 Hmid2 ltac:(lia)) as (S1 & S2 & S3).
    pose proof (cmp_true_lex t n v2 v1 D H2 H1 (first_max_sym _ _ _ _ _ HMp) ltac:(lia)) as HL. split; [lia|]. split; [|auto]. intros HL2. now apply lex_asym in HL.
Qed.

(** A coordinate on which the points agree makes the split undefined. *)
Lemma split_loop_ub t r : forall ds lev low mid upp, Forall (pair_ok t) r -> length low = length mid -> (ds < length low)%nat ->
  (exists p, In p r /\ fst p = snd p) -> split_loop t r ds lev low mid upp = UB.
Proof.
  induction r as [|[x y] r IH]; intros ds lev low mid upp Hok Hl Hd (p & Hp & E); [destruct Hp|].
  cbn [split_loop]. inversion Hok as [|? ? [Hx Hy] Hok']; subst. cbn [fst snd] in *.
  destruct (intervalPow2Int t x y) as [[[[lv' lo] mi] up]| | |] eqn:EI; cbn [obind]; try reflexivity.
  - destruct Hp as [<-|Hp].
    + exfalso. cbn [fst snd] in E. subst y. destruct (interval_ub t x x Hx Hx) as [_ H]. rewrite H in EI by auto. discriminate.
    + destruct (Z.ltb_spec lev lv').
      * unfold vread. destruct (nth_error low ds) eqn:En; [|apply nth_error_None in En; lia]. cbn [obind]. apply IH; eauto; rewrite !app_length, ?length_lset; simpl; lia.
      * apply IH; eauto; rewrite !app_length; simpl; lia.
  - exfalso. unfold intervalPow2Int, shl1 in EI. revert EI. repeat (match goal with |- context [if ?c then _ else _] => destruct c end; cbn [obind]); discriminate.
  - exfalso. unfold intervalPow2Int, shl1 in EI. revert EI. repeat (match goal with |- context [if ?c then _ else _] => destruct c end; cbn [obind]); discriminate.
Qed.

Lemma split_ub_lemma t n v1 v2 : point t n v1 -> point t n v2 -> (exists i, (i < n)%nat /\ nth i v1 0 = nth i v2 0) -> mortonSplitInt t v1 v2 = UB.
Proof.
  intros H1 H2 (i & Hi & E). destruct (combine_ok t n v1 v2 H1 H2) as [Hc Hl].
  assert (Hin : exists p, In p (combine v1 v2) /\ fst p = snd p).
  { exists (nth i (combine v1 v2) (0, 0)). split; [apply nth_In; lia|]. rewrite combine_nth by (destruct H1, H2; lia). auto. }
  unfold mortonSplitInt. destruct (combine v1 v2) as [|[x y] r]; [reflexivity|].
  inversion Hc as [|? ? [Hx Hy] Hok']; subst. cbn [fst snd] in *.
  destruct Hin as (p & [<-|Hp] & Ep).
  - cbn [fst snd] in Ep. subst y. destruct (interval_ub t x x Hx Hx) as [_ H]. rewrite H by auto. reflexivity.
  - destruct (intervalPow2Int t x y) as [[[[lv' lo] mi] up]| | |] eqn:EI; cbn [obind]; try reflexivity.
    + apply split_loop_ub; eauto; simpl; lia.
    + exfalso. unfold intervalPow2Int, shl1 in EI. revert EI. repeat (match goal with |- context [if ?c then _ else _] => destruct c end; cbn [obind]); discriminate.
    + exfalso. unfold intervalPow2Int, shl1 in EI. revert EI. repeat (match goal with |- context [if ?c then _ else _] => destruct c end; cbn [obind]); discriminate.
Qed.

Lemma handled_compute t x y : pair_ok t (x, y) -> splittable t (x, y) -> handled t x y.
Proof.
  intros Hp Hs. pose proof (plevel_span t (x, y) Hp) as Hsp. cbn [fst snd] in Hsp. split.
  - intros ->. unfold splittable, plevel in Hs. cbn [fst snd] in Hs. rewrite Z.lxor_nilpotent in Hs. change (bl 0) with 0 in Hs. pose proof (bit_num_pos t). lia.
  - intros k Hk. rewrite (span_unique _ _ _ _ _ Hk Hsp). unfold splittable in Hs. tauto.
Qed.

Lemma interval_refuted_lemma :
  (exists t x, in_type t x /\ intervalPow2Int t x x = UB) /\
  (exists t x y, in_type t x /\ in_type t y /\ x <> y /\ intervalPow2Int t x y = UB) /\
  (exists x y lev low mid upp, in_type U8 x /\ in_type U8 y /\ intervalPow2Int U8 x y = Ret (lev, low, mid, upp) /\ 2 * mid <> low + upp + 1).
Proof.
  split; [|split].
  - exists I32, 5. split; [split; discriminate|reflexivity].
  - exists I32, 0, (2 ^ 30). split; [split; discriminate|]. split; [split; discriminate|]. split; [discriminate|reflexivity].
  - exists 0, 255, 8, 0, 127, 255. split; [split; discriminate|]. split; [split; discriminate|]. split; [reflexivity|discriminate].
Qed.

Lemma split_refuted_lemma : exists v1 v2, point I32 2 v1 /\ point I32 2 v2 /\ v1 <> v2 /\ mortonSplitInt I32 v1 v2 = UB.
Proof.
  exists [9; 3], [13; 3]. repeat split; try reflexivity; try discriminate; repeat constructor; cbn; discriminate.
Qed.
