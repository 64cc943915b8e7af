(** * Proofs about integer parameters. *)
From Coq Require Import List ZArith Bool Lia.
From Verif Require Import Base ParamModel ParamSpec ParamProofs ParamIntModel ParamIntSpec.
Import ListNotations.
Open Scope Z_scope.

Definition digit (c : Z) : Prop := 48 <= c <= 57.
(** Value of digits, last first. *)
Fixpoint rval (l : str) : Z := match l with [] => 0 | c :: r => (c - 48) + 10 * rval r end.

Lemma rval_nonneg l : Forall digit l -> 0 <= rval l.
Proof. induction 1 as [|c r H F IH]; cbn [rval]; [lia|unfold digit in H; lia]. Qed.

Lemma denotes_rval s n : denotes s n <-> s <> [] /\ Forall digit s /\ n = rval (rev s).
Proof.
  split.
  - induction 1 as [d H|s n d D [N [F E]] H].
    + split; [discriminate|]. split; [constructor; [unfold digit; lia|constructor]|]. cbn [rev app rval]. lia.
    + split; [destruct s; discriminate|]. split.
      * apply Forall_app. split; [exact F|constructor; [unfold digit; lia|constructor]].
      * rewrite rev_app_distr. cbn [rev app rval]. lia.
  - revert n. induction s as [|c s IH] using rev_ind; intros n [N [F E]]; [congruence|].
    apply Forall_app in F. destruct F as [F Fc]. apply Forall_inv in Fc. unfold digit in Fc.
    rewrite rev_app_distr in E. cbn [rev app rval] in E.
    replace c with (48 + (c - 48)) by lia.
    destruct s as [|x s'].
    + cbn [rev rval] in E. cbn [app]. replace n with (c - 48) by lia. constructor. lia.
    + replace n with (10 * rval (rev (x :: s')) + (c - 48)) by lia. constructor; [|lia].
      apply IH. split; [discriminate|]. split; [exact F|reflexivity].
Qed.

Lemma denotes_fun s n m : denotes s n -> denotes s m -> n = m.
Proof. intros A B. apply denotes_rval in A, B. destruct A as [_ [_ ->]], B as [_ [_ ->]]. reflexivity. Qed.
Lemma denotes_nonneg s n : denotes s n -> 0 <= n.
Proof. intros A. apply denotes_rval in A. destruct A as [_ [F ->]]. apply rval_nonneg, Forall_rev, F. Qed.
Lemma denotes_head s n : denotes s n -> exists c r, s = c :: r /\ digit c.
Proof. intros A. apply denotes_rval in A. destruct A as [N [F _]]. destruct s as [|c r]; [congruence|]. exists c, r. split; [reflexivity|]. exact (Forall_inv F). Qed.

Lemma UMAX_val : UMAX = 4294967295. Proof. reflexivity. Qed.

Lemma lcast_loop_spec l : forall m mult ovf value v, 1 <= m -> (ovf = false -> mult = m /\ m <= UMAX) -> (ovf = true -> m > UMAX) ->
  0 <= value <= UMAX ->
  (lcast_loop mult ovf value l = Some v <-> Forall digit l /\ v = value + 10 * m * rval l /\ v <= UMAX).
Proof.
  induction l as [|c r IH]; intros m mult ovf value v M1 Hf Ht Hv.
  - cbn [lcast_loop rval]. split.
    + intros E. injection E as <-. split; [constructor|]. lia.
    + intros [_ [-> _]]. f_equal. lia.
  - cbn [lcast_loop rval]. rewrite UMAX_val in *.
    set (ovf' := ovf || (4294967295 / 10 <? mult)).
    set (mult' := (mult * 10) mod (4294967295 + 1)).
    assert (HF : ovf' = false -> mult' = 10 * m /\ 10 * m <= 4294967295).
    { unfold ovf'. intros E. apply orb_false_iff in E. destruct E as [E1 E2]. apply Z.ltb_ge in E2.
      destruct (Hf E1) as [-> _]. change (4294967295 / 10) with 429496729 in E2.
      unfold mult'. rewrite Z.mod_small by lia. lia. }
    assert (HT : ovf' = true -> 10 * m > 4294967295).
    { unfold ovf'. intros E. destruct ovf; [specialize (Ht eq_refl); lia|]. cbn [orb] in E. apply Z.ltb_lt in E.
      destruct (Hf eq_refl) as [-> _]. change (4294967295 / 10) with 429496729 in E. lia. }
    destruct (c <? 48) eqn:C1.
    { cbn [orb]. apply Z.ltb_lt in C1. split; [discriminate|]. intros [F _]. apply Forall_inv in F. unfold digit in F. lia. }
    destruct (58 <=? c) eqn:C2.
    { cbn [orb]. apply Z.leb_le in C2. split; [discriminate|]. intros [F _]. apply Forall_inv in F. unfold digit in F. lia. }
    apply Z.ltb_ge in C1. apply Z.leb_gt in C2. cbn [orb].
    assert (D : digit c) by (unfold digit; lia).
    destruct (c - 48 =? 0) eqn:C0.
    + apply Z.eqb_eq in C0. rewrite C0. rewrite Z.mul_0_r, Z.mod_0_l by lia. cbn [negb andb].
      rewrite Z.add_0_r. rewrite (IH (10 * m) mult' ovf' value v); [|lia|exact HF|exact HT|lia].
      split; intros [F [E L]]; (split; [|split; [nia|exact L]]); [constructor; assumption|exact (Forall_inv_tail F)].
    + apply Z.eqb_neq in C0. cbn [negb andb].
      destruct ovf' eqn:O.
      { cbn [orb]. specialize (HT eq_refl). split; [discriminate|]. intros [F [E L]]. exfalso.
        pose proof (rval_nonneg r (Forall_inv_tail F)). nia. }
      destruct (HF eq_refl) as [EM LM]. cbn [orb]. rewrite EM.
      destruct (4294967295 / (c - 48) <? 10 * m) eqn:Q.
      { cbn [orb]. apply Z.ltb_lt in Q. split; [discriminate|]. intros [F [E L]]. exfalso.
        pose proof (rval_nonneg r (Forall_inv_tail F)).
        assert (4294967295 < (c - 48) * (10 * m)) by (pose proof (Z.mul_succ_div_gt 4294967295 (c - 48)); nia). nia. }
      apply Z.ltb_ge in Q. cbn [orb].
      assert (S0 : (c - 48) * (10 * m) <= 4294967295) by (pose proof (Z.mul_div_le 4294967295 (c - 48)); nia).
      rewrite (Z.mod_small (10 * m * (c - 48))) by nia.
      destruct (4294967295 - 10 * m * (c - 48) <? value) eqn:Q2.
      { apply Z.ltb_lt in Q2. split; [discriminate|]. intros [F [E L]]. exfalso.
        pose proof (rval_nonneg r (Forall_inv_tail F)). nia. }
      apply Z.ltb_ge in Q2.
      rewrite (IH (10 * m) (10 * m) false (value + 10 * m * (c - 48)) v); [|lia|intros _; lia|discriminate|nia].
      split; intros [F [E L]]; (split; [|split; [nia|exact L]]); [constructor; assumption|exact (Forall_inv_tail F)].
Qed.

Lemma lcast_spec s v : lcast_unsigned s = Some v <-> denotes s v /\ v <= UMAX.
Proof.
  rewrite denotes_rval. unfold lcast_unsigned.
  destruct s as [|c r _] using rev_ind.
  { cbn. split; [discriminate|]. intros [[H _] _]. congruence. }
  rewrite rev_app_distr. cbn [rev app rval].
  destruct (c <? 48) eqn:C1; [|destruct (58 <=? c) eqn:C2].
  - cbn [orb]. apply Z.ltb_lt in C1. split; [discriminate|]. intros [[_ [F _]] _]. apply Forall_app in F. destruct F as [_ F].
    apply Forall_inv in F. unfold digit in F. lia.
  - cbn [orb]. apply Z.leb_le in C2. split; [discriminate|]. intros [[_ [F _]] _]. apply Forall_app in F. destruct F as [_ F].
    apply Forall_inv in F. unfold digit in F. lia.
  - cbn [orb]. apply Z.ltb_ge in C1. apply Z.leb_gt in C2.
    rewrite (lcast_loop_spec (rev r) 1 1 false (c - 48) v); [|lia|intros _; rewrite UMAX_val; lia|discriminate|rewrite UMAX_val; lia].
    split.
    + intros [F [E L]]. split; [|exact L]. split; [destruct r; discriminate|]. split; [|lia].
      apply Forall_app. split; [rewrite <- (rev_involutive r); apply Forall_rev; exact F|constructor; [unfold digit; lia|constructor]].
    + intros [[_ [F E]] L]. apply Forall_app in F. destruct F as [F _]. split; [apply Forall_rev; exact F|]. split; [lia|exact L].
Qed.

Lemma cast_int_spec s v : cast_int s = Some v <-> denotes_signed s v /\ is_int v.
Proof.
  unfold denotes_signed, is_int. change (2 ^ 31) with 2147483648. unfold cast_int. change (2 ^ 31) with 2147483648.
  destruct s as [|c r].
  { split; [discriminate|]. intros [[A|[[r [A _]]|[r [m [A _]]]]] _]; try discriminate.
    apply denotes_head in A. destruct A as [? [? [A _]]]. discriminate. }
  destruct (c =? 45) eqn:C.
  - apply Z.eqb_eq in C. subst c. split.
    + intros H. destruct (lcast_unsigned r) as [u|] eqn:L; [|discriminate]. apply lcast_spec in L. destruct L as [D _].
      pose proof (denotes_nonneg _ _ D). destruct (u <=? 2147483648) eqn:B; [|discriminate]. apply Z.leb_le in B. injection H as <-.
      split; [|lia]. right. right. exists r, u. repeat split. exact D.
    + intros [[A|[[r' [A _]]|[r' [m [A [D ->]]]]]] B].
      * apply denotes_head in A. destruct A as [c' [r' [A Hd]]]. injection A as <- _. unfold digit in Hd. lia.
      * discriminate.
      * injection A as <-. assert (L : lcast_unsigned r = Some m) by (apply lcast_spec; split; [exact D|rewrite UMAX_val; lia]).
        rewrite L. destruct (Z.leb_spec m 2147483648); [reflexivity|lia].
  - apply Z.eqb_neq in C. destruct (c =? 43) eqn:P.
    + apply Z.eqb_eq in P. subst c. split.
      * intros H. destruct (lcast_unsigned r) as [u|] eqn:L; [|discriminate]. apply lcast_spec in L. destruct L as [D _].
        pose proof (denotes_nonneg _ _ D). destruct (u <=? 2147483648 - 1) eqn:B; [|discriminate]. apply Z.leb_le in B. injection H as <-.
        split; [|lia]. right. left. exists r. repeat split. exact D.
      * intros [[A|[[r' [A D]]|[r' [m [A _]]]]] B].
        -- apply denotes_head in A. destruct A as [c' [r' [A Hd]]]. injection A as <- _. unfold digit in Hd. lia.
        -- injection A as <-. assert (L : lcast_unsigned r = Some v) by (apply lcast_spec; split; [exact D|rewrite UMAX_val; lia]).
           rewrite L. destruct (Z.leb_spec v (2147483648 - 1)); [reflexivity|lia].
        -- discriminate.
    + apply Z.eqb_neq in P. split.
      * intros H. destruct (lcast_unsigned (c :: r)) as [u|] eqn:L; [|discriminate]. apply lcast_spec in L. destruct L as [D _].
        pose proof (denotes_nonneg _ _ D). destruct (u <=? 2147483648 - 1) eqn:B; [|discriminate]. apply Z.leb_le in B. injection H as <-.
        split; [|lia]. left. exact D.
      * intros [[A|[[r' [A D]]|[r' [m [A _]]]]] B]; [|injection A; congruence|injection A; congruence].
        assert (L : lcast_unsigned (c :: r) = Some v) by (apply lcast_spec; split; [exact A|rewrite UMAX_val; lia]).
        rewrite L. destruct (Z.leb_spec v (2147483648 - 1)); [reflexivity|lia].
Qed.

Lemma cast_unsigned_spec s v : cast_unsigned s = Some v <-> exists n, denotes_signed s n /\ Z.abs n < 2 ^ 32 /\ v = n mod 2 ^ 32.
Proof.
  unfold denotes_signed. unfold cast_unsigned. change (UMAX + 1) with 4294967296. change (2 ^ 32) with 4294967296.
  destruct s as [|c r].
  { split; [discriminate|]. intros [n [[A|[[r [A _]]|[r [m [A _]]]]] _]]; try discriminate.
    apply denotes_head in A. destruct A as [? [? [A _]]]. discriminate. }
  destruct (c =? 45) eqn:C.
  - apply Z.eqb_eq in C. subst c. split.
    + intros H. destruct (lcast_unsigned r) as [u|] eqn:L; [|discriminate]. apply lcast_spec in L. destruct L as [D B]. rewrite UMAX_val in B.
      pose proof (denotes_nonneg _ _ D). injection H as <-.
      exists (- u). split; [right; right; exists r, u; repeat split; exact D|]. split; [lia|]. reflexivity.
    + intros [n [[A|[[r' [A _]]|[r' [m [A [D ->]]]]]] [B ->]]].
      * apply denotes_head in A. destruct A as [c' [r' [A Hd]]]. injection A as <- _. unfold digit in Hd. lia.
      * discriminate.
      * injection A as <-. assert (L : lcast_unsigned r = Some m) by (apply lcast_spec; split; [exact D|rewrite UMAX_val; lia]).
        rewrite L. reflexivity.
  - apply Z.eqb_neq in C. destruct (c =? 43) eqn:P.
    + apply Z.eqb_eq in P. subst c. split.
      * intros L. apply lcast_spec in L. destruct L as [D B]. rewrite UMAX_val in B. pose proof (denotes_nonneg _ _ D).
        exists v. split; [right; left; exists r; repeat split; exact D|]. split; [lia|]. rewrite Z.mod_small; lia.
      * intros [n [[A|[[r' [A D]]|[r' [m [A _]]]]] [B ->]]].
        -- apply denotes_head in A. destruct A as [c' [r' [A Hd]]]. injection A as <- _. unfold digit in Hd. lia.
        -- injection A as <-. pose proof (denotes_nonneg _ _ D). rewrite Z.mod_small by lia. apply lcast_spec. split; [exact D|rewrite UMAX_val; lia].
        -- discriminate.
    + apply Z.eqb_neq in P. split.
      * intros L. apply lcast_spec in L. destruct L as [D B]. rewrite UMAX_val in B. pose proof (denotes_nonneg _ _ D).
        exists v. split; [left; exact D|]. split; [lia|]. rewrite Z.mod_small; lia.
      * intros [n [[A|[[r' [A D]]|[r' [m [A _]]]]] [B ->]]]; [|injection A; congruence|injection A; congruence].
        pose proof (denotes_nonneg _ _ A). rewrite Z.mod_small by lia. apply lcast_spec. split; [exact A|rewrite UMAX_val; lia].
Qed.

(** ** Printing *)
Lemma dec_loop_spec f : forall n acc, 0 <= n < 10 ^ Z.of_nat f -> (1 <= f)%nat ->
  exists s, dec_loop f n acc = s ++ acc /\ denotes s n /\ (length s <= f)%nat /\ (n = 0 /\ s = [48] \/ exists c r, s = c :: r /\ 49 <= c <= 57).
Proof.
  induction f as [|f IH]; intros n acc H F; [lia|]. cbn [dec_loop].
  pose proof (Z.mod_pos_bound n 10 ltac:(lia)) as B. pose proof (Z.div_mod n 10 ltac:(lia)) as E.
  destruct (n / 10 =? 0) eqn:Q.
  - apply Z.eqb_eq in Q. exists [48 + n mod 10]. split; [reflexivity|]. split.
    + replace n with (n mod 10) at 2 by lia. constructor. lia.
    + split; [cbn [length]; lia|]. destruct (Z.eq_dec n 0) as [->|N]; [left; split; reflexivity|]. right. eexists _, _. split; [reflexivity|]. lia.
  - apply Z.eqb_neq in Q. pose proof (Z.div_pos n 10 ltac:(lia) ltac:(lia)) as P.
    destruct f as [|f]; [exfalso; change (10 ^ Z.of_nat 1) with 10 in H; lia|].
    assert (H' : 0 <= n / 10 < 10 ^ Z.of_nat (S f)).
    { split; [exact P|]. apply Z.div_lt_upper_bound; [lia|]. rewrite <- Z.pow_succ_r by lia. replace (Z.succ (Z.of_nat (S f))) with (Z.of_nat (S (S f))) by lia. lia. }
    destruct (IH (n / 10) ((48 + n mod 10) :: acc) H' ltac:(lia)) as [s [Es [D [L K]]]].
    exists (s ++ [48 + n mod 10]). rewrite Es, <- app_assoc. split; [reflexivity|]. split.
    + replace n with (10 * (n / 10) + n mod 10) at 2 by lia. constructor; [exact D|lia].
    + split; [rewrite app_length; cbn [length]; lia|]. right. destruct K as [[K _]|[c [r [-> K]]]]; [congruence|]. eexists _, _. split; [reflexivity|exact K].
Qed.

Lemma put_unsigned_spec n : is_unsigned n -> denotes (put_unsigned n) n /\ (length (put_unsigned n) <= 10)%nat /\
  (n = 0 /\ put_unsigned n = [48] \/ exists c r, put_unsigned n = c :: r /\ 49 <= c <= 57).
Proof.
  unfold is_unsigned, put_unsigned. change (2 ^ 32) with 4294967296. intros H.
  destruct (dec_loop_spec 10 n []) as [s [E [D [L K]]]]; [change (10 ^ Z.of_nat 10) with 10000000000; lia|lia|].
  rewrite E, app_nil_r. split; [exact D|]. split; [exact L|exact K].
Qed.

Lemma put_int_spec n : is_int n -> denotes_signed (put_int n) n /\ (length (put_int n) <= 11)%nat /\ canonical (put_int n).
Proof.
  unfold is_int, put_int. change (2 ^ 31) with 2147483648. intros H. destruct (Z.ltb_spec n 0) as [N|N].
  - destruct (put_unsigned_spec (- n)) as [D [L K]]; [unfold is_unsigned; change (2 ^ 32) with 4294967296; lia|].
    split; [right; right; exists (put_unsigned (- n)), (- n); split; [reflexivity|]; split; [exact D|lia]|]. split; [cbn [length]; lia|].
    destruct K as [[K _]|[c [r [-> K]]]]; [lia|]. right. right. exists c, r. split; [reflexivity|exact K].
  - destruct (put_unsigned_spec n) as [D [L K]]; [unfold is_unsigned; change (2 ^ 32) with 4294967296; lia|].
    split; [left; exact D|]. split; [lia|]. destruct K as [[_ K]|K]; [left; exact K|right; left; exact K].
Qed.

Lemma denotes_word s n : denotes s n -> plain_word s.
Proof.
  intros D. apply denotes_rval in D. destruct D as [N [F _]]. split; [exact N|].
  eapply Forall_impl; [|exact F]. intros c. unfold digit, space. lia.
Qed.
Lemma signed_word s n : denotes_signed s n -> plain_word s.
Proof.
  intros [D|[[r [-> D]]|[r [m [-> [D _]]]]]]; [exact (denotes_word _ _ D)| |];
    apply denotes_word in D; destruct D as [_ D]; (split; [discriminate|constructor; [unfold space; lia|exact D]]).
Qed.
Lemma signed_not_option s n : denotes_signed s n -> ~ option_word s.
Proof.
  intros D [c [r [E L]]]. destruct D as [D|[[q [-> D]]|[q [m [-> [D _]]]]]]; [| discriminate |].
  - apply denotes_head in D. destruct D as [c' [r' [-> H]]]. injection E as -> _. unfold digit in H. lia.
  - injection E as ->. apply denotes_head in D. destruct D as [c' [r' [D H]]]. injection D as <- _. unfold digit in H. unfold letter in L. lia.
Qed.
Lemma signed_ascii s n : denotes_signed s n -> ascii_arg s.
Proof.
  intros D c r E. destruct D as [D|[[q [-> D]]|[q [m [-> [D _]]]]]]; [| discriminate |].
  - apply denotes_head in D. destruct D as [c' [r' [-> H]]]. injection E as -> _. unfold digit in H. lia.
  - injection E as ->. apply denotes_head in D. destruct D as [c' [r' [D H]]]. injection D as <- _. unfold digit in H. lia.
Qed.

(** ** Properties *)
Lemma int_round n : is_int n -> cast_int (put_int n) = Some n.
Proof. intros H. apply cast_int_spec. split; [apply put_int_spec; exact H|exact H]. Qed.
Lemma unsigned_round n : is_unsigned n -> cast_unsigned (put_unsigned n) = Some n.
Proof.
  intros H. apply cast_unsigned_spec. exists n. split; [left; apply put_unsigned_spec; exact H|]. unfold is_unsigned in H.
  split; [lia|]. rewrite Z.mod_small; lia.
Qed.

Lemma int_set_get t k n value dflt : ordered_table t -> is_int n -> getInt (setInt t k n) k value dflt = (setInt t k n, n, true).
Proof. intros O H. apply set_get_lemma; [exact O|exact (int_round n H)]. Qed.
Lemma unsigned_set_get t k n value dflt : ordered_table t -> is_unsigned n -> getUnsigned (setUnsigned t k n) k value dflt = (setUnsigned t k n, n, true).
Proof. intros O H. apply set_get_lemma; [exact O|exact (unsigned_round n H)]. Qed.

Lemma tfind_writable u : ordered_table u -> (Forall writable u <-> forall k v, tfind k u = Some v -> writable (k, v)).
Proof.
  intros O. rewrite Forall_forall. split; intros H.
  - intros k v E. apply H. apply tfind_in. exact E.
  - intros [k v] I. apply H. apply tfind_ordered; assumption.
Qed.
Lemma set_writable u k s : ordered_table u -> Forall writable u -> writable (k, s) -> Forall writable (setParamString u k s).
Proof.
  intros O F W. apply tfind_writable; [apply set_ordered; exact O|]. intros k' v'. rewrite set_find by exact O. unfold upd.
  destruct (list_eq_dec Z.eq_dec k k') as [<-|N]; [intros E; injection E as <-; exact W|]. apply tfind_writable; assumption.
Qed.

Lemma file_gen {V} (fmt : V -> str) (cast : str -> option V) u t k v value dflt :
  ordered_table u -> ordered_table t -> Forall writable u -> writable (k, fmt v) -> cast (fmt v) = Some v ->
  exists t', read t (write (setParam fmt u k v)) = Ret t' /\ getParam fmt cast t' k value dflt = (t', v, true).
Proof.
  intros Ou Ot F W C. destruct (read_write_lemma (setParam fmt u k v) t) as [t' [R [_ [K _]]]].
  - apply set_ordered. exact Ou.
  - exact Ot.
  - apply set_writable; assumption.
  - exists t'. split; [exact R|]. unfold getParam. rewrite K. unfold setParam. rewrite set_find by exact Ou. unfold upd.
    destruct (list_eq_dec Z.eq_dec k k) as [_|N]; [|congruence]. rewrite C. reflexivity.
Qed.

Lemma int_file u t k n value dflt : ordered_table u -> ordered_table t -> Forall writable u -> plain_word k -> (forall r, k <> 35 :: r) ->
  Z.of_nat (length k) <= 1987 -> is_int n ->
  exists t', read t (write (setInt u k n)) = Ret t' /\ getInt t' k value dflt = (t', n, true).
Proof.
  intros Ou Ot F P N L H. destruct (put_int_spec n H) as [D [Ln _]]. apply file_gen; try assumption; [|exact (int_round n H)].
  split; [exact P|]. split; [exact (signed_word _ _ D)|]. split; [exact N|]. cbn [fst snd]. lia.
Qed.
Lemma unsigned_file u t k n value dflt : ordered_table u -> ordered_table t -> Forall writable u -> plain_word k -> (forall r, k <> 35 :: r) ->
  Z.of_nat (length k) <= 1988 -> is_unsigned n ->
  exists t', read t (write (setUnsigned u k n)) = Ret t' /\ getUnsigned t' k value dflt = (t', n, true).
Proof.
  intros Ou Ot F P N L H. destruct (put_unsigned_spec n H) as [D [Ln _]]. apply file_gen; try assumption; [|exact (unsigned_round n H)].
  split; [exact P|]. split; [exact (denotes_word _ _ D)|]. split; [exact N|]. cbn [fst snd]. lia.
Qed.

Lemma args_gen argv t i k s : Forall ascii_arg argv -> ordered_table t -> binds argv i k s -> (forall j v', (i < j)%nat -> ~ binds argv j k v') ->
  exists t', read_args t (length argv) argv = Ret t' /\ tfind k t' = Some s.
Proof.
  intros A O B L. destruct (args_lemma argv t A O) as [t' [R [_ K]]]. exists t'. split; [exact R|].
  destruct (K k) as [[i' [v [B' [F L']]]]|[N _]]; [|exfalso; exact (N _ _ B)].
  destruct (Nat.lt_trichotomy i i') as [Q|[<-|Q]]; [exfalso; exact (L _ _ Q B')| |exfalso; exact (L' _ _ Q B)].
  destruct B as [_ [_ [_ [E _]]]], B' as [_ [_ [_ [E' _]]]]. congruence.
Qed.
Lemma int_args argv t i k s n value dflt : Forall ascii_arg argv -> ordered_table t -> (1 <= i)%nat ->
  nth_error argv i = Some (45 :: k) -> option_word (45 :: k) -> nth_error argv (S i) = Some s -> denotes_signed s n -> is_int n ->
  (forall j v', (i < j)%nat -> ~ binds argv j k v') ->
  exists t', read_args t (length argv) argv = Ret t' /\ getInt t' k value dflt = (t', n, true).
Proof.
  intros A O I E W E' D H L. destruct (args_gen argv t i k s A O) as [t' [R F]].
  - split; [exact I|]. split; [exact E|]. split; [exact W|]. split; [exact E'|exact (signed_not_option _ _ D)].
  - exact L.
  - exists t'. split; [exact R|]. apply (get_good_lemma put_int cast_int t' k s n value dflt F). apply cast_int_spec. split; assumption.
Qed.

Lemma int_text t k s value dflt : tfind k t = Some s ->
  (forall n, denotes_signed s n -> is_int n -> getInt t k value dflt = (t, n, true)) /\
  ((forall n, denotes_signed s n -> ~ is_int n) -> getInt t k value dflt = (t, value, true)).
Proof.
  intros F. split.
  - intros n D H. apply (get_good_lemma put_int cast_int t k s n value dflt F). apply cast_int_spec. split; assumption.
  - intros H. apply (get_bad_lemma put_int cast_int t k s value dflt F). destruct (cast_int s) as [v|] eqn:C; [|reflexivity].
    apply cast_int_spec in C. destruct C as [D I]. exfalso. exact (H v D I).
Qed.
Lemma unsigned_text t k s value dflt : tfind k t = Some s ->
  (forall n, denotes_signed s n -> Z.abs n < 2 ^ 32 -> getUnsigned t k value dflt = (t, n mod 2 ^ 32, true)) /\
  ((forall n, denotes_signed s n -> 2 ^ 32 <= Z.abs n) -> getUnsigned t k value dflt = (t, value, true)).
Proof.
  intros F. split.
  - intros n D H. apply (get_good_lemma put_unsigned cast_unsigned t k s (n mod 2 ^ 32) value dflt F). apply cast_unsigned_spec. exists n. auto.
  - intros H. apply (get_bad_lemma put_unsigned cast_unsigned t k s value dflt F). destruct (cast_unsigned s) as [v|] eqn:C; [|reflexivity].
    apply cast_unsigned_spec in C. destruct C as [n [D [I _]]]. specialize (H n D). lia.
Qed.

Lemma neg_one : denotes_signed [45; 49] (-1).
Proof. right. right. exists [49], 1. split; [reflexivity|]. split; [apply (dn_one 1); lia|reflexivity]. Qed.
Lemma unsigned_negative_lemma : exists t k s n, ordered_table t /\ tfind k t = Some s /\ denotes_signed s n /\ ~ is_unsigned n /\
  forall value dflt, getUnsigned t k value dflt = (t, 4294967295, true).
Proof.
  exists [([97], [45; 49])], [97], [45; 49], (-1). split; [constructor; [constructor|intros ? ? []]|]. split; [reflexivity|].
  split; [exact neg_one|]. split; [unfold is_unsigned; lia|]. intros value dflt. reflexivity.
Qed.
Lemma unsigned_nonneg_lemma t k s n value dflt : tfind k t = Some s -> denotes_signed s n -> 0 <= n ->
  getUnsigned t k value dflt = (t, if n <? 2 ^ 32 then n else value, true).
Proof.
  intros F D N. destruct (unsigned_text t k s value dflt F) as [A B]. destruct (Z.ltb_spec n (2 ^ 32)) as [L|L].
  - rewrite (A n D) by lia. rewrite Z.mod_small by lia. reflexivity.
  - apply B. intros m Dm. enough (Z.abs m = n) by lia.
    assert (X : forall a b r, denotes_signed r a -> denotes_signed r b -> Z.abs a = Z.abs b).
    { clear. intros a b r [A|[[q [A A']]|[q [m [A [A' ->]]]]]] [B|[[p [B B']]|[p [m' [B [B' ->]]]]]]; subst;
      try discriminate; try (apply denotes_head in A; destruct A as [? [? [A ?]]]; injection A; intros; subst; unfold digit in *; lia);
      try (apply denotes_head in B; destruct B as [? [? [B ?]]]; injection B; intros; subst; unfold digit in *; lia).
      - rewrite (denotes_fun _ _ _ A B). reflexivity.
      - injection B as <-. rewrite (denotes_fun _ _ _ A' B'). reflexivity.
      - injection B as <-. rewrite (denotes_fun _ _ _ A' B'). reflexivity. }
    rewrite (X m n s Dm D). lia.
Qed.
