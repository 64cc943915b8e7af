(** * Proofs about the nearest point of a box in floating point. *)
From Coq Require Import List Reals ZArith Bool Arith Lra Lia Psatz.
From Flocq Require Import Core Relative Plus_error.
From Verif Require Import Base BoxModel BoxSpec BoxProofs DoubleModel DoubleSpec DoubleProofs SingleModel SingleProofs AssocFloatSpec AssocFloatProofs LutFloatProofs BoxFloatModel.
Import ListNotations.
Open Scope R_scope.

#[local] Existing Instance prec53.
#[local] Existing Instance prec24.
(** The halves of a side are numbers. *)
Definition halves (wide r : R -> R) (h : R) : Prop :=
  wide (- (1 / 2) * h) = - (1 / 2) * h /\ wide (1 / 2 * h) = 1 / 2 * h /\ r (- (1 / 2) * h) = - (1 / 2) * h /\ r (1 / 2 * h) = 1 / 2 * h.
Definition goodf (r : R -> R) (d : nat) (dims q : list R) (b : nat * R * R) : Prop :=
  let '(k, e, dn) := b in exists i, (k = d + i)%nat /\ (i < length dims)%nat /\ within (nth i dims 0) (nth i q 0) /\
    (e = - (nth i dims 0 / 2) \/ e = nth i dims 0 / 2) /\
    (e - nth i q 0) * (e - nth i q 0) = gap (nth i dims 0) (nth i q 0) * gap (nth i dims 0) (nth i q 0) /\ dn = r (gap (nth i dims 0) (nth i q 0)).

Lemma assocf_loop_ok (wide r : R -> R) dims : Forall (halves wide r) dims -> forall q d inside best, length q = length dims ->
  exists n i b, assocf_loop wide r d dims q inside best = (n, i, b) /\ n = clamps dims q /\
  (i = true <-> inside = true /\ forall j, (j < length dims)%nat -> within (nth j dims 0) (nth j q 0)) /\
  (match b with None => best = None | Some x => best = Some x \/ goodf r d dims q x end) /\
  (forall k e dn, best = Some (k, e, dn) -> exists k' e' dn', b = Some (k', e', dn') /\ dn' <= dn) /\
  (forall j, (j < length dims)%nat -> within (nth j dims 0) (nth j q 0) -> exists k' e' dn', b = Some (k', e', dn') /\ dn' <= r (gap (nth j dims 0) (nth j q 0))).
Proof.
  induction dims as [|h dims IH]; intros HF [|q query] d inside best HL; cbn in HL; try discriminate.
  - exists [], inside, best. split; [reflexivity|]. split; [reflexivity|]. split; [|split; [|split]].
    + split; [intros H; split; [exact H|cbn; intros; lia]|intros [H _]; exact H].
    + destruct best; auto.
    + intros k e dn ->. exists k, e, dn. split; [reflexivity|lra].
    + cbn. intros; lia.
  - injection HL as HL. pose proof (Forall_inv HF) as (Ha1 & Ha2 & Ha3 & Ha4). apply Forall_inv_tail in HF. specialize (IH HF). cbn [assocf_loop]. cbv zeta. rewrite Ha1, Ha2, Ha3, Ha4.
    assert (G : forall x, goodf r (S d) dims query x -> goodf r d (h :: dims) (q :: query) x).
    { intros [[k e] dn] (i & E1 & E2 & R). exists (S i). split; [lia|]. split; [cbn; lia|]. exact R. }
    destruct (Rlt_dec q (- (1 / 2) * h)) as [L|L].
    + destruct (IH query (S d) false best HL) as (n & i & b & -> & -> & Hi & Hb & Hk & Hj). exists (- (1 / 2) * h :: clamps dims query), i, b.
      split; [reflexivity|]. split; [cbn; unfold clamp; destruct (Rlt_dec q (- (1 / 2) * h)); [reflexivity|lra]|]. split; [|split; [|split; [exact Hk|]]].
      * split; [intros H; apply Hi in H; destruct H; discriminate|]. intros [_ H]. specialize (H 0%nat ltac:(cbn; lia)). unfold within in H. cbn in H. lra.
      * destruct b as [x|]; [|exact Hb]. destruct Hb; auto.
      * intros [|j] Hlt W; [unfold within in W; cbn in W; lra|]. apply Hj; [cbn in Hlt; lia|exact W].
    + destruct (Rlt_dec (1 / 2 * h) q) as [M|M].
      * destruct (IH query (S d) false best HL) as (n & i & b & -> & -> & Hi & Hb & Hk & Hj). exists (1 / 2 * h :: clamps dims query), i, b.
        split; [reflexivity|]. split; [cbn; unfold clamp; destruct (Rlt_dec q (- (1 / 2) * h)); [lra|]; destruct (Rlt_dec (1 / 2 * h) q); [reflexivity|lra]|]. split; [|split; [|split; [exact Hk|]]].
        -- split; [intros H; apply Hi in H; destruct H; discriminate|]. intros [_ H]. specialize (H 0%nat ltac:(cbn; lia)). unfold within in H. cbn in H. lra.
        -- destruct b as [x|]; [|exact Hb]. destruct Hb; auto.
        -- intros [|j] Hlt W; [unfold within in W; cbn in W; lra|]. apply Hj; [cbn in Hlt; lia|exact W].
      * set (ed := if Rlt_dec q 0 then (- (1 / 2) * h, r (q - - (1 / 2) * h)) else (1 / 2 * h, r (1 / 2 * h - q))).
        assert (W0 : within h q) by (unfold within; lra).
        assert (Gd : goodf r d (h :: dims) (q :: query) (d, fst ed, snd ed)).
        { exists 0%nat. split; [lia|]. split; [cbn; lia|]. cbn [nth]. split; [exact W0|]. unfold ed, gap.
          destruct (Rlt_dec q 0); cbn [fst snd]; [rewrite Rabs_left by lra|rewrite Rabs_right by lra]; (split; [lra|split; [field|f_equal; lra]]). }
        assert (Gg : snd ed = r (gap h q)). { destruct Gd as (i & E & _ & _ & _ & _ & R). assert (i = 0%nat) as -> by lia. exact R. }
        destruct ed as [edge dist]. cbn [fst snd] in *.
        set (best' := match best with None => Some (d, edge, dist) | Some (k, e, dn) => if Rlt_dec dist dn then Some (d, edge, dist) else Some (k, e, dn) end).
        destruct (IH query (S d) inside best' HL) as (n & i & b & -> & -> & Hi & Hb & Hk & Hj). exists (q :: clamps dims query), i, b.
        split; [reflexivity|]. split; [cbn; unfold clamp; destruct (Rlt_dec q (- (1 / 2) * h)); [lra|]; destruct (Rlt_dec (1 / 2 * h) q); [lra|reflexivity]|].
        assert (B' : exists k e dn, best' = Some (k, e, dn) /\ dn <= dist /\ (best = Some (k, e, dn) \/ (k, e, dn) = (d, edge, dist)) /\
                     (forall k0 e0 dn0, best = Some (k0, e0, dn0) -> dn <= dn0)).
        { unfold best'. destruct best as [[[k0 e0] dn0]|].
          - destruct (Rlt_dec dist dn0).
            + exists d, edge, dist. split; [reflexivity|]. split; [lra|]. split; [auto|]. intros k1 e1 dn1 E. injection E as <- <- <-. lra.
            + exists k0, e0, dn0. split; [reflexivity|]. split; [lra|]. split; [auto|]. intros k1 e1 dn1 E. injection E as <- <- <-. lra.
          - exists d, edge, dist. split; [reflexivity|]. split; [lra|]. split; [auto|]. discriminate. }
        destruct B' as (k & e & dn & EB & Hdn & Hor & Hmono). destruct (Hk k e dn EB) as (k' & e' & dn' & -> & Hdn').
        split; [|split; [|split]].
        -- rewrite Hi. split; intros [H1 H2]; (split; [exact H1|]).
           ++ intros [|j] Hlt; [exact W0|]. apply H2. cbn in Hlt. lia.
           ++ intros j Hlt. apply (H2 (S j)). cbn. lia.
        -- destruct Hb as [Hb|Hb]; [|right; apply G, Hb]. rewrite EB in Hb. injection Hb as <- <- <-.
           destruct Hor as [Hor|Hor]; [left; exact Hor|right]. injection Hor as -> -> ->. exact Gd.
        -- intros k0 e0 dn0 E. exists k', e', dn'. split; [reflexivity|]. specialize (Hmono _ _ _ E). lra.
        -- intros [|j] Hlt W; [exists k', e', dn'; split; [reflexivity|]; cbn [nth]; lra|]. apply Hj; [cbn in Hlt; lia|exact W].
Qed.

Lemma ratio u g g' x x' S : 0 < u < / 100 -> 0 <= g -> 0 <= g' -> - (u * g) <= x - g <= u * g -> - (u * g') <= x' - g' <= u * g' -> x <= x' -> g' * g' <= S ->
  g * g <= (1 + 5 * u) * S.
Proof.
  intros Hu G G' A B L HS. assert (E : g * (1 - u) <= g' * (1 + u)) by lra.
  assert (Q : (g * (1 - u)) * (g * (1 - u)) <= (g' * (1 + u)) * (g' * (1 + u))) by (apply Rmult_le_compat; try lra; apply Rmult_le_pos; lra).
  assert (K : (1 + u) * (1 + u) <= (1 + 5 * u) * ((1 - u) * (1 - u))) by nra.
  assert (P : 0 < (1 - u) * (1 - u)) by nra. apply Rmult_le_reg_r with ((1 - u) * (1 - u)); [exact P|].
  apply Rle_trans with ((g' * g') * ((1 + u) * (1 + u))); [lra|]. apply Rle_trans with ((g' * g') * ((1 + 5 * u) * ((1 - u) * (1 - u)))).
  - apply Rmult_le_compat_l; [nra|exact K].
  - replace ((1 + 5 * u) * S * ((1 - u) * (1 - u))) with (S * ((1 + 5 * u) * ((1 - u) * (1 - u)))) by ring. apply Rmult_le_compat_r; [nra|exact HS].
Qed.
Lemma associatef_lemma (wide r : R -> R) u dims q : 0 < u < / 100 -> Forall (halves wide r) dims ->
  (forall i, (i < length dims)%nat -> within (nth i dims 0) (nth i q 0) -> Rabs (r (gap (nth i dims 0) (nth i q 0)) - gap (nth i dims 0) (nth i q 0)) <= u * gap (nth i dims 0) (nth i q 0)) ->
  (0 < length dims)%nat -> (forall i, (i < length dims)%nat -> 0 <= nth i dims 0) -> length q = length dims ->
  exists p, associatef wide r dims q = Ret p /\ on_surface dims p /\ (forall s, on_surface dims s -> sqd p q <= (1 + 5 * u) * sqd s q) /\
    (~ in_box dims q -> forall s, on_surface dims s -> sqd p q <= sqd s q).
Proof.
  intros Hu HF HR HD HP HQ. unfold associatef. destruct (assocf_loop_ok wide r dims HF q 0 true None HQ) as (n & i & b & -> & -> & Hi & Hb & _ & Hj).
  destruct i.
  - destruct Hi as [Hi _]. specialize (Hi eq_refl). destruct Hi as [_ W].
    destruct (Hj 0%nat HD (W 0%nat HD)) as (k & e & dn & -> & _). destruct Hb as [Hb|Hb]; [discriminate|].
    destruct Hb as (j & E & Hlt & Wj & He & Hsq & Hdn). cbn in E. subst k. exists (lset q j e). split; [reflexivity|]. split; [|split; [|intros NB; exfalso; apply NB; split; [exact HQ|exact W]]].
    + split; [split; [rewrite lset_length; exact HQ|]|].
      * intros i Hi. rewrite lset_nth by lia. destruct (Nat.eqb_spec i j) as [->|]; [|apply W, Hi]. specialize (HP j Hi). lra.
      * exists j. split; [exact Hlt|]. rewrite lset_nth by lia. rewrite Nat.eqb_refl. exact He.
    + intros s [[SL Sb] (m & Hm & Sm)]. rewrite lset_sqd by lia. rewrite Hsq.
      destruct (Hj m Hm (W m Hm)) as (k' & e' & dn' & E & Hle). injection E as _ _ <-.
      destruct (gap_near _ _ _ (W m Hm) Sm) as [G1 G2]. destruct (gap_near _ _ _ Wj He) as [_ G3]. rewrite Hdn in Hle.
      pose proof (sqd_coord s q m ltac:(lia) ltac:(lia)) as SC. pose proof (abs_le_inv _ _ (HR m Hm (W m Hm))) as R1. pose proof (abs_le_inv _ _ (HR j Hlt Wj)) as R2.
      apply (ratio u _ _ _ _ _ Hu G3 G2 R2 R1 Hle). lra.
  - exists (clamps dims q). split; [reflexivity|]. assert (CN : forall s, on_surface dims s -> sqd (clamps dims q) q <= sqd s q) by (intros s [Sb _]; apply clamps_near; assumption).
    split; [split; [split|]|split; [|intros _; exact CN]].
    + apply clamps_length, HQ.
    + intros j Hj'. rewrite clamps_nth by assumption. destruct (clamp_within _ (nth j q 0) (HP j Hj')) as [C _]. exact C.
    + assert (N : exists j, (j < length dims)%nat /\ ~ within (nth j dims 0) (nth j q 0)).
      { assert (D : forall j, within (nth j dims 0) (nth j q 0) \/ ~ within (nth j dims 0) (nth j q 0)).
        { intros j. unfold within. destruct (Rle_dec (- (nth j dims 0 / 2)) (nth j q 0)), (Rle_dec (nth j q 0) (nth j dims 0 / 2)); [left; lra|right; lra..]. }
        assert (F : forall m, (m <= length dims)%nat -> (forall j, (j < m)%nat -> within (nth j dims 0) (nth j q 0)) \/ exists j, (j < m)%nat /\ ~ within (nth j dims 0) (nth j q 0)).
        { induction m as [|m IH]; intros Hm; [left; intros; lia|]. destruct (IH ltac:(lia)) as [A|(j & ? & ?)]; [|right; exists j; split; [lia|assumption]].
          destruct (D m) as [Dm|Dm]; [left|right; exists m; split; [lia|exact Dm]]. intros j Hjm. destruct (Nat.eq_dec j m) as [->|]; [exact Dm|apply A; lia]. }
        destruct (F (length dims) ltac:(lia)) as [A|A]; [|exact A]. exfalso. assert (false = true) by (apply Hi; split; [reflexivity|exact A]). discriminate. }
      destruct N as (j & Hlt & Nj). exists j. split; [exact Hlt|]. rewrite clamps_nth by assumption. apply (clamp_within _ _ (HP j Hlt)), Nj.
    + intros s Hs. specialize (CN s Hs). pose proof (sqd_nonneg s q). nra.
Qed.

(** ** Double and float *)
Lemma gap_round (r : R -> R) u h q : (forall x y, x = 1 / 2 * h \/ x = - (1 / 2) * h \/ x = q -> y = 1 / 2 * h \/ y = - (1 / 2) * h \/ y = q -> exists e, Rabs e <= u /\ r (x - y) = (x - y) * (1 + e)) ->
  within h q -> Rabs (r (gap h q) - gap h q) <= u * gap h q.
Proof.
  intros H W. assert (G : 0 <= gap h q). { unfold gap, within in *. destruct (Rcase_abs q); [rewrite Rabs_left by lra|rewrite Rabs_right by lra]; lra. }
  assert (E : exists e, Rabs e <= u /\ r (gap h q) = gap h q * (1 + e)).
  { unfold gap. destruct (Rcase_abs q).
    - rewrite Rabs_left by lra. replace (h / 2 - - q) with (q - - (1 / 2) * h) by lra. apply H; auto.
    - rewrite Rabs_right by lra. replace (h / 2 - q) with (1 / 2 * h - q) by lra. apply H; auto. }
  destruct E as [e [B ->]]. replace (gap h q * (1 + e) - gap h q) with (gap h q * e) by ring. rewrite Rabs_mult, (Rabs_pos_eq _ G), Rmult_comm. apply Rmult_le_compat_r; assumption.
Qed.
Lemma sub_rels x y : generic_format radix2 sexp x -> generic_format radix2 sexp y -> exists e, Rabs e <= V /\ single (x - y) = (x - y) * (1 + e).
Proof.
  intros Fx Fy. destruct (FLT_plus_error_N_ex radix2 (-149) 24 (fun n => negb (Z.even n)) x (- y)) as [e [He E]].
  - exact Fx.
  - apply generic_format_opp. exact Fy.
  - exists e. split; [|exact E]. eapply Rle_trans; [exact He|]. unfold u_ro. replace (/ 2 * bpow radix2 (- (24) + 1)) with V by (unfold V; cbn; lra).
    unfold V. apply Rmult_le_reg_r with (1 + / 16777216); [lra|]. unfold Rdiv. rewrite Rmult_assoc, Rinv_l by lra. lra.
Qed.
Lemma half_opp h : - (1 / 2) * h = - (h / 2). Proof. field. Qed.
Lemma half_eq h : 1 / 2 * h = h / 2. Proof. field. Qed.

Lemma box64 dims q : (0 < length dims)%nat -> Forall (fun h => 0 <= h /\ is_double (h / 2)) dims -> length q = length dims -> Forall is_double q ->
  exists p, associate64 dims q = Ret p /\ on_surface dims p /\ (forall s, on_surface dims s -> sqd p q <= (1 + 5 * powerRZ 2 (-53)) * sqd s q) /\
    (~ in_box dims q -> forall s, on_surface dims s -> sqd p q <= sqd s q).
Proof.
  intros HD HF HQ FQ. rewrite (proj1 powers). apply (associatef_lemma rnd rnd U); try assumption.
  - unfold U. lra.
  - eapply Forall_impl; [|exact HF]. intros h [_ Dh]. apply double_format in Dh. pose proof (generic_format_opp _ _ _ Dh) as Dm. unfold halves. rewrite half_opp, half_eq. rewrite !rnd_id by assumption. auto.
  - intros i Hi W. apply gap_round; [|exact W]. rewrite Forall_forall in HF, FQ. destruct (HF (nth i dims 0) (nth_In _ _ Hi)) as [_ Dh]. apply double_format in Dh. pose proof (generic_format_opp _ _ _ Dh) as Dm.
    assert (Dq : is_double (nth i q 0)) by (apply FQ, nth_In; lia). apply double_format in Dq.
    intros x y Hx Hy. rewrite half_opp, half_eq in Hx, Hy. apply sub_rel; [destruct Hx as [-> |[-> | ->]]|destruct Hy as [-> |[-> | ->]]]; assumption.
  - intros i Hi. rewrite Forall_forall in HF. apply HF, nth_In, Hi.
Qed.
Lemma box32 dims q : (0 < length dims)%nat -> Forall (fun h => 0 <= h /\ is_float (h / 2)) dims -> length q = length dims -> Forall is_float q ->
  exists p, associate32 dims q = Ret p /\ on_surface dims p /\ (forall s, on_surface dims s -> sqd p q <= (1 + 5 * powerRZ 2 (-24)) * sqd s q) /\
    (~ in_box dims q -> forall s, on_surface dims s -> sqd p q <= sqd s q).
Proof.
  intros HD HF HQ FQ. replace (powerRZ 2 (-24)) with V by (unfold V; rewrite <- (bpow_powerRZ radix2); cbn; lra). apply (associatef_lemma rnd single V); try assumption.
  - unfold V. lra.
  - eapply Forall_impl; [|exact HF]. intros h [_ Dh]. apply float_format in Dh. pose proof (generic_format_opp _ _ _ Dh) as Dm. unfold halves. rewrite half_opp, half_eq.
    rewrite !single_id by assumption. rewrite !rnd_id by (apply sformat_format; assumption). auto.
  - intros i Hi W. apply gap_round; [|exact W]. rewrite Forall_forall in HF, FQ. destruct (HF (nth i dims 0) (nth_In _ _ Hi)) as [_ Dh]. apply float_format in Dh. pose proof (generic_format_opp _ _ _ Dh) as Dm.
    assert (Dq : is_float (nth i q 0)) by (apply FQ, nth_In; lia). apply float_format in Dq.
    intros x y Hx Hy. rewrite half_opp, half_eq in Hx, Hy. apply sub_rels; [destruct Hx as [-> |[-> | ->]]|destruct Hy as [-> |[-> | ->]]]; assumption.
  - intros i Hi. rewrite Forall_forall in HF. apply HF, nth_In, Hi.
Qed.

(** ** Two distances that round to the same number *)
Definition tiny : R := powerRZ 2 (-60).
Lemma tiny_pos : 0 < tiny < / 1000000000000000000. Proof. unfold tiny. rewrite <- (bpow_powerRZ radix2). cbn. lra. Qed.
Lemma round_one x : 0 <= x <= 2 * tiny -> rnd (1 - x) = 1.
Proof.
  intros H. pose proof tiny_pos. destruct (Req_dec x 0) as [->|N]; [rewrite Rminus_0_r; apply rnd_1|].
  replace 1 with (IZR 9007199254740992 * bpow radix2 (-53)) at 2 by (cbn; lra). apply rnd_near; [lia| |].
  - rewrite Rabs_pos_eq by lra. cbn. split; lra.
  - cbn. apply Rabs_lt. lra.
Qed.
Lemma wrong_lemma : exists dims q p s, Forall (fun h => 0 <= h /\ is_double (h / 2)) dims /\ Forall is_double q /\ length q = length dims /\
  associate64 dims q = Ret p /\ on_surface dims s /\ sqd s q < sqd p q.
Proof.
  pose proof tiny_pos as T.
  assert (D0 : is_double (2 / 2)) by (exists 1%Z, 0%Z; split; [cbn; lra|lia]).
  assert (D1 : is_double tiny) by (exists 1%Z, (-60)%Z; split; [unfold tiny; lra|lia]).
  assert (D2 : is_double (2 * tiny)) by (exists 2%Z, (-60)%Z; split; [unfold tiny; lra|lia]).
  exists [2; 2], [tiny; 2 * tiny], [1; 2 * tiny], [tiny; 1]. split; [|split; [|split; [|split; [|split]]]].
  - constructor; [split; [lra|exact D0]|]. constructor; [split; [lra|exact D0]|constructor].
  - constructor; [exact D1|]. constructor; [exact D2|constructor].
  - reflexivity.
  - unfold associate64, associatef. cbn [assocf_loop]. replace (- (1 / 2) * 2) with (-1) by lra. replace (1 / 2 * 2) with 1 by lra.
    assert (rnd (-1) = -1) as -> by (apply rnd_id, (format_int (-1)); lia). rewrite !rnd_1. rewrite !round_one by lra.
    destruct (Rlt_dec tiny (-1)); [lra|]. destruct (Rlt_dec 1 tiny); [lra|]. destruct (Rlt_dec tiny 0); [lra|].
    destruct (Rlt_dec (2 * tiny) (-1)); [lra|]. destruct (Rlt_dec 1 (2 * tiny)); [lra|]. destruct (Rlt_dec (2 * tiny) 0); [lra|]. destruct (Rlt_dec 1 1); [lra|]. reflexivity.
  - split; [split; [reflexivity|]|exists 1%nat; cbn; split; [lia|lra]]. intros [|[|i]] Hi; cbn in *; try lra. lia.
  - cbn [sqd]. nra.
Qed.
