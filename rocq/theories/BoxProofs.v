(** * Proofs about the nearest point of a box. *)
From Coq Require Import List Reals Bool Arith Lra Lia Psatz Permutation.
From Verif Require Import Base BoxModel BoxSpec.
Import ListNotations.
Open Scope R_scope.

Definition clamp (h q : R) : R := if Rlt_dec q (- (1 / 2) * h) then - (1 / 2) * h else if Rlt_dec (1 / 2 * h) q then 1 / 2 * h else q.
Fixpoint clamps (dims q : list R) : list R := match dims, q with h :: d, x :: t => clamp h x :: clamps d t | _, _ => [] end.
Definition within (h q : R) : Prop := - (h / 2) <= q <= h / 2.
(** Distance of an inner coordinate to the nearer end, and that end. *)
Definition gap (h q : R) : R := h / 2 - Rabs q.
Definition good (d : nat) (dims q : list R) (b : nat * R * R) : Prop :=
  let '(k, e, dn) := b in exists i, (k = d + i)%nat /\ (i < length dims)%nat /\ within (nth i dims 0) (nth i q 0) /\
    (e = - (nth i dims 0 / 2) \/ e = nth i dims 0 / 2) /\ (e - nth i q 0) * (e - nth i q 0) = dn * dn /\ dn = gap (nth i dims 0) (nth i q 0).

Lemma assoc_loop_ok dims : forall q d inside best, length q = length dims ->
  exists n i b, assoc_loop d dims q inside best = (n, i, b) /\ n = clamps dims q /\
  (i = true <-> inside = true /\ forall j, (j < length dims)%nat -> within (nth j dims 0) (nth j q 0)) /\
  (match b with None => best = None | Some x => best = Some x \/ good d dims q x end) /\
  (forall k e dn, best = Some (k, e, dn) -> exists k' e' dn', b = Some (k', e', dn') /\ dn' <= dn) /\
  (forall j, (j < length dims)%nat -> within (nth j dims 0) (nth j q 0) -> exists k' e' dn', b = Some (k', e', dn') /\ dn' <= gap (nth j dims 0) (nth j q 0)).
Proof.
  induction dims as [|h dims IH]; intros [|q query] d inside best HL; cbn in HL; try discriminate.
  - exists [], inside, best. split; [reflexivity|]. split; [reflexivity|]. split; [|split; [|split]].
    + split; [intros H; split; [exact H|cbn; intros; lia]|intros [H _]; exact H].
    + destruct best; auto.
    + intros k e dn ->. exists k, e, dn. split; [reflexivity|lra].
    + cbn. intros; lia.
  - injection HL as HL. cbn [assoc_loop].
    assert (G : forall x, good (S d) dims query x -> good d (h :: dims) (q :: query) x).
    { intros [[k e] dn] (i & E1 & E2 & R). exists (S i). split; [lia|]. split; [cbn; lia|]. exact R. }
    destruct (Rlt_dec q (- (1 / 2) * h)) as [L|L].
    + destruct (IH query (S d) false best HL) as (n & i & b & -> & -> & Hi & Hb & Hk & Hj). exists (- (1 / 2) * h :: clamps dims query), i, b.
      split; [reflexivity|]. split; [cbn; unfold clamp; destruct (Rlt_dec q (- (1 / 2) * h)); [reflexivity|lra]|]. split; [|split; [|split; [exact Hk|]]].
      * split; [intros H; apply Hi in H; destruct H; discriminate|]. intros [_ H]. specialize (H 0%nat ltac:(cbn; lia)). unfold within in H. cbn in H. lra.
      * destruct b as [x|]; [|exact Hb]. destruct Hb; auto.
      * intros [|j] Hlt W; [unfold within in W; cbn in W; lra|]. apply Hj; [cbn in Hlt; lia|exact W].
    + destruct (Rlt_dec (1 / 2 * h) q) as [M|M].
      * destruct (IH query (S d) false best HL) as (n & i & b & -> & -> & Hi & Hb & Hk & Hj). exists (1 / 2 * h :: clamps dims query), i, b.
        split; [reflexivity|]. split; [cbn; unfold clamp; destruct (Rlt_dec q (- (1 / 2) * h)); [lra|]; destruct (Rlt_dec (1 / 2 * h) q); [reflexivity|lra]|]. split; [|split; [|split; [exact Hk|]]].
        -- split; [intros H; apply Hi in H; destruct H; discriminate|]. intros [_ H]. specialize (H 0%nat ltac:(cbn; lia)). unfold within in H. cbn in H. lra.
        -- destruct b as [x|]; [|exact Hb]. destruct Hb; auto.
        -- intros [|j] Hlt W; [unfold within in W; cbn in W; lra|]. apply Hj; [cbn in Hlt; lia|exact W].
      * set (ed := if Rlt_dec q 0 then (- (1 / 2) * h, q - - (1 / 2) * h) else (1 / 2 * h, 1 / 2 * h - q)).
        assert (W0 : within h q) by (unfold within; lra).
        assert (Gd : good d (h :: dims) (q :: query) (d, fst ed, snd ed)).
        { exists 0%nat. split; [lia|]. split; [cbn; lia|]. cbn [nth]. split; [exact W0|]. unfold ed, gap.
          destruct (Rlt_dec q 0); cbn [fst snd]; [rewrite Rabs_left by lra|rewrite Rabs_right by lra]; (split; [lra|split; [ring|lra]]). }
        assert (Gg : snd ed = gap h q). { destruct Gd as (i & E & _ & _ & _ & _ & R). assert (i = 0%nat) as -> by lia. exact R. }
        destruct ed as [edge dist]. cbn [fst snd] in *.
        set (best' := match best with None => Some (d, edge, dist) | Some (k, e, dn) => if Rlt_dec dist dn then Some (d, edge, dist) else Some (k, e, dn) end).
        destruct (IH query (S d) inside best' HL) as (n & i & b & -> & -> & Hi & Hb & Hk & Hj). exists (q :: clamps dims query), i, b.
        split; [reflexivity|]. split; [cbn; unfold clamp; destruct (Rlt_dec q (- (1 / 2) * h)); [lra|]; destruct (Rlt_dec (1 / 2 * h) q); [lra|reflexivity]|].
        assert (B' : exists k e dn, best' = Some (k, e, dn) /\ dn <= dist /\ (best = Some (k, e, dn) \/ (k, e, dn) = (d, edge, dist)) /\
                     (forall k0 e0 dn0, best = Some (k0, e0, dn0) -> dn <= dn0)).
        { unfold best'. destruct best as [[[k0 e0] dn0]|].
          - destruct (Rlt_dec dist dn0).
            + exists d, edge, dist. split; [reflexivity|]. split; [lra|]. split; [auto|]. intros k1 e1 dn1 E. injection E as <- <- <-. lra.
            + exists k0, e0, dn0. split; [reflexivity|]. split; [lra|]. split; [auto|]. intros k1 e1 dn1 E. injection E as <- <- <-. lra.
          - exists d, edge, dist. split; [reflexivity|]. split; [lra|]. split; [auto|]. discriminate. }
        destruct B' as (k & e & dn & EB & Hdn & Hor & Hmono). destruct (Hk k e dn EB) as (k' & e' & dn' & -> & Hdn').
        split; [|split; [|split]].
        -- rewrite Hi. split; intros [H1 H2]; (split; [exact H1|]).
           ++ intros [|j] Hlt; [exact W0|]. apply H2. cbn in Hlt. lia.
           ++ intros j Hlt. apply (H2 (S j)). cbn. lia.
        -- destruct Hb as [Hb|Hb]; [|right; apply G, Hb]. rewrite EB in Hb. injection Hb as <- <- <-.
           destruct Hor as [Hor|Hor]; [left; exact Hor|right]. injection Hor as -> -> ->. exact Gd.
        -- intros k0 e0 dn0 E. exists k', e', dn'. split; [reflexivity|]. specialize (Hmono _ _ _ E). lra.
        -- intros [|j] Hlt W; [exists k', e', dn'; split; [reflexivity|]; cbn [nth]; lra|]. apply Hj; [cbn in Hlt; lia|exact W].
Qed.

Lemma clamp_within h q : 0 <= h -> within h (clamp h q) /\ (~ within h q -> clamp h q = - (h / 2) \/ clamp h q = h / 2).
Proof. intros Hh. unfold within, clamp. destruct (Rlt_dec q (- (1 / 2) * h)); [lra|]. destruct (Rlt_dec (1 / 2 * h) q); lra. Qed.
Lemma clamp_near h q p : within h p -> (clamp h q - q) * (clamp h q - q) <= (p - q) * (p - q).
Proof. intros Hp. unfold within, clamp in *. destruct (Rlt_dec q (- (1 / 2) * h)); [nra|]. destruct (Rlt_dec (1 / 2 * h) q); [|pose proof (Rle_0_sqr (p - q)) as S; unfold Rsqr in S; replace (q - q) with 0 by ring; lra].
  apply Rle_trans with ((q - 1 / 2 * h) * (q - 1 / 2 * h)); [right; ring|]. replace ((p - q) * (p - q)) with ((q - p) * (q - p)) by ring. apply Rmult_le_compat; lra. Qed.
Lemma clamps_length dims : forall q, length q = length dims -> length (clamps dims q) = length dims.
Proof. induction dims; intros [|x q] H; cbn in *; try discriminate; auto. Qed.
Lemma clamps_nth dims : forall q i, length q = length dims -> (i < length dims)%nat -> nth i (clamps dims q) 0 = clamp (nth i dims 0) (nth i q 0).
Proof. induction dims; intros [|x q] [|i] H Hi; cbn in *; try discriminate; try lia; auto. apply IHdims; lia. Qed.
Lemma clamps_near dims : forall q p, in_box dims p -> length q = length dims -> sqd (clamps dims q) q <= sqd p q.
Proof.
  induction dims as [|h dims IH]; intros [|x q] [|y p] [HL Hp] HQ; cbn in HL, HQ; try discriminate; [cbn; lra|].
  cbn [clamps sqd]. apply Rplus_le_compat.
  - apply clamp_near. apply (Hp 0%nat). cbn. lia.
  - apply IH; [|lia]. split; [lia|]. intros i Hi. apply (Hp (S i)). cbn. lia.
Qed.
Lemma sqd_nonneg a : forall b, 0 <= sqd a b.
Proof. induction a as [|x a IH]; intros [|y b]; cbn; try lra. specialize (IH b). pose proof (Rle_0_sqr (x - y)) as Q. unfold Rsqr in Q. lra. Qed.
Lemma sqd_coord a : forall b i, length a = length b -> (i < length a)%nat -> (nth i a 0 - nth i b 0) * (nth i a 0 - nth i b 0) <= sqd a b.
Proof.
  induction a as [|x a IH]; intros [|y b] [|i] HL Hi; cbn in *; try discriminate; try lia.
  - pose proof (sqd_nonneg a b). lra.
  - specialize (IH b i ltac:(lia) ltac:(lia)). pose proof (Rle_0_sqr (x - y)) as Q. unfold Rsqr in Q. lra.
Qed.
Lemma lset_sqd q : forall k e, (k < length q)%nat -> sqd (lset q k e) q = (e - nth k q 0) * (e - nth k q 0).
Proof.
  assert (Z : forall q, sqd q q = 0) by (induction q0 as [|x t IH]; cbn; [reflexivity|]; rewrite IH; ring).
  induction q as [|x q IH]; intros [|k] e Hk; cbn in *; try lia; [rewrite Z; ring|]. rewrite IH by lia. ring.
Qed.
Lemma lset_length {A} (q : list A) : forall k e, length (lset q k e) = length q.
Proof. induction q; intros [|k] e; cbn; auto. Qed.
Lemma lset_nth q : forall k e i, (k < length q)%nat -> nth i (lset q k e) 0 = if Nat.eqb i k then e else nth i q 0.
Proof. induction q as [|x q IH]; intros [|k] e [|i] Hk; cbn in *; try lia; auto. apply IH. lia. Qed.
Lemma gap_near h q p : within h q -> (p = - (h / 2) \/ p = h / 2) -> gap h q * gap h q <= (p - q) * (p - q) /\ 0 <= gap h q.
Proof. unfold within, gap. intros W [->| ->]; destruct (Rcase_abs q); [rewrite Rabs_left by lra|rewrite Rabs_right by lra|rewrite Rabs_left by lra|rewrite Rabs_right by lra]; split; nra. Qed.

Lemma associate_lemma dims q : (0 < length dims)%nat -> (forall i, (i < length dims)%nat -> 0 <= nth i dims 0) -> length q = length dims ->
  exists p, associate dims q = Ret p /\ on_surface dims p /\ forall s, on_surface dims s -> sqd p q <= sqd s q.
Proof.
  intros HD HP HQ. unfold associate. destruct (assoc_loop_ok dims q 0 true None HQ) as (n & i & b & -> & -> & Hi & Hb & _ & Hj).
  destruct i.
  - destruct Hi as [Hi _]. specialize (Hi eq_refl). destruct Hi as [_ W].
    destruct (Hj 0%nat HD (W 0%nat HD)) as (k & e & dn & -> & _). destruct Hb as [Hb|Hb]; [discriminate|].
    destruct Hb as (j & E & Hlt & Wj & He & Hsq & Hdn). cbn in E. subst k. exists (lset q j e). split; [reflexivity|]. split.
    + split; [split; [rewrite lset_length; exact HQ|]|].
      * intros i Hi. rewrite lset_nth by lia. destruct (Nat.eqb_spec i j) as [->|]; [|apply W, Hi]. specialize (HP j Hi). lra.
      * exists j. split; [exact Hlt|]. rewrite lset_nth by lia. rewrite Nat.eqb_refl. exact He.
    + intros s [[SL Sb] (m & Hm & Sm)]. rewrite lset_sqd by lia. rewrite Hsq.
      destruct (Hj m Hm (W m Hm)) as (k' & e' & dn' & E & Hle). injection E as _ _ <-.
      destruct (gap_near _ _ _ (W m Hm) Sm) as [G1 G2]. destruct (gap_near _ _ _ Wj He) as [_ G3]. rewrite <- Hdn in G3.
      pose proof (sqd_coord s q m ltac:(lia) ltac:(lia)). nra.
  - exists (clamps dims q). split; [reflexivity|]. split; [split; [split|]|].
    + apply clamps_length, HQ.
    + intros j Hj'. rewrite clamps_nth by assumption. destruct (clamp_within _ (nth j q 0) (HP j Hj')) as [C _]. exact C.
    + assert (N : exists j, (j < length dims)%nat /\ ~ within (nth j dims 0) (nth j q 0)).
      { assert (D : forall j, within (nth j dims 0) (nth j q 0) \/ ~ within (nth j dims 0) (nth j q 0)).
        { intros j. unfold within. destruct (Rle_dec (- (nth j dims 0 / 2)) (nth j q 0)), (Rle_dec (nth j q 0) (nth j dims 0 / 2)); [left; lra|right; lra..]. }
        assert (F : forall m, (m <= length dims)%nat -> (forall j, (j < m)%nat -> within (nth j dims 0) (nth j q 0)) \/ exists j, (j < m)%nat /\ ~ within (nth j dims 0) (nth j q 0)).
        { induction m as [|m IH]; intros Hm; [left; intros; lia|]. destruct (IH ltac:(lia)) as [A|(j & ? & ?)]; [|right; exists j; split; [lia|assumption]].
          destruct (D m) as [Dm|Dm]; [left|right; exists m; split; [lia|exact Dm]]. intros j Hjm. destruct (Nat.eq_dec j m) as [->|]; [exact Dm|apply A; lia]. }
        destruct (F (length dims) ltac:(lia)) as [A|A]; [|exact A]. exfalso. assert (false = true) by (apply Hi; split; [reflexivity|exact A]). discriminate. }
      destruct N as (j & Hlt & Nj). exists j. split; [exact Hlt|]. rewrite clamps_nth by assumption. apply (clamp_within _ _ (HP j Hlt)), Nj.
    + intros s [Sb _]. apply clamps_near; assumption.
Qed.
