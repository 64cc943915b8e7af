(** * Proofs about the checked interval operations. *)
From Coq Require Import List ZArith Bool Lia.
From Verif Require Import Base BaseLemmas IntervalModel IntervalSpec IntervalProofs IntervalChkModel IntervalChkSpec.
Import ListNotations.
Open Scope outcome_scope.
Open Scope Z_scope.

Lemma fits_dec x : {fits x} + {~ fits x}.
Proof. unfold fits. destruct (Z_le_dec (- 2 ^ 31) x), (Z_lt_dec x (2 ^ 31)); [left; auto|right; intros []; lia..]. Qed.
Lemma chk_fits x : fits x -> chk x = Ret x.
Proof. exact (chk_ok x). Qed.
Lemma chk_not x : ~ fits x -> chk x = UB.
Proof.
  unfold chk, fits. intros H. destruct (Z.leb_spec (- 2 ^ 31) x); cbn [andb]; [|reflexivity].
  destruct (Z.ltb_spec x (2 ^ 31)); [exfalso; apply H; auto|reflexivity].
Qed.

(** each2, each3, each4 unfold like lists. *)
Lemma each2_cons P x a y b : each2 P (x :: a) (y :: b) <-> P x y /\ each2 P a b.
Proof.
  split.
  - intros H. split; [apply (H 0%nat); reflexivity|]. intros k u v Hu Hv. apply (H (S k)); auto.
  - intros [H1 H2] [|k] u v Hu Hv; cbn [nth_error] in *; [congruence|eauto].
Qed.
Lemma each4_cons P x a y b z c t d : each4 P (x :: a) (y :: b) (z :: c) (t :: d) <-> P x y z t /\ each4 P a b c d.
Proof.
  split.
  - intros H. split; [apply (H 0%nat); reflexivity|]. intros k u v u' v' Hu Hv Hu' Hv'. apply (H (S k)); auto.
  - intros [H1 H2] [|k] u v u' v' Hu Hv Hu' Hv'; cbn [nth_error] in *; [congruence|eauto].
Qed.
Lemma each3_cons P x a y b z c : each3 P (x :: a) (y :: b) (z :: c) <-> P x y z /\ each3 P a b c.
Proof.
  split.
  - intros H. split; [apply (H 0%nat); reflexivity|]. intros k u v u' Hu Hv Hu'. apply (H (S k)); auto.
  - intros [H1 H2] [|k] u v u' Hu Hv Hu'; cbn [nth_error] in *; [congruence|eauto].
Qed.

Lemma map2M_exact (f : Z -> Z -> outcome Z) g (P : Z -> Z -> Prop) :
  (forall x y, (P x y /\ f x y = Ret (g x y)) \/ (~ P x y /\ f x y = UB)) ->
  forall a b, length b = length a -> (each2 P a b /\ map2M f a b = Ret (map2 g a b)) \/ (~ each2 P a b /\ map2M f a b = UB).
Proof.
  intros Hf. induction a as [|x a IH]; intros [|y b] L; cbn [length] in L; try discriminate.
  - left. split; [|reflexivity]. intros [|k] ? ? H; discriminate H.
  - rewrite each2_cons. cbn [map2M map2]. destruct (Hf x y) as [[H1 ->]|[H1 ->]]; cbn [obind].
    + destruct (IH b ltac:(lia)) as [[H2 ->]|[H2 ->]]; cbn [obind]; [left|right]; split; auto; tauto.
    + right. split; [tauto|reflexivity].
Qed.

(** Turn the alternatives into the two implications. *)
Lemma alt {A} (P : Prop) (o : outcome A) v : (P /\ o = Ret v) \/ (~ P /\ o = UB) -> (P -> o = Ret v) /\ (~ P -> o = UB).
Proof. tauto. Qed.

Lemma centered_alt c w : length w = length c ->
  (each2 (fun x y => fits (x - y) /\ fits (2 * y + 1)) c w /\ initCentered_chk c w = Ret (initCentered c w)) \/
  (~ each2 (fun x y => fits (x - y) /\ fits (2 * y + 1)) c w /\ initCentered_chk c w = UB).
Proof.
  intros L. unfold initCentered_chk, initCentered.
  destruct (map2M_exact (fun x y => chk (x - y)) Z.sub (fun x y => fits (x - y))) with (a := c) (b := w) as [[H1 E1]|[H1 E1]]; auto.
  { intros x y. destruct (fits_dec (x - y)); [left|right]; split; auto using chk_fits, chk_not. }
  - rewrite E1. cbn [obind].
    destruct (map2M_exact (fun _ y => let! t := chk (2 * y) in chk (t + 1)) (fun _ y => 2 * y + 1) (fun _ y => fits (2 * y + 1))) with (a := c) (b := w) as [[H2 E2]|[H2 E2]]; auto.
    { intros x y. destruct (fits_dec (2 * y + 1)) as [F|F].
      - left. split; [auto|]. rewrite chk_fits by (unfold fits in *; lia). cbn [obind]. now apply chk_fits.
      - right. split; [auto|]. destruct (fits_dec (2 * y)) as [G|G]; [rewrite chk_fits by auto; now apply chk_not|rewrite chk_not by auto; reflexivity]. }
    + rewrite E2. left. split; [|reflexivity]. intros k x y Hx Hy. split; [eapply H1; eauto|eapply (H2 k x y); eauto].
    + rewrite E2. right. split; [|reflexivity]. intros H. apply H2. intros k x y Hx Hy. destruct (H k x y Hx Hy). auto.
  - rewrite E1. right. split; [|reflexivity]. intros H. apply H1. intros k x y Hx Hy. destruct (H k x y Hx Hy). auto.
Qed.

Lemma minmax_alt mn mx : length mx = length mn ->
  (each2 (fun a b => fits (b - a) /\ fits (b - a + 1)) mn mx /\ initMinMax_chk mn mx = Ret (initMinMax mn mx)) \/
  (~ each2 (fun a b => fits (b - a) /\ fits (b - a + 1)) mn mx /\ initMinMax_chk mn mx = UB).
Proof.
  intros L. unfold initMinMax_chk, initMinMax.
  destruct (map2M_exact (fun a b => let! t := chk (b - a) in chk (t + 1)) (fun a b => b - a + 1) (fun a b => fits (b - a) /\ fits (b - a + 1))) with (a := mn) (b := mx) as [[H1 E1]|[H1 E1]]; auto.
  { intros x y. destruct (fits_dec (y - x)) as [F|F]; [rewrite chk_fits by auto; cbn [obind]|rewrite chk_not by auto; right; split; [tauto|reflexivity]].
    destruct (fits_dec (y - x + 1)) as [G|G]; [left; split; [auto|now apply chk_fits]|right; split; [tauto|now apply chk_not]]. }
  - rewrite E1. left. auto.
  - rewrite E1. right. auto.
Qed.

Lemma last_alt a : length (imin a) = length (idim a) ->
  (each2 (fun m d => fits (m + d)) (imin a) (idim a) /\ ilast_chk a = Ret (ilast a)) \/
  (~ each2 (fun m d => fits (m + d)) (imin a) (idim a) /\ ilast_chk a = UB).
Proof.
  intros L. unfold ilast_chk, ilast. apply (map2M_exact (fun m d => chk (m + d)) Z.add (fun m d => fits (m + d))); auto.
  intros x y. destruct (fits_dec (x + y)); [left|right]; split; auto using chk_fits, chk_not.
Qed.

Lemma max_alt a : length (imin a) = length (idim a) ->
  (each2 (fun m d => fits (m + d) /\ fits (m + d - 1)) (imin a) (idim a) /\ imax_chk a = Ret (imax a)) \/
  (~ each2 (fun m d => fits (m + d) /\ fits (m + d - 1)) (imin a) (idim a) /\ imax_chk a = UB).
Proof.
  intros L. unfold imax_chk, imax. apply (map2M_exact (fun m d => let! t := chk (m + d) in chk (t - 1)) (fun m d => m + d - 1) (fun m d => fits (m + d) /\ fits (m + d - 1))); auto.
  intros x y. destruct (fits_dec (x + y)) as [F|F]; [rewrite chk_fits by auto; cbn [obind]|rewrite chk_not by auto; right; split; [tauto|reflexivity]].
  destruct (fits_dec (x + y - 1)) as [G|G]; [left; split; [auto|now apply chk_fits]|right; split; [tauto|now apply chk_not]].
Qed.

Lemma translateV_alt a t : length t = length (imin a) ->
  (each2 (fun m x => fits (m + x)) (imin a) t /\ translateV_chk a t = Ret (translateV a t)) \/
  (~ each2 (fun m x => fits (m + x)) (imin a) t /\ translateV_chk a t = UB).
Proof.
  intros L. unfold translateV_chk, translateV.
  destruct (map2M_exact (fun m x => chk (m + x)) Z.add (fun m x => fits (m + x))) with (a := imin a) (b := t) as [[H1 ->]|[H1 ->]]; auto.
  intros x y. destruct (fits_dec (x + y)); [left|right]; split; auto using chk_fits, chk_not.
Qed.

Lemma translate_alt a d incr m : nth_error (imin a) d = Some m ->
  (fits (m + incr) -> translate_chk a d incr = translate a d incr) /\ (~ fits (m + incr) -> translate_chk a d incr = UB).
Proof.
  intros E. unfold translate_chk, translate, vread. destruct (Nat.ltb_spec d (length (imin a))) as [_|L]; [|apply nth_error_None in L; congruence].
  rewrite E. cbn [obind]. split; intros F; [now rewrite chk_fits|now rewrite chk_not].
Qed.

Lemma stacked_alt a d incr m e : nth_error (imin a) d = Some m -> nth_error (idim a) d = Some e ->
  let P := if 0 <=? incr then fits (m + e) else fits (m + incr) /\ fits (- incr) in
  (P -> stacked_chk a d incr = stacked a d incr) /\ (~ P -> stacked_chk a d incr = UB).
Proof.
  intros E F. unfold stacked_chk, stacked, vread. destruct (Nat.ltb_spec d (length (imin a))) as [_|L]; [|apply nth_error_None in L; congruence].
  rewrite E, F. cbn [obind]. destruct (0 <=? incr); cbn zeta.
  - split; intros H; [now rewrite chk_fits|now rewrite chk_not].
  - split; intros H; [destruct H; now rewrite !chk_fits|]. destruct (fits_dec (m + incr)) as [G|G]; [rewrite (chk_fits (m + incr)) by auto; cbn [obind]; now rewrite chk_not by tauto|now rewrite (chk_not (m + incr))].
Qed.

(** inside *)
Lemma inside_chk_ok mn : forall dm x, each2 (fun m d => fits (m + d)) mn dm -> inside_loop_chk mn dm x = Ret (inside_loop mn dm x).
Proof.
  induction mn as [|m mn IH]; intros [|d dm] [|i x] H; cbn [inside_loop_chk inside_loop]; try reflexivity.
  apply each2_cons in H as [H1 H2]. destruct (i <? m); [reflexivity|]. cbn [orb]. rewrite chk_fits by auto. cbn [obind]. destruct (m + d <=? i); [reflexivity|]. now apply IH.
Qed.
Lemma inside_chk_cell mn dm x : in_box mn dm x ->
  (each2 (fun m d => fits (m + d)) mn dm /\ inside_loop_chk mn dm x = Ret true) \/ (~ each2 (fun m d => fits (m + d)) mn dm /\ inside_loop_chk mn dm x = UB).
Proof.
  induction 1 as [|m d i mn dm x Hi H IH]; cbn [inside_loop_chk].
  - left. split; [intros [|k] ? ? E; discriminate E|reflexivity].
  - rewrite each2_cons. destruct (Z.ltb_spec i m); [lia|]. destruct (fits_dec (m + d)) as [F|F].
    + rewrite chk_fits by auto. cbn [obind]. destruct (Z.leb_spec (m + d) i); [lia|]. destruct IH as [[G1 ->]|[G1 ->]]; [left|right]; split; auto; tauto.
    + rewrite chk_not by auto. right. split; [tauto|reflexivity].
Qed.

Lemma inside_chk_exact mn : forall dm x,
  (overflow_decides mn dm x -> inside_loop_chk mn dm x = UB) /\ (~ overflow_decides mn dm x -> inside_loop_chk mn dm x = Ret (inside_loop mn dm x)).
Proof.
  assert (C : forall m d i mn dm x, overflow_decides (m :: mn) (d :: dm) (i :: x) <-> (m <= i /\ ~ fits (m + d)) \/ (m <= i < m + d /\ fits (m + d) /\ overflow_decides mn dm x)).
  { intros m d i mn' dm' x. split.
    - intros ([|k] & m' & d' & i' & E1 & E2 & E3 & H1 & H2 & H).
      + cbn in E1, E2, E3. injection E1 as <-. injection E2 as <-. injection E3 as <-. left. auto.
      + right. destruct (H 0%nat m d i) as [G1 G2]; [lia|reflexivity..|]. split; [exact G1|]. split; [exact G2|]. exists k, m', d', i'. cbn [nth_error] in E1, E2, E3.
        refine (conj E1 (conj E2 (conj E3 (conj H1 (conj H2 _))))). intros j m0 d0 i0 Hj. apply (H (S j) m0 d0 i0). lia.
    - intros [[H1 H2]|(H1 & H2 & k & m' & d' & i' & E1 & E2 & E3 & H3 & H4 & H)].
      + exists 0%nat, m, d, i. repeat split; auto; lia.
      + exists (S k), m', d', i'. refine (conj E1 (conj E2 (conj E3 (conj H3 (conj H4 _))))). intros [|j] m0 d0 i0 Hj F1 F2 F3; cbn [nth_error] in *.
        * injection F1 as <-. injection F2 as <-. injection F3 as <-. auto.
        * apply (H j m0 d0 i0); auto. lia. }
  assert (N : forall mn dm x, mn = [] \/ dm = [] \/ x = [] -> ~ overflow_decides mn dm x).
  { intros mn' dm x H (k & m & d & i & E1 & E2 & E3 & _). destruct H as [->|[->| ->]], k; discriminate. }
  induction mn as [|m mn IH]; intros dm x.
  - split; [intros H; apply N in H; tauto|reflexivity].
  - destruct dm as [|d dm]; [split; [intros H; apply N in H; tauto|reflexivity]|]. destruct x as [|i x]; [split; [intros H; apply N in H; tauto|reflexivity]|].
    rewrite C. cbn [inside_loop_chk inside_loop]. destruct (IH dm x) as [I1 I2]. destruct (Z.ltb_spec i m); cbn [orb].
    + split; [lia|reflexivity].
    + destruct (fits_dec (m + d)) as [F|F].
      * rewrite chk_fits by auto. cbn [obind]. destruct (Z.leb_spec (m + d) i); split; intros G; try reflexivity; [exfalso; destruct G as [[_ G]|[G _]]; [auto|lia]|apply I1; tauto|apply I2; intros Hc; apply G; right; refine (conj _ (conj F Hc)); lia].
      * rewrite chk_not by auto. split; [reflexivity|]. intros G. destruct G. left. auto.
Qed.

(** intersect *)
Lemma empty_pos a : empty a = false -> forall k d, nth_error (idim a) k = Some d -> 0 < d.
Proof. intros H k d E. apply empty_spec in H. unfold pos_dims in H. rewrite Forall_forall in H. apply H. now apply nth_error_In in E. Qed.

Lemma inters_max_alt am : forall ad bm bd, length ad = length am -> length bm = length am -> length bd = length am ->
  Forall (fun d => 0 < d) ad -> Forall (fun d => 0 < d) bd -> Forall fits am -> Forall fits bm ->
  (each4 (fun m d n e => fits (m + d) /\ fits (n + e)) am ad bm bd /\ inters_max am ad bm bd = Ret (map (fun x => x - 1) (map2 Z.min (map2 Z.add am ad) (map2 Z.add bm bd)))) \/
  (~ each4 (fun m d n e => fits (m + d) /\ fits (n + e)) am ad bm bd /\ inters_max am ad bm bd = UB).
Proof.
  induction am as [|m am IH]; intros [|d ad] [|n bm] [|e bd] L1 L2 L3 P1 P2 F1 F2; cbn [length] in *; try discriminate.
  - left. split; [intros [|k] ? ? ? ? E; discriminate E|reflexivity].
  - inversion P1; inversion P2; inversion F1; inversion F2; subst. rewrite each4_cons. cbn [inters_max map2 map].
    destruct (fits_dec (m + d)) as [G1|G1]; [rewrite (chk_fits _ G1); cbn [obind]|rewrite (chk_not _ G1); right; split; [tauto|reflexivity]].
    destruct (fits_dec (n + e)) as [G2|G2]; [rewrite (chk_fits _ G2); cbn [obind]|rewrite (chk_not _ G2); right; split; [tauto|reflexivity]].
    rewrite chk_fits by (unfold fits in *; lia). cbn [obind].
    assert (X := IH ad bm bd ltac:(lia) ltac:(lia) ltac:(lia) ltac:(assumption) ltac:(assumption) ltac:(assumption) ltac:(assumption)). destruct X as [[X ->]|[X ->]]; cbn [obind]; [left|right]; split; auto; tauto.
Qed.

Lemma minmax_meet am : forall ad bm bd, length ad = length am -> length bm = length am -> length bd = length am ->
  Forall (fun d => 0 < d) ad -> Forall (fun d => 0 < d) bd -> Forall fits am -> Forall fits bm -> Forall fits ad -> Forall fits bd ->
  each4 (fun m d n e => fits (m + d) /\ fits (n + e)) am ad bm bd ->
  (each2 (fun a b => fits (b - a) /\ fits (b - a + 1)) (map2 Z.max am bm) (map (fun x => x - 1) (map2 Z.min (map2 Z.add am ad) (map2 Z.add bm bd))) <->
   each4 meet_fits am ad bm bd).
Proof.
  induction am as [|m am IH]; intros [|d ad] [|n bm] [|e bd] L1 L2 L3 P1 P2 F1 F2 F3 F4; cbn [length] in *; try discriminate.
  - intros _. split; intros _; intros [|k] ? ? ? ?; discriminate.
  - inversion P1; inversion P2; inversion F1; inversion F2; inversion F3; inversion F4; subst. rewrite !each4_cons. intros [[G1 G2] G]. cbn [map2 map]. rewrite each2_cons.
    rewrite (IH ad bm bd) by auto. unfold meet_fits. unfold fits in *. split; intros [A B]; (split; [|auto]); lia.
Qed.

Lemma intersect_alt a b : length (imin a) = length (idim a) -> length (imin b) = length (idim b) -> length (imin b) = length (imin a) ->
  Forall fits (imin a) -> Forall fits (idim a) -> Forall fits (imin b) -> Forall fits (idim b) -> empty a = false -> empty b = false ->
  (each4 meet_fits (imin a) (idim a) (imin b) (idim b) /\ intersect_chk a b = Ret (intersect a b)) \/
  (~ each4 meet_fits (imin a) (idim a) (imin b) (idim b) /\ intersect_chk a b = UB).
Proof.
  intros La Lb Lab F1 F2 F3 F4 Ea Eb. unfold intersect_chk, intersect. rewrite Ea, Eb.
  assert (Pa : Forall (fun d => 0 < d) (idim a)) by (now apply empty_spec in Ea). assert (Pb : Forall (fun d => 0 < d) (idim b)) by (now apply empty_spec in Eb).
  destruct (inters_max_alt (imin a) (idim a) (imin b) (idim b)) as [[H E]|[H E]]; try congruence; rewrite E; cbn [obind].
  - pose proof (minmax_meet (imin a) (idim a) (imin b) (idim b)) as M. specialize (M ltac:(congruence) ltac:(congruence) ltac:(congruence) Pa Pb F1 F3 F2 F4 H).
    destruct (minmax_alt (map2 Z.max (imin a) (imin b)) (map (fun x => x - 1) (map2 Z.min (map2 Z.add (imin a) (idim a)) (map2 Z.add (imin b) (idim b))))) as [[H2 E2]|[H2 E2]].
    + rewrite map_length, !map2_length; try congruence; rewrite !map2_length; congruence.
    + rewrite E2. left. split; [now apply M|]. cbn [obind]. unfold clamp. reflexivity.
    + rewrite E2. right. split; [now rewrite <- M|reflexivity].
  - right. split; [|reflexivity]. intros X. apply H. intros k m d n e H1 H2 H3 H4. destruct (X k m d n e H1 H2 H3 H4) as (A & B & _). auto.
Qed.

(** ** Intervals far from the limits *)
Lemma near_zero_lemma a b : length (imin a) = length (idim a) -> length (imin b) = length (idim b) -> length (imin b) = length (imin a) ->
  each2 (fun m d => 0 <= d /\ - 2 ^ 30 <= m /\ m + d < 2 ^ 30) (imin a) (idim a) -> each2 (fun m d => 0 <= d /\ - 2 ^ 30 <= m /\ m + d < 2 ^ 30) (imin b) (idim b) ->
  imax_chk a = Ret (imax a) /\ ilast_chk a = Ret (ilast a) /\ (forall x, inside_chk a x = Ret (inside a x)) /\ intersect_chk a b = Ret (intersect a b) /\
  (forall t, length t = length (imin a) -> Forall (fun s => Z.abs s <= 2 ^ 30) t -> translateV_chk a t = Ret (translateV a t)) /\
  (forall d s, Z.abs s <= 2 ^ 30 -> translate_chk a d s = translate a d s /\ stacked_chk a d s = stacked a d s).
Proof.
  intros La Lb Lab Ha Hb.
  assert (Fa : each2 (fun m d => fits (m + d)) (imin a) (idim a)) by (intros k m d Em Ed; destruct (Ha k m d Em Ed); unfold fits; lia).
  split; [|split; [|split; [|split; [|split]]]].
  - destruct (max_alt a La) as [[_ E]|[H _]]; [exact E|]. exfalso. apply H. intros k m d Em Ed. destruct (Ha k m d Em Ed). unfold fits. lia.
  - destruct (last_alt a La) as [[_ E]|[H _]]; [exact E|contradiction].
  - intros x. now apply inside_chk_ok.
  - destruct (empty a) eqn:Ea; [unfold intersect_chk, intersect; now rewrite Ea|]. destruct (empty b) eqn:Eb; [unfold intersect_chk, intersect; now rewrite Ea, Eb|].
    assert (F : forall c, length (imin c) = length (idim c) -> each2 (fun m d => 0 <= d /\ - 2 ^ 30 <= m /\ m + d < 2 ^ 30) (imin c) (idim c) -> Forall fits (imin c) /\ Forall fits (idim c)).
    { intros c Lc Hc. split; apply Forall_forall; intros y Hy; apply In_nth_error in Hy as [k Hk]; pose proof (nth_error_lt _ _ _ Hk).
      - destruct (nth_error_ex (idim c) k) as [d Ed]; [congruence|]. destruct (Hc k y d Hk Ed). unfold fits. lia.
      - destruct (nth_error_ex (imin c) k) as [m Em]; [congruence|]. destruct (Hc k m y Em Hk). unfold fits. lia. }
    destruct (F a La Ha). destruct (F b Lb Hb).
    destruct (intersect_alt a b) as [[_ E]|[N _]]; auto. exfalso. apply N. intros k m d n e Em Ed En Ee. destruct (Ha k m d Em Ed). destruct (Hb k n e En Ee).
    pose proof (empty_pos a Ea k d Ed). pose proof (empty_pos b Eb k e Ee). unfold meet_fits, fits. lia.
  - intros t Lt Ht. destruct (translateV_alt a t Lt) as [[_ E]|[H _]]; [exact E|]. exfalso. apply H. intros k m s Em Es. rewrite Forall_forall in Ht. pose proof (Ht s (nth_error_In _ _ Es)) as Hs. cbv beta in Hs.
    destruct (nth_error_ex (idim a) k) as [d Ed]; [rewrite <- La; now apply nth_error_lt in Em|]. destruct (Ha k m d Em Ed). unfold fits. lia.
  - intros d s Hs. destruct (nth_error (imin a) d) as [m|] eqn:Em.
    + destruct (nth_error_ex (idim a) d) as [e Ed]; [rewrite <- La; now apply nth_error_lt in Em|]. destruct (Ha d m e Em Ed). split.
      * apply (translate_alt a d s m Em). unfold fits. lia.
      * apply (stacked_alt a d s m e Em Ed). destruct (0 <=? s); unfold fits; lia.
    + unfold translate_chk, translate, stacked_chk, stacked. apply nth_error_None in Em. destruct (Nat.ltb_spec d (length (imin a))); [lia|]. auto.
Qed.
