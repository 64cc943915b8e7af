(** Proofs about the min-max heap. *)
From Coq Require Import List ZArith Arith Bool Lia ZifyBool ZifyNat Permutation FinFun.
From Verif Require Import Base BaseLemmas MinMaxHeapModel MinMaxHeapSpec MinMaxHeapTree.
Import ListNotations.
Open Scope outcome_scope.
Ltac Zify.zify_post_hook ::= Z.div_mod_to_equations.

Definition flipc {A} (cmp : A -> A -> bool) : A -> A -> bool := fun a b => cmp b a.

Lemma sw_asym {A} (cmp : A -> A -> bool) : StrictWeak cmp -> forall a b, cmp a b = true -> cmp b a = false.
Proof.
  intros H a b Hab. destruct (cmp b a) eqn:E; auto.
  pose proof (sw_trans _ H _ _ _ Hab E). rewrite (sw_irrefl _ H) in *. discriminate.
Qed.

(** "not greater" is transitive. *)
Lemma sw_le_trans {A} (cmp : A -> A -> bool) : StrictWeak cmp ->
  forall a b c, cmp b a = false -> cmp c b = false -> cmp c a = false.
Proof.
  intros H a b c Hab Hbc. destruct (cmp c a) eqn:E; auto.
  destruct (cmp a b) eqn:E1.
  - rewrite (sw_trans _ H _ _ _ E E1) in Hbc. discriminate.
  - destruct (cmp b c) eqn:E2.
    + rewrite (sw_trans _ H _ _ _ E2 E) in Hab. discriminate.
    + destruct (sw_incomp _ H a b c E1 Hab E2 Hbc). congruence.
Qed.

Lemma sw_flip {A} (cmp : A -> A -> bool) : StrictWeak cmp -> StrictWeak (flipc cmp).
Proof.
  intros H. constructor; unfold flipc.
  - apply (sw_irrefl _ H).
  - intros a b c H1 H2. eapply (sw_trans _ H); eauto.
  - intros a b c H1 H2 H3 H4. destruct (sw_incomp _ H a b c H2 H1 H4 H3). auto.
Qed.

Definition leo {A} (cmp : A -> A -> bool) (a b : A) : Prop := cmp b a = false.

(** ** Array primitives *)
Section Arr.
Context {A : Type}.
Variable dflt : A.
Notation F d := (fun k => nth k d dflt).

Lemma vread_ok (d : list A) i : i < length d -> vread d i = Ret (nth i d dflt).
Proof. intros H. unfold vread. rewrite (nth_error_nth' d dflt H). reflexivity. Qed.

Lemma cmp_at_ok cmp (d : list A) i j : i < length d -> j < length d ->
  cmp_at cmp d i j = Ret (cmp (nth i d dflt) (nth j d dflt)).
Proof. intros Hi Hj. unfold cmp_at. rewrite !vread_ok by auto. reflexivity. Qed.

Lemma cmp_at_flip cmp (d : list A) i j : cmp_at (flipc cmp) d i j = cmp_at cmp d j i.
Proof. unfold cmp_at, vread, flipc. destruct (nth_error d i), (nth_error d j); reflexivity. Qed.

Lemma nth_lset (d : list A) i a k : i < length d -> nth k (lset d i a) dflt = if Nat.eqb k i then a else nth k d dflt.
Proof.
  intros H. rewrite <- !nth_default_eq. unfold nth_default.
  rewrite nth_error_lset. rewrite Nat.eqb_sym. destruct (Nat.eqb_spec k i); auto.
  destruct (Nat.ltb_spec i (length d)); [auto|lia].
Qed.

Lemma vswap_ok (d : list A) i j : i < length d -> j < length d ->
  exists d', vswap d i j = Ret d' /\ length d' = length d /\ Permutation d d' /\
    forall k, nth k d' dflt = swap (F d) i j k.
Proof.
  intros Hi Hj. unfold vswap. rewrite !vread_ok by auto. cbn [obind].
  eexists. split; [reflexivity|]. rewrite !length_lset. split; [auto|].
  assert (Hnth : forall k, nth k (lset (lset d i (nth j d dflt)) j (nth i d dflt)) dflt = swap (F d) i j k).
  { intros k. rewrite nth_lset by (now rewrite length_lset). rewrite nth_lset by auto. unfold swap.
    destruct (Nat.eqb_spec k j), (Nat.eqb_spec k i); subst; auto. }
  split; [|exact Hnth].
  apply (Permutation_nth d _ dflt). rewrite !length_lset. split; [auto|].
  exists (swap (fun k => k) i j). split; [|split].
  - intros k Hk. unfold swap. destruct (Nat.eqb_spec k i), (Nat.eqb_spec k j); lia.
  - intros x y Hx Hy. unfold swap.
    destruct (Nat.eqb_spec x i), (Nat.eqb_spec x j), (Nat.eqb_spec y i), (Nat.eqb_spec y j); lia.
  - intros k Hk. rewrite Hnth. unfold swap. destruct (Nat.eqb k i), (Nat.eqb k j); auto.
Qed.

(** ** Children and grandchildren *)
Lemma childMax_flip cmp (d : list A) i : childMax cmp d i = childMin (flipc cmp) d i.
Proof. unfold childMax, childMin. now rewrite cmp_at_flip. Qed.

Lemma gmax_flip cmp (d : list A) k : forall j i, gmax_loop cmp d k j i = gmin_loop (flipc cmp) d k j i.
Proof.
  induction k as [|k IH]; intros j i; cbn [gmax_loop gmin_loop]; auto.
  destruct (j <? length d); auto. rewrite cmp_at_flip.
  destruct (cmp_at cmp d i j) as [b| | |]; cbn [obind]; auto.
Qed.

Lemma grandchildMax_flip cmp (d : list A) i : grandchildMax cmp d i = grandchildMin (flipc cmp) d i.
Proof. unfold grandchildMax, grandchildMin. apply gmax_flip. Qed.

Lemma childMin_spec cmp (d : list A) i : exists c, childMin cmp d i = Ret c /\ 0 < c /\ hparent c = i /\
  (2 * i + 1 < length d -> c < length d) /\
  (StrictWeak cmp -> forall c', 0 < c' -> hparent c' = i -> c' < length d -> leo cmp (nth c d dflt) (nth c' d dflt)).
Proof.
  unfold childMin, childLeft.
  destruct (Nat.ltb_spec (2 * i + 1 + 1) (length d)) as [H|H].
  - rewrite cmp_at_ok by lia. cbn [obind].
    set (b := cmp _ _). exists (if b then 2 * i + 1 + 1 else 2 * i + 1). split; [reflexivity|].
    split; [destruct b; lia|]. split; [unfold hparent; destruct b; lia|]. split; [destruct b; lia|].
    intros SW c' H0 Hp Hc. destruct (child_parent _ _ H0 Hp) as [->| ->]; unfold leo.
    + destruct b eqn:E; [apply (sw_asym _ SW); exact E|apply (sw_irrefl _ SW)].
    + destruct b eqn:E; [replace (2 * i + 2) with (2 * i + 1 + 1) by lia; apply (sw_irrefl _ SW)|].
      replace (2 * i + 2) with (2 * i + 1 + 1) by lia. exact E.
  - exists (2 * i + 1). split; [reflexivity|]. split; [lia|]. split; [unfold hparent; lia|]. split; [lia|].
    intros SW c' H0 Hp Hc. destruct (child_parent _ _ H0 Hp) as [->| ->]; [apply (sw_irrefl _ SW)|lia].
Qed.

Lemma gmin_loop_spec cmp (d : list A) k : forall j i, i < j -> (j < length d -> i < length d) ->
  exists g, gmin_loop cmp d k j i = Ret g /\ i <= g < j + k /\ (g = i \/ g < length d) /\
  (StrictWeak cmp -> i < length d -> leo cmp (nth g d dflt) (nth i d dflt) /\
     forall m, j <= m < j + k -> m < length d -> leo cmp (nth g d dflt) (nth m d dflt)).
Proof.
  induction k as [|k IH]; intros j i Hij Hlt; cbn [gmin_loop].
  - exists i. split; [reflexivity|]. split; [lia|]. split; [auto|]. intros SW _. split; [apply (sw_irrefl _ SW)|lia].
  - destruct (Nat.ltb_spec j (length d)) as [H|H].
    + specialize (Hlt H). rewrite cmp_at_ok by lia. cbn [obind]. set (b := cmp _ _).
      destruct (IH (S j) (if b then j else i)) as (g & Hg & Hr & Hv & Ho); [destruct b; lia|destruct b; lia|].
      exists g. split; [exact Hg|]. split; [destruct b; lia|]. split; [destruct b; lia|].
      intros SW Hi. destruct (Ho SW) as [Ho1 Ho2]; [destruct b; lia|].
      assert (Hgi : leo cmp (nth g d dflt) (nth i d dflt)).
      { destruct b eqn:E; [|exact Ho1]. unfold leo in *. apply (sw_le_trans _ SW _ (nth j d dflt)); auto.
        apply (sw_asym _ SW). exact E. }
      split; [exact Hgi|]. intros m Hm Hml. destruct (Nat.eq_dec m j) as [->|Hne].
      * destruct b eqn:E; [exact Ho1|]. unfold leo in *. apply (sw_le_trans _ SW _ (nth i d dflt)); auto.
      * apply Ho2; lia.
    + exists i. split; [reflexivity|]. split; [lia|]. split; [auto|]. intros SW _. split; [apply (sw_irrefl _ SW)|lia].
Qed.

Lemma grandchildMin_spec cmp (d : list A) i : exists g, grandchildMin cmp d i = Ret g /\ 2 < g /\ grandparent g = i /\
  (4 * i + 3 < length d -> g < length d) /\
  (StrictWeak cmp -> forall g', 2 < g' -> grandparent g' = i -> g' < length d -> leo cmp (nth g d dflt) (nth g' d dflt)).
Proof.
  unfold grandchildMin, grandchild.
  destruct (gmin_loop_spec cmp d 3 (4 * i + 3 + 0 + 1) (4 * i + 3 + 0)) as (g & Hg & Hr & Hv & Ho); try lia.
  exists g. split; [exact Hg|]. split; [lia|]. split; [unfold grandparent; lia|]. split; [lia|].
  intros SW g' H2 Hp Hl. unfold grandparent in Hp.
  destruct (Ho SW) as [Ho1 Ho2]; [lia|].
  destruct (Nat.eq_dec g' (4 * i + 3 + 0)) as [->|Hne]; [exact Ho1|]. apply Ho2; lia.
Qed.

(** ** Moving up: one loop for both directions *)
Fixpoint gup (test : A -> A -> bool) (fuel : nat) (d : list A) (i j : nat) : outcome (list A * nat) :=
  match fuel with
  | O => Stuck
  | S f =>
    if j <? length d then
      let! c := cmp_at test d i j in
      if c : bool then
        let! d' := vswap d i j in
        gup test f d' j (if hasGrandparent j then grandparent j else length d)
      else Ret (d, i)
    else Ret (d, i)
  end.

Lemma up_min_g cmp fuel : forall (d : list A) i j, up_min cmp fuel d i j = gup cmp fuel d i j.
Proof.
  induction fuel as [|f IH]; intros d i j; cbn [up_min gup]; auto.
  destruct (j <? length d); auto. destruct (cmp_at cmp d i j) as [[]| | |]; cbn [obind]; auto.
  destruct (vswap d i j); cbn [obind]; auto.
Qed.

Lemma up_max_g cmp fuel : forall (d : list A) i j, up_max cmp fuel d i j = gup (fun x y => negb (cmp x y)) fuel d i j.
Proof.
  induction fuel as [|f IH]; intros d i j; cbn [up_max gup]; auto.
  destruct (j <? length d); auto.
  replace (cmp_at (fun x y => negb (cmp x y)) d i j) with (obind (cmp_at cmp d i j) (fun b => Ret (negb b)))
    by (unfold cmp_at; destruct (vread d i); cbn [obind]; auto; destruct (vread d j); auto).
  destruct (cmp_at cmp d i j) as [b| | |]; cbn [obind]; auto. destruct (negb b); auto.
  destruct (vswap d i j); cbn [obind]; auto.
Qed.

Lemma gup_total test fuel : forall (d : list A) i j, i < length d ->
  (length d <= j /\ 0 < fuel \/ j < length d /\ j + 1 < fuel) ->
  exists d' i', gup test fuel d i j = Ret (d', i') /\ Permutation d d' /\ i' < length d'.
Proof.
  induction fuel as [|f IH]; intros d i j Hi Hj; [lia|]. cbn [gup].
  destruct (Nat.ltb_spec j (length d)) as [H|H].
  - rewrite cmp_at_ok by auto. cbn [obind]. destruct (test _ _).
    + destruct (vswap_ok d i j Hi H) as (d1 & -> & Hl & HP & _). cbn [obind].
      destruct (IH d1 j (if hasGrandparent j then grandparent j else length d)) as (d2 & i2 & -> & HP2 & Hi2).
      * lia.
      * rewrite Hl. unfold hasGrandparent. destruct (Nat.ltb_spec 2 j).
        -- right. unfold grandparent. lia.
        -- left. lia.
      * exists d2, i2. split; [reflexivity|]. split; [|auto]. eapply Permutation_trans; eauto.
    + exists d, i. auto.
  - exists d, i. auto.
Qed.

(** Climbing along one parity restores the order. *)
Lemma gup_climb (O : A -> A -> Prop) (P : nat -> bool) (test : A -> A -> bool) :
  (forall a, O a a) -> (forall a b c, O a b -> O b c -> O a c) ->
  (forall b, 0 < b -> P b = negb (P (hparent b))) ->
  (forall x y, test x y = true -> O x y) -> (forall x y, test x y = false -> O y x) ->
  forall fuel d p, p < length d -> p + 1 < fuel -> Up O P (F d) (length d) p ->
  exists d' i', gup test fuel d p (if hasGrandparent p then grandparent p else length d) = Ret (d', i') /\
    Permutation d d' /\ MM O P (F d') (length d') /\ i' < length d' /\
    nth i' d' dflt = nth p d dflt /\ (forall k, P k = false -> nth k d' dflt = nth k d dflt).
Proof.
  intros Orefl Otrans PS T1 T2. induction fuel as [|f IH]; intros d p Hp Hf HU; [lia|]. cbn [gup].
  destruct (hasGrandparent p) eqn:HG; unfold hasGrandparent in HG; [apply Nat.ltb_lt in HG as H2|apply Nat.ltb_ge in HG as H2].
  - assert (Hg : grandparent p < p) by (unfold grandparent; lia).
    destruct (Nat.ltb_spec (grandparent p) (length d)) as [_|]; [|lia].
    rewrite cmp_at_ok by lia. cbn [obind]. destruct (test _ _) eqn:E.
    + destruct (vswap_ok d p (grandparent p)) as (d1 & -> & Hl & HP & Hn); [lia|lia|]. cbn [obind].
      assert (HU1 : Up O P (F d1) (length d1) (grandparent p)).
      { rewrite Hl. eapply up_step; eauto. }
      destruct (IH d1 (grandparent p)) as (d2 & i2 & He & HP2 & HM & Hi2 & Hv & Hk); auto; try lia.
      rewrite Hl in He. rewrite He. exists d2, i2. split; [reflexivity|].
      split; [eapply Permutation_trans; eauto|]. split; [auto|]. split; [auto|]. split.
      * rewrite Hv, Hn. unfold swap. destruct (Nat.eqb_spec (grandparent p) p); [lia|]. now rewrite Nat.eqb_refl.
      * intros k HPk. rewrite Hk, Hn by auto. unfold swap.
        destruct HU as (HPp & _ & _).
        destruct (Nat.eqb_spec k p); [congruence|]. destruct (Nat.eqb_spec k (grandparent p)); [|auto].
        subst k. rewrite P_gp in HPk by auto. congruence.
    + exists d, p. split; [reflexivity|]. split; [auto|]. split; [|auto].
      eapply up_stop; eauto.
  - destruct (Nat.ltb_spec (length d) (length d)); [lia|].
    exists d, p. split; [reflexivity|]. split; [auto|]. split; [|auto].
    eapply up_stop; eauto. lia.
Qed.

(** ** Moving down: one loop for both directions *)
Fixpoint gdown (cont : bool) (cmp : A -> A -> bool) (fuel : nat) (d : list A) (icurr : nat) : outcome (list A) :=
  match fuel with
  | O => Stuck
  | S f =>
    if icurr <? length d then
      let! ichild := childMin cmp d icurr in
      let! igrand := grandchildMin cmp d icurr in
      let! c := (if igrand <? length d then
                   let! c1 := cmp_at cmp d igrand icurr in
                   if c1 : bool then cmp_at cmp d igrand ichild else Ret false
                 else Ret false) in
      if c : bool then
        let! d1 := vswap d icurr igrand in
        let! c2 := cmp_at cmp d1 (hparent igrand) igrand in
        let! d2 := (if c2 : bool then vswap d1 (hparent igrand) igrand else Ret d1) in
        gdown cont cmp f d2 igrand
      else
        let! c3 := (if ichild <? length d then cmp_at cmp d ichild icurr else Ret false) in
        if c3 : bool then
          let! d1 := vswap d icurr ichild in
          if cont then gdown cont cmp f d1 ichild else Ret d1
        else Ret d
    else Ret d
  end.

Lemma obind_ext {B C} (x : outcome B) (k1 k2 : B -> outcome C) : (forall b, k1 b = k2 b) -> obind x k1 = obind x k2.
Proof. intros H. destruct x; cbn; auto. Qed.

Lemma down_min_g cmp fuel : forall (d : list A) i, down_min cmp fuel d i = gdown true cmp fuel d i.
Proof.
  induction fuel as [|f IH]; intros d i; cbn [down_min gdown]; auto.
  destruct (i <? length d); auto. repeat (apply obind_ext; intros ?).
  destruct b1; repeat (apply obind_ext; intros ?); auto.
  destruct b1; auto. apply obind_ext; auto.
Qed.

Lemma down_max_g cmp fuel : forall (d : list A) i, down_max cmp fuel d i = gdown false (flipc cmp) fuel d i.
Proof.
  induction fuel as [|f IH]; intros d i; cbn [down_max gdown]; auto.
  destruct (i <? length d); auto. rewrite childMax_flip, grandchildMax_flip.
  apply obind_ext; intros c. apply obind_ext; intros g. rewrite !cmp_at_flip.
  apply obind_ext; intros b. destruct b.
  - apply obind_ext; intros d1. rewrite cmp_at_flip. repeat (apply obind_ext; intros ?). auto.
  - apply obind_ext; intros b. destruct b; auto. destruct (vswap d i c); reflexivity.
Qed.

(** One iteration, as a case distinction. *)
Lemma gdown_step cont cmp fuel d p : p < length d ->
  exists c g,
  (0 < c /\ hparent c = p /\ (2 * p + 1 < length d -> c < length d) /\
   (StrictWeak cmp -> forall c', 0 < c' -> hparent c' = p -> c' < length d -> leo cmp (nth c d dflt) (nth c' d dflt))) /\
  (2 < g /\ grandparent g = p /\ (4 * p + 3 < length d -> g < length d) /\
   (StrictWeak cmp -> forall g', 2 < g' -> grandparent g' = p -> g' < length d -> leo cmp (nth g d dflt) (nth g' d dflt))) /\
  ( (g < length d /\ cmp (nth g d dflt) (nth p d dflt) = true /\ cmp (nth g d dflt) (nth c d dflt) = true /\
     exists d1 d2, length d2 = length d /\ Permutation d d2 /\
       (forall k, nth k d1 dflt = swap (F d) p g k) /\
       ((cmp (nth (hparent g) d1 dflt) (nth g d1 dflt) = false /\ forall k, nth k d2 dflt = nth k d1 dflt) \/
        (cmp (nth (hparent g) d1 dflt) (nth g d1 dflt) = true /\ forall k, nth k d2 dflt = swap (F d1) (hparent g) g k)) /\
       gdown cont cmp (S fuel) d p = gdown cont cmp fuel d2 g) \/
    (~ (g < length d /\ cmp (nth g d dflt) (nth p d dflt) = true /\ cmp (nth g d dflt) (nth c d dflt) = true) /\
     ((c < length d /\ cmp (nth c d dflt) (nth p d dflt) = true /\
       exists d1, length d1 = length d /\ Permutation d d1 /\ (forall k, nth k d1 dflt = swap (F d) p c k) /\
         gdown cont cmp (S fuel) d p = if cont then gdown cont cmp fuel d1 c else Ret d1) \/
      ((c < length d -> cmp (nth c d dflt) (nth p d dflt) = false) /\ gdown cont cmp (S fuel) d p = Ret d)))).
Proof.
  intros Hp. destruct (childMin_spec cmp d p) as (c & Ec & Hc0 & Hcp & Hcl & Hco).
  destruct (grandchildMin_spec cmp d p) as (g & Eg & Hg2 & Hgp & Hgl & Hgo).
  exists c, g. split; [auto|]. split; [auto|].
  cbn [gdown]. destruct (Nat.ltb_spec p (length d)) as [_|]; [|lia]. rewrite Ec, Eg. cbn [obind].
  assert (Hcc : c < length d -> obind (if c <? length d then cmp_at cmp d c p else Ret false)
       (fun c3 : bool => if c3 then obind (vswap d p c) (fun d1 => if cont then gdown cont cmp fuel d1 c else Ret d1) else Ret d) =
       if cmp (nth c d dflt) (nth p d dflt) then obind (vswap d p c) (fun d1 => if cont then gdown cont cmp fuel d1 c else Ret d1) else Ret d).
  { intros H. destruct (Nat.ltb_spec c (length d)); [|lia]. rewrite cmp_at_ok by lia. reflexivity. }
  assert (Hncc : length d <= c -> obind (if c <? length d then cmp_at cmp d c p else Ret false)
       (fun c3 : bool => if c3 then obind (vswap d p c) (fun d1 => if cont then gdown cont cmp fuel d1 c else Ret d1) else Ret d) = Ret d).
  { intros H. destruct (Nat.ltb_spec c (length d)); [lia|]. reflexivity. }
  set (rest := obind (if c <? length d then cmp_at cmp d c p else Ret false) _) in *.
  assert (Hrest : (c < length d /\ cmp (nth c d dflt) (nth p d dflt) = true /\
       exists d1, length d1 = length d /\ Permutation d d1 /\ (forall k, nth k d1 dflt = swap (F d) p c k) /\
         rest = if cont then gdown cont cmp fuel d1 c else Ret d1) \/
      ((c < length d -> cmp (nth c d dflt) (nth p d dflt) = false) /\ rest = Ret d)).
  { destruct (lt_dec c (length d)) as [H|H].
    - rewrite (Hcc H). destruct (cmp (nth c d dflt) (nth p d dflt)) eqn:E.
      + left. split; [auto|]. split; [auto|]. destruct (vswap_ok d p c Hp H) as (d1 & -> & Hl & HP & Hn).
        exists d1. cbn [obind]. auto.
      + right. auto.
    - right. split; [lia|]. apply Hncc. lia. }
  clearbody rest. clear Hcc Hncc.
  destruct (Nat.ltb_spec g (length d)) as [Hg|Hg].
  - assert (Hcl' : c < length d) by (apply Hcl; unfold grandparent in Hgp; lia).
    rewrite !cmp_at_ok by lia. cbn [obind].
    destruct (cmp (nth g d dflt) (nth p d dflt)) eqn:E1; cbn [obind].
    + destruct (cmp (nth g d dflt) (nth c d dflt)) eqn:E2; cbn [obind].
      * left. split; [auto|]. split; [auto|]. split; [auto|].
        destruct (vswap_ok d p g Hp Hg) as (d1 & -> & Hl & HP & Hn). cbn [obind].
        assert (Hq : hparent g < length d1) by (unfold hparent; lia).
        rewrite cmp_at_ok by lia. cbn [obind].
        destruct (cmp (nth (hparent g) d1 dflt) (nth g d1 dflt)) eqn:E3.
        -- destruct (vswap_ok d1 (hparent g) g Hq) as (d2 & E & Hl2 & HP2 & Hn2); [lia|].
           exists d1, d2. split; [lia|]. split; [eapply Permutation_trans; eauto|]. split; [auto|].
           split; [right; auto|]. now rewrite E.
        -- exists d1, d1. split; [lia|]. split; [auto|]. split; [auto|]. split; [left; auto|]. reflexivity.
      * right. split; [intros (_ & _ & ?); congruence|]. exact Hrest.
    + right. split; [intros (_ & ? & _); congruence|]. exact Hrest.
  - cbn [obind]. right. split; [lia|]. exact Hrest.
Qed.

Lemma gdown_out cont cmp fuel (d : list A) p : length d <= p -> gdown cont cmp (S fuel) d p = Ret d.
Proof. intros H. cbn [gdown]. destruct (Nat.ltb_spec p (length d)); [lia|auto]. Qed.

Lemma gdown_total cont cmp fuel : forall (d : list A) p, length d < fuel + p -> 0 < fuel ->
  exists d', gdown cont cmp fuel d p = Ret d' /\ Permutation d d'.
Proof.
  induction fuel as [|f IH]; intros d p Hf H0; [lia|].
  destruct (le_lt_dec (length d) p) as [H|H]; [rewrite gdown_out by auto; eauto|].
  destruct (gdown_step cont cmp f d p H) as (c & g & (Hc0 & Hcp & _) & (Hg2 & Hgp & _) &
     [(Hg & _ & _ & d1 & d2 & Hl & HP & _ & _ & ->)|(_ & [(Hc & _ & d1 & Hl & HP & _ & ->)|(_ & ->)])]).
  - destruct (IH d2 g) as (d' & -> & HP'); [unfold grandparent in Hgp; lia|unfold grandparent in Hgp; lia|].
    exists d'. split; [auto|]. eapply Permutation_trans; eauto.
  - destruct cont; [|eauto].
    destruct (IH d1 c) as (d' & -> & HP'); [unfold hparent in Hcp; lia|unfold hparent in Hcp; lia|].
    exists d'. split; [auto|]. eapply Permutation_trans; eauto.
  - eauto.
Qed.

(** ** Copies *)
Definition eqv (cmp : A -> A -> bool) v w := negb (cmp v w) && negb (cmp w v).

Lemma filter_map_length {B} (g : B -> A) q l : length (filter q (map g l)) = length (filter (fun x => q (g x)) l).
Proof. induction l as [|x l IH]; simpl; auto. destruct (q (g x)); simpl; auto. Qed.

Lemma copies_ge cmp (d : list A) v I : NoDup I -> (forall i, In i I -> i < length d /\ eqv cmp v (nth i d dflt) = true) ->
  length I <= copies cmp v d.
Proof.
  intros HN HI. unfold copies.
  assert (Hd : d = map (fun i => nth i d dflt) (seq 0 (length d))).
  { apply (nth_ext _ _ dflt dflt); [now rewrite map_length, seq_length|].
    intros n Hn. symmetry. rewrite (nth_indep (map _ _) dflt ((fun i => nth i d dflt) 0)) by (now rewrite map_length, seq_length).
    rewrite (map_nth (fun i => nth i d dflt) (seq 0 (length d)) 0 n), seq_nth by auto. auto. }
  rewrite Hd at 1. rewrite filter_map_length. apply NoDup_incl_length; [auto|].
  intros i Hi. destruct (HI i Hi) as [H1 H2]. apply filter_In. split; [apply in_seq; lia|exact H2].
Qed.

Lemma copies_perm cmp (d d' : list A) v : Permutation d d' -> copies cmp v d = copies cmp v d'.
Proof.
  unfold copies. induction 1; simpl; auto; try congruence.
  - destruct (negb _ && negb _); simpl; auto.
  - destruct (negb (cmp v y) && _), (negb (cmp v x) && _); simpl; auto.
Qed.

Section Order.
Variable cmp : A -> A -> bool.
Hypothesis SW : StrictWeak cmp.
Variable P : nat -> bool.
Hypothesis PS : forall b, 0 < b -> P b = negb (P (hparent b)).
Notation O := (leo cmp).

Lemma leo_refl a : O a a.
Proof. apply (sw_irrefl _ SW). Qed.
Lemma leo_trans a b c : O a b -> O b c -> O a c.
Proof. unfold leo. intros H1 H2. eapply sw_le_trans; eauto. Qed.
Lemma lt_leo a b : cmp a b = true -> O a b.
Proof. apply (sw_asym _ SW). Qed.
Lemma lt_leo_trans a b c : cmp a b = true -> O b c -> cmp a c = true.
Proof.
  intros H1 H2. destruct (cmp a c) eqn:E; auto. pose proof (leo_trans _ _ _ H2 E). congruence.
Qed.
Lemma leo_lt_trans a b c : O a b -> cmp b c = true -> cmp a c = true.
Proof.
  intros H1 H2. destruct (cmp a c) eqn:E; auto. pose proof (leo_trans _ _ _ E H1). congruence.
Qed.

(** Moving down with early exit (heapDownMax) restores the order. *)
Lemma gdown_false_ok fuel : forall (d : list A) p, length d < fuel + p -> 0 < fuel -> Down O P (F d) (length d) p ->
  exists d', gdown false cmp fuel d p = Ret d' /\ Permutation d d' /\ MM O P (F d') (length d').
Proof.
  induction fuel as [|f IH]; intros d p Hf H0 HD; [lia|].
  destruct (le_lt_dec (length d) p) as [H|H].
  { rewrite gdown_out by auto. exists d. split; [auto|]. split; [auto|]. eapply down_stop; eauto.
    intros b Hb Hlb. pose proof (anc_lt _ _ Hb). lia. }
  destruct (gdown_step false cmp f d p H) as (c & g & (Hc0 & Hcp & Hcl & Hco) & (Hg2 & Hgp & Hgl & Hgo) & Hcase).
  specialize (Hco SW). specialize (Hgo SW).
  destruct Hcase as [(Hg & Hgp' & Hgc & d1 & d2 & Hl & HP & Hn1 & Hn2 & ->)|(Hno & [(Hc & Hcp' & d1 & Hl & HP & Hn & ->)|(Hcn & ->)])].
  - assert (HD2 : Down O P (F d2) (length d2) g).
    { rewrite Hl. refine (down_grand O leo_trans P PS (F d) (F d1) (F d2) (length d) p g HD Hg2 Hgp Hg _ _ Hn1 _).
      - apply (least_desc O leo_refl leo_trans P PS _ _ _ _ HD); auto.
        intros c' H1 H2 H3. apply (leo_trans _ (nth c d dflt)); auto. now apply lt_leo.
      - now apply lt_leo.
      - destruct Hn2 as [[H1 H2]|[H1 H2]]; [left|right]; split; auto. now apply lt_leo. }
    destruct (IH d2 g) as (d' & -> & HP' & HM); auto; try (unfold grandparent in Hgp; lia).
    exists d'. split; [auto|]. split; [eapply Permutation_trans; eauto|auto].
  - exists d1. split; [auto|]. split; [auto|]. rewrite Hl.
    refine (down_child O leo_trans P PS (F d) (F d1) (length d) p c HD Hc0 Hcp Hc _ _ Hn).
    + apply (least_desc O leo_refl leo_trans P PS _ _ _ _ HD); auto.
      intros g' H1 H2 H3. specialize (Hgo g' H1 H2 H3).
      assert (Hgd : g < length d) by (apply Hgl; unfold grandparent in H2; lia).
      apply (leo_trans _ (nth g d dflt)); auto.
      destruct (cmp (nth g d dflt) (nth c d dflt)) eqn:E; [|exact E].
      destruct (cmp (nth g d dflt) (nth p d dflt)) eqn:E2; [tauto|].
      apply (leo_trans _ (nth p d dflt)); [now apply lt_leo|exact E2].
    + now apply lt_leo.
  - exists d. split; [auto|]. split; [auto|]. eapply down_stop; eauto.
    apply (least_desc O leo_refl leo_trans P PS _ _ _ _ HD).
    + intros c' H1 H2 H3. assert (Hcd : c < length d) by (apply Hcl; unfold hparent in H2; lia).
      apply (leo_trans _ (nth c d dflt)); auto. exact (Hcn Hcd).
    + intros g' H1 H2 H3. assert (Hgd : g < length d) by (apply Hgl; unfold grandparent in H2; lia).
      assert (Hcd : c < length d) by (apply Hcl; unfold grandparent in H2; lia).
      apply (leo_trans _ (nth g d dflt)); auto.
      destruct (cmp (nth g d dflt) (nth p d dflt)) eqn:E2; [|exact E2].
      destruct (cmp (nth g d dflt) (nth c d dflt)) eqn:E; [tauto|].
      apply (leo_trans _ (nth c d dflt)); [exact (Hcn Hcd)|exact E].
Qed.

(** heapDownMin continues below the child it swapped with; harmless when at most two equivalent copies
    are present, of every item but the last in order, and the moving item came from the slot that was just removed. *)
Definition tame (d : list A) : Prop := forall v, copies cmp v d <= 2 \/ (forall x, In x d -> cmp v x = false).
Definition J (d : list A) p : Prop :=
  P (hparent (length d)) = false -> anc p (hparent (length d)) -> O (nth p d dflt) (nth (hparent (length d)) d dflt).

Lemma gdown_true_ok fuel : forall (d : list A) p, length d < fuel + p -> 0 < fuel -> Down O P (F d) (length d) p ->
  tame d -> J d p ->
  exists d', gdown true cmp fuel d p = Ret d' /\ Permutation d d' /\ MM O P (F d') (length d').
Proof.
  induction fuel as [|f IH]; intros d p Hf H0 HD Hfew HJ; [lia|].
  destruct (le_lt_dec (length d) p) as [H|H].
  { rewrite gdown_out by auto. exists d. split; [auto|]. split; [auto|]. eapply down_stop; eauto.
    intros b Hb Hlb. pose proof (anc_lt _ _ Hb). lia. }
  destruct (gdown_step true cmp f d p H) as (c & g & (Hc0 & Hcp & Hcl & Hco) & (Hg2 & Hgp & Hgl & Hgo) & Hcase).
  specialize (Hco SW). specialize (Hgo SW).
  destruct Hcase as [(Hg & Hgp' & Hgc & d1 & d2 & Hl & HP & Hn1 & Hn2 & ->)|(Hno & [(Hc & Hcp' & d1 & Hl & HP & Hn & ->)|(Hcn & ->)])].
  - assert (HD2 : Down O P (F d2) (length d2) g).
    { rewrite Hl. refine (down_grand O leo_trans P PS (F d) (F d1) (F d2) (length d) p g HD Hg2 Hgp Hg _ _ Hn1 _).
      - apply (least_desc O leo_refl leo_trans P PS _ _ _ _ HD); auto.
        intros c' H1 H2 H3. apply (leo_trans _ (nth c d dflt)); auto. now apply lt_leo.
      - now apply lt_leo.
      - destruct Hn2 as [[H1 H2]|[H1 H2]]; [left|right]; split; auto. now apply lt_leo. }
    assert (HJ2 : J d2 g).
    { unfold J in *. rewrite Hl. intros HPq Hanc.
      assert (Hpg : anc p g) by (rewrite <- Hgp; now apply anc_gp).
      specialize (HJ HPq (anc_trans _ _ _ Hpg Hanc)).
      pose proof (anc_lt _ _ Hanc) as Hlt. pose proof (anc_lt _ _ Hpg) as Hlt'.
      set (q := hparent (length d)) in *.
      assert (Hhp : hparent g < g) by (apply hparent_lt; lia).
      assert (Hphp : p < hparent g) by (unfold grandparent, hparent in *; lia).
      assert (E1q : nth q d1 dflt = nth q d dflt).
      { rewrite Hn1. unfold swap. destruct (Nat.eqb_spec q p); [lia|]. destruct (Nat.eqb_spec q g); [lia|auto]. }
      assert (E1g : nth g d1 dflt = nth p d dflt).
      { rewrite Hn1. unfold swap. destruct (Nat.eqb_spec g p); [lia|]. now rewrite Nat.eqb_refl. }
      destruct Hn2 as [[H1 H2]|[H1 H2]]; rewrite !H2.
      - now rewrite E1q, E1g.
      - unfold swap. destruct (Nat.eqb_spec g (hparent g)); [lia|]. rewrite Nat.eqb_refl.
        destruct (Nat.eqb_spec q (hparent g)); [lia|]. destruct (Nat.eqb_spec q g); [lia|].
        rewrite E1q. rewrite E1g in H1. apply (leo_trans _ (nth p d dflt)); auto. now apply lt_leo. }
    destruct (IH d2 g) as (d' & -> & HP' & HM); auto; try (unfold grandparent in Hgp; lia).
    { intros v. destruct (Hfew v) as [Hv|Hv]; [left; now rewrite <- (copies_perm _ _ _ _ HP)|right].
      intros x Hx. apply Hv. apply (Permutation_in _ (Permutation_sym HP)). exact Hx. }
    exists d'. split; [auto|]. split; [eapply Permutation_trans; eauto|auto].
  - assert (Hpc : anc p c) by (rewrite <- Hcp; now apply anc1).
    assert (Hleast : forall b, anc p b -> b < length d -> O (nth c d dflt) (nth b d dflt)).
    { apply (least_desc O leo_refl leo_trans P PS _ _ _ _ HD); auto.
      intros g' H1 H2 H3. specialize (Hgo g' H1 H2 H3).
      assert (Hgd : g < length d) by (apply Hgl; unfold grandparent in H2; lia).
      apply (leo_trans _ (nth g d dflt)); auto.
      destruct (cmp (nth g d dflt) (nth c d dflt)) eqn:E; [|exact E].
      destruct (cmp (nth g d dflt) (nth p d dflt)) eqn:E2; [tauto|].
      apply (leo_trans _ (nth p d dflt)); [now apply lt_leo|exact E2]. }
    assert (HPc : P c = false) by (destruct HD as [HPp _]; rewrite PS, Hcp, HPp by auto; auto).
    assert (Hplt := anc_lt _ _ Hpc).
    (* below the child, everything is equivalent to it *)
    assert (Heq : forall e, anc c e -> e < length d -> eqv cmp (nth c d dflt) (nth e d dflt) = true).
    { intros e He Hel. pose proof (Hleast e (anc_trans _ _ _ Hpc He) Hel) as H1.
      destruct HD as [_ HD]. pose proof (HD c e He Hel ltac:(lia)) as H2. rewrite pr_false in H2 by auto.
      unfold eqv, leo in *. now rewrite H1, H2. }
    assert (Hleaf : length d <= 2 * c + 1).
    { destruct (le_lt_dec (length d) (2 * c + 1)) as [|H1]; auto. exfalso.
      destruct (Nat.eq_dec (length d) (2 * c + 2)) as [H2|H2].
      - assert (Hq : hparent (length d) = c) by (rewrite H2; unfold hparent; lia).
        unfold J in HJ. rewrite Hq in HJ. specialize (HJ HPc Hpc). unfold leo in HJ. congruence.
      - assert (A1 : anc c (2 * c + 1)).
        { replace c with (hparent (2 * c + 1)) at 1 by (unfold hparent; lia). apply anc1. lia. }
        assert (A2 : anc c (2 * c + 2)).
        { replace c with (hparent (2 * c + 2)) at 1 by (unfold hparent; lia). apply anc1. lia. }
        assert (length [c; 2 * c + 1; 2 * c + 2] <= copies cmp (nth c d dflt) d).
        { apply copies_ge.
          - repeat constructor; simpl; lia.
          - intros i [<-|[<-|[<-|[]]]]; (split; [lia|]); auto; try (apply Heq; auto; lia).
            unfold eqv. now rewrite (sw_irrefl _ SW). }
        destruct (Hfew (nth c d dflt)) as [Hv|Hv]; [simpl in *; lia|].
        rewrite (Hv (nth p d dflt)) in Hcp' by (apply nth_In; lia). discriminate. }
    destruct f as [|f]; [lia|].
    assert (Hend : gdown true cmp (S f) d1 c = Ret d1).
    { destruct (gdown_step true cmp f d1 c) as (c' & g' & (Hc0' & Hcp1 & _) & (Hg2' & Hgp1 & _) & Hcase); [lia|].
      assert (length d1 <= c') by (unfold hparent in Hcp1; lia).
      assert (length d1 <= g') by (unfold grandparent in Hgp1; lia).
      destruct Hcase as [(? & _)|(_ & [(? & _)|(_ & ?)])]; [lia|lia|auto]. }
    rewrite Hend. exists d1. split; [auto|]. split; [auto|]. rewrite Hl.
    refine (down_child O leo_trans P PS (F d) (F d1) (length d) p c HD Hc0 Hcp Hc Hleast _ Hn).
    now apply lt_leo.
  - exists d. split; [auto|]. split; [auto|]. eapply down_stop; eauto.
    apply (least_desc O leo_refl leo_trans P PS _ _ _ _ HD).
    + intros c' H1 H2 H3. assert (Hcd : c < length d) by (apply Hcl; unfold hparent in H2; lia).
      apply (leo_trans _ (nth c d dflt)); auto. exact (Hcn Hcd).
    + intros g' H1 H2 H3. assert (Hgd : g < length d) by (apply Hgl; unfold grandparent in H2; lia).
      assert (Hcd : c < length d) by (apply Hcl; unfold grandparent in H2; lia).
      apply (leo_trans _ (nth g d dflt)); auto.
      destruct (cmp (nth g d dflt) (nth p d dflt)) eqn:E2; [|exact E2].
      destruct (cmp (nth g d dflt) (nth c d dflt)) eqn:E; [tauto|].
      apply (leo_trans _ (nth c d dflt)); [exact (Hcn Hcd)|exact E].
Qed.
End Order.
End Arr.
