(** Proofs about intervals, indexers, iteration and grids. *)
From Coq Require Import List ZArith Bool Lia ZifyBool FinFun Permutation.
From Verif Require Import Base BaseLemmas IntervalModel IntervalSpec GridSpec.
Import ListNotations.
Open Scope outcome_scope.
Open Scope Z_scope.

(** ** Mixed radix *)
Definition pos_dims (dm : list Z) : Prop := Forall (fun d => 0 < d) dm.

Lemma vol_pos dm : pos_dims dm -> 0 < vol dm.
Proof. induction 1; simpl; nia. Qed.

Lemma corners_pos mn dm : corners_ok mn dm -> pos_dims dm.
Proof. induction 1; constructor; auto. Qed.

Lemma corners_length mn dm : corners_ok mn dm -> length mn = length dm.
Proof. induction 1; simpl; auto. Qed.

Lemma in_box_length mn dm x : in_box mn dm x -> length mn = length dm /\ length x = length dm.
Proof. induction 1; simpl; intuition lia. Qed.

Lemma in_box_pos mn dm x : in_box mn dm x -> pos_dims dm.
Proof. induction 1; constructor; auto. lia. Qed.

Lemma getPos_range mn dm x : in_box mn dm x -> 0 <= static_getPos mn dm x < vol dm.
Proof.
  induction 1 as [|m d x mn dm xs H Hb IH]; simpl; [lia|]. nia.
Qed.

(** Pure version of getIndices. *)
Fixpoint sidx (p : Z) (mn dm : list Z) : list Z :=
  match mn, dm with
  | m :: mn', d :: dm' => m + p mod d :: sidx (p / d) mn' dm'
  | _, _ => []
  end.

Lemma static_getIndices_pure dm : pos_dims dm -> forall mn p, 0 <= p -> static_getIndices p mn dm = Ret (sidx p mn dm).
Proof.
  induction 1 as [|d dm Hd Hdm IH]; intros [|m mn] p Hp; simpl; auto.
  destruct (Z.eqb_spec d 0); [lia|].
  rewrite Z.quot_div_nonneg, Z.rem_mod_nonneg by lia. rewrite IH by (apply Z.div_pos; lia). reflexivity.
Qed.

Lemma sidx_in_box dm : pos_dims dm -> forall mn p, length mn = length dm -> in_box mn dm (sidx p mn dm).
Proof.
  induction 1 as [|d dm Hd Hdm IH]; intros [|m mn] p Hl; simpl in *; try discriminate; constructor.
  - pose proof (Z.mod_pos_bound p d Hd). lia.
  - apply IH. lia.
Qed.

Lemma getPos_sidx dm : pos_dims dm -> forall mn p, length mn = length dm -> 0 <= p < vol dm ->
  static_getPos mn dm (sidx p mn dm) = p.
Proof.
  induction 1 as [|d dm Hd Hdm IH]; intros [|m mn] p Hl Hp; simpl in *; try discriminate; [lia|].
  rewrite IH; [|lia|].
  - pose proof (Z.div_mod p d). lia.
  - split; [apply Z.div_pos; lia|]. apply Z.div_lt_upper_bound; lia.
Qed.

Lemma sidx_getPos mn dm x : in_box mn dm x -> sidx (static_getPos mn dm x) mn dm = x.
Proof.
  induction 1 as [|m d x mn dm xs H Hb IH]; simpl; auto.
  replace (x - m + d * static_getPos mn dm xs) with (static_getPos mn dm xs * d + (x - m)) by ring.
  rewrite Z.div_add_l by lia. rewrite (Z.div_small (x - m)) by lia. rewrite Z.add_0_r.
  rewrite (Z.add_comm (_ * d)), Z.mod_add by lia. rewrite Z.mod_small by lia. rewrite IH. f_equal. lia.
Qed.

Lemma getPos_inj mn dm x y : in_box mn dm x -> in_box mn dm y -> static_getPos mn dm x = static_getPos mn dm y -> x = y.
Proof. intros Hx Hy H. rewrite <- (sidx_getPos _ _ _ Hx), <- (sidx_getPos _ _ _ Hy). now rewrite H. Qed.

(** ** Run-time raster indexer *)
Lemma raster_getPos_eq mn dm x : raster_getPos mn dm x = static_getPos mn dm x.
Proof.
  unfold raster_getPos.
  revert dm x; induction mn as [|m mn IH]; intros [|d dm] [|i x]; simpl; auto.
  rewrite fold_left_app. rewrite IH. simpl. ring.
Qed.

Lemma to_size_small x : 0 <= x < 2 ^ 64 -> to_size x = x.
Proof. intros. unfold to_size. now apply Z.mod_small. Qed.

Lemma to_int_small x : - 2 ^ 31 <= x < 2 ^ 31 -> to_int x = x.
Proof. intros. unfold to_int. rewrite Z.mod_small; lia. Qed.

Lemma to_int_size x : - 2 ^ 31 <= x < 2 ^ 31 -> to_int (to_size x) = x.
Proof.
  intros H. unfold to_int, to_size.
  replace (x mod 2 ^ 64 + 2 ^ 31) with (x + 2 ^ 31 + (- (x / 2 ^ 64) * 2 ^ 32) * 2 ^ 32) by (rewrite Z.mod_eq by lia; ring).
  rewrite Z.mod_add by lia. rewrite Z.mod_small; lia.
Qed.

Lemma raster_loop_pure mn dm : corners_ok mn dm -> forall p, 0 <= p -> raster_loop mn dm p = Ret (sidx p mn dm).
Proof.
  induction 1 as [|m d mn dm Hd Hm Hmd Hc IH]; intros p Hp; cbn [raster_loop sidx]; auto.
  rewrite (to_size_small d) by lia. destruct (Z.eqb_spec d 0); [lia|].
  rewrite IH by (apply Z.div_pos; lia). cbn [obind].
  pose proof (Z.mod_pos_bound p d Hd).
  assert (E : to_size (to_size m + p mod d) = to_size (m + p mod d)).
  { unfold to_size. now rewrite Z.add_mod_idemp_l by lia. }
  rewrite E, to_int_size by lia. reflexivity.
Qed.

Lemma raster_getIndices_pure mn dm p : corners_ok mn dm -> 0 <= p < 2 ^ 64 -> raster_getIndices mn dm p = Ret (sidx p mn dm).
Proof. intros H Hp. unfold raster_getIndices. rewrite to_size_small by auto. apply raster_loop_pure; auto. lia. Qed.

(** ** Boustrophedon *)
Definition hdd (dm : list Z) (q : Z) : Z := match dm with [] => 0 | d :: _ => q mod d end.
Fixpoint bz (dm : list Z) (p : Z) : list Z :=
  match dm with
  | [] => []
  | d :: ds => (if Z.even (hdd ds (p / d)) then p mod d else d - p mod d - 1) :: bz ds (p / d)
  end.
Fixpoint digs (dm : list Z) (p : Z) : list Z :=
  match dm with [] => [] | d :: ds => p mod d :: digs ds (p / d) end.

Lemma boust_digits_pure dm : pos_dims dm -> forall p, 0 <= p -> boust_digits dm p = Ret (digs dm p).
Proof.
  induction 1 as [|d dm Hd Hdm IH]; intros p Hp; simpl; auto.
  destruct (Z.eqb_spec d 0); [lia|].
  rewrite Z.quot_div_nonneg, Z.rem_mod_nonneg by lia. rewrite IH by (apply Z.div_pos; lia). reflexivity.
Qed.

Lemma boust_flip_pure dm : pos_dims dm -> forall mn p, 0 <= p -> length mn = length dm ->
  boust_flip mn dm (digs dm p) = (Z.rem (hdd dm p) 2, map2 Z.add (bz dm p) mn).
Proof.
  induction 1 as [|d dm Hd Hdm IH]; intros [|m mn] p Hp Hl; simpl in *; try discriminate; auto.
  rewrite IH; [|apply Z.div_pos; lia|lia].
  assert (Hh : 0 <= hdd dm (p / d)).
  { destruct Hdm; simpl; [lia|]. apply Z.mod_pos_bound. lia. }
  rewrite (Z.rem_mod_nonneg (hdd dm (p / d))) by lia.
  rewrite Zmod_even. destruct (Z.even (hdd dm (p / d))); simpl; f_equal; f_equal; lia.
Qed.

Lemma boust_pure dm mn p : pos_dims dm -> length mn = length dm -> 0 <= p ->
  boust_getIndices mn dm p = Ret (map2 Z.add (bz dm p) mn).
Proof.
  intros Hd Hl Hp. unfold boust_getIndices. rewrite boust_digits_pure by auto. cbn [obind].
  rewrite boust_flip_pure by auto. reflexivity.
Qed.

Lemma bz_in_box dm : pos_dims dm -> forall mn p, length mn = length dm -> in_box mn dm (map2 Z.add (bz dm p) mn).
Proof.
  induction 1 as [|d dm Hd Hdm IH]; intros [|m mn] p Hl; simpl in *; try discriminate; constructor.
  - pose proof (Z.mod_pos_bound p d Hd). destruct (Z.even _); lia.
  - apply IH. lia.
Qed.

Lemma bz_inj dm : pos_dims dm -> forall p q, 0 <= p < vol dm -> 0 <= q < vol dm -> bz dm p = bz dm q -> p = q.
Proof.
  induction 1 as [|d dm Hd Hdm IH]; intros p q Hp Hq H; simpl in *; [lia|].
  injection H as H1 H2.
  assert (Hr : forall x, 0 <= x < d * vol dm -> 0 <= x / d < vol dm).
  { intros x Hx. split; [apply Z.div_pos; lia|apply Z.div_lt_upper_bound; lia]. }
  pose proof (IH _ _ (Hr p Hp) (Hr q Hq) H2) as E. rewrite E in H1.
  assert (p mod d = q mod d) by (destruct (Z.even _); lia).
  rewrite (Z.div_mod p d), (Z.div_mod q d) by lia. congruence.
Qed.

Lemma bz_length dm : forall p, length (bz dm p) = length dm.
Proof. induction dm; simpl; auto. Qed.

Lemma map2_add_inj a : forall b mn, length a = length mn -> length b = length mn ->
  map2 Z.add a mn = map2 Z.add b mn -> a = b.
Proof.
  induction a as [|x a IH]; intros [|y b] [|m mn] H1 H2 H; simpl in *; try discriminate; auto.
  injection H as H3 H4. f_equal; [lia|]. eapply (IH b mn); lia || auto.
Qed.

Lemma bz_surj mn dm x : in_box mn dm x -> exists p, 0 <= p < vol dm /\ map2 Z.add (bz dm p) mn = x.
Proof.
  induction 1 as [|m d x mn dm xs H Hb (q & Hq & Eq)]; simpl.
  - exists 0. split; [lia|reflexivity].
  - set (r := if Z.even (hdd dm q) then x - m else d - (x - m) - 1).
    assert (Hr : 0 <= r < d) by (unfold r; destruct (Z.even _); lia).
    exists (q * d + r). split; [nia|].
    rewrite Z.div_add_l by lia. rewrite (Z.div_small r) by lia. rewrite Z.add_0_r, Eq.
    rewrite (Z.add_comm (q * d)), Z.mod_add, Z.mod_small by lia. unfold r. destruct (Z.even (hdd dm q)); f_equal; lia.
Qed.

(** ** C16 *)
Lemma bijection_lemma mn dm : int_box mn dm ->
  (forall x, in_box mn dm x -> 0 <= static_getPos mn dm x < vol dm /\
     raster_getPos mn dm x = static_getPos mn dm x /\
     static_getIndices (static_getPos mn dm x) mn dm = Ret x /\
     raster_getIndices mn dm (static_getPos mn dm x) = Ret x) /\
  (forall p, 0 <= p < vol dm -> exists x, in_box mn dm x /\ static_getPos mn dm x = p /\
     static_getIndices p mn dm = Ret x /\ raster_getIndices mn dm p = Ret x) /\
  (forall p, 0 <= p < vol dm -> exists x, in_box mn dm x /\ boust_getIndices mn dm p = Ret x) /\
  (forall x, in_box mn dm x -> exists p, 0 <= p < vol dm /\ boust_getIndices mn dm p = Ret x /\
     forall q, 0 <= q < vol dm -> boust_getIndices mn dm q = Ret x -> q = p).
Proof.
  intros [Hc Hv]. pose proof (corners_pos _ _ Hc) as Hp. pose proof (corners_length _ _ Hc) as Hl.
  split; [|split; [|split]].
  - intros x Hx. pose proof (getPos_range _ _ _ Hx) as Hr. split; [auto|]. split; [apply raster_getPos_eq|].
    rewrite static_getIndices_pure, raster_getIndices_pure by (auto; lia). now rewrite sidx_getPos.
  - intros p Hpr. exists (sidx p mn dm). split; [now apply sidx_in_box|]. split; [now apply getPos_sidx|].
    rewrite static_getIndices_pure, raster_getIndices_pure by (auto; lia). auto.
  - intros p Hpr. eexists. split; [|apply boust_pure; auto; lia]. now apply bz_in_box.
  - intros x Hx. destruct (bz_surj _ _ _ Hx) as (p & Hpr & E). exists p. split; [auto|].
    rewrite boust_pure by (auto; lia). split; [congruence|].
    intros q Hq. rewrite boust_pure by (auto; lia). intros H. injection H as H. rewrite <- E in H.
    apply map2_add_inj in H; rewrite ?bz_length; auto. now apply (bz_inj dm Hp).
Qed.

(** ** size *)
Lemma size_mod a : size a = vol (idim a) mod 2 ^ 64.
Proof.
  unfold size. assert (H : forall dm s, fold_left (fun s d => to_size (s * to_size d)) dm (s mod 2 ^ 64) = (s * vol dm) mod 2 ^ 64).
  { induction dm as [|d dm IH]; intros s; cbn [fold_left vol]; [now rewrite Z.mul_1_r|].
    replace (to_size (s mod 2 ^ 64 * to_size d)) with ((s * d) mod 2 ^ 64) by (unfold to_size; apply Z.mul_mod; lia).
    rewrite IH. f_equal. ring. }
  change 1 with (1 mod 2 ^ 64) at 1. rewrite H. now rewrite Z.mul_1_l.
Qed.

Lemma vol_nonneg dm : Forall (fun d => 0 <= d) dm -> 0 <= vol dm.
Proof. induction 1; simpl; nia. Qed.

Lemma size_vol a : Forall (fun d => 0 <= d) (idim a) -> vol (idim a) < 2 ^ 64 -> size a = vol (idim a).
Proof. intros H1 H2. rewrite size_mod. apply Z.mod_small. split; auto. now apply vol_nonneg. Qed.

Lemma empty_spec a : empty a = false <-> pos_dims (idim a).
Proof.
  unfold empty, pos_dims. rewrite Forall_forall. split.
  - intros H x Hx. destruct (Z.leb_spec x 0) as [H1|H1]; [|auto].
    assert (E : existsb (fun d => d <=? 0) (idim a) = true) by (apply existsb_exists; exists x; split; auto; lia).
    congruence.
  - intros H. destruct (existsb _ _) eqn:E; auto. apply existsb_exists in E as (x & Hx & Hle). specialize (H x Hx). lia.
Qed.

Lemma empty_vol a : Forall (fun d => 0 <= d) (idim a) -> empty a = true -> vol (idim a) = 0.
Proof.
  unfold empty. induction 1 as [|d dm Hd H IH]; simpl; [discriminate|].
  destruct (Z.leb_spec d 0); simpl; intros E; [assert (d = 0) by lia; subst d; reflexivity|]. rewrite IH by auto. apply Z.mul_0_r.
Qed.

Lemma inside_in_box mn dm : forall x, length mn = length dm -> length x = length dm ->
  (inside_loop mn dm x = true <-> in_box mn dm x).
Proof.
  revert dm; induction mn as [|m mn IH]; intros [|d dm] [|i x] H1 H2; simpl in *; try discriminate.
  - split; [constructor|auto].
  - specialize (IH dm x ltac:(lia) ltac:(lia)).
    destruct (Z.ltb_spec i m), (Z.leb_spec (m + d) i); simpl; try (split; [discriminate|intros Hb; inversion Hb; lia]).
    split.
    + intros Hb. constructor; [lia|]. now apply IH.
    + intros Hb. inversion Hb. now apply IH.
Qed.

(** ** Iteration *)
Definition zseq (a : Z) (n : nat) : list Z := map (fun k => a + Z.of_nat k) (seq 0 n).

Lemma zseq_S a n : zseq a (S n) = a :: zseq (a + 1) n.
Proof.
  unfold zseq. cbn [seq map]. rewrite <- seq_shift, map_map. f_equal; [lia|]. apply map_ext. intros. lia.
Qed.

Lemma zseq_In a n x : In x (zseq a n) <-> a <= x < a + Z.of_nat n.
Proof.
  unfold zseq. rewrite in_map_iff. split.
  - intros (k & <- & Hk). apply in_seq in Hk. lia.
  - intros H. exists (Z.to_nat (x - a)). split; [lia|]. apply in_seq. lia.
Qed.

Lemma zseq_NoDup a n : NoDup (zseq a n).
Proof. apply Injective_map_NoDup; [intros x y H; lia|apply seq_NoDup]. Qed.

Lemma it_loop_S getI f a pos epos cur : it_loop getI (S f) a pos epos cur =
  if pos =? epos then Ret []
  else let! nxt := getI (imin a) (idim a) (pos + 1) in let! rest := it_loop getI f a (pos + 1) epos nxt in Ret (cur :: rest).
Proof. reflexivity. Qed.

Lemma it_loop_pure getI a c e : (forall p, 0 <= p <= e -> getI (imin a) (idim a) p = Ret (c p)) ->
  forall n k, 0 <= k -> k + Z.of_nat n = e -> it_loop getI (S n) a k e (c k) = Ret (map c (zseq k n)).
Proof.
  intros H. induction n as [|n IH]; intros k Hk He; rewrite it_loop_S.
  - destruct (Z.eqb_spec k e); [reflexivity|lia].
  - destruct (Z.eqb_spec k e); [lia|]. rewrite H by lia. cbn [obind].
    rewrite IH by lia. cbn [obind]. rewrite zseq_S. reflexivity.
Qed.

Lemma NoDup_map_inj {A B} (f : A -> B) l : NoDup l -> (forall x y, In x l -> In y l -> f x = f y -> x = y) -> NoDup (map f l).
Proof.
  induction 1 as [|x l Hx Hl IH]; intros Hf; simpl; constructor.
  - intros Hi. apply in_map_iff in Hi as (y & Hy & Hi). apply Hx. rewrite <- (Hf y x); simpl; auto.
  - apply IH. intros a b Ha Hb. apply Hf; simpl; auto.
Qed.

Definition nonneg_dims (a : interval) : Prop := Forall (fun d => 0 <= d) (idim a).

Lemma iterate_gen getI a (c : Z -> list Z) :
  length (imin a) = length (idim a) -> nonneg_dims a -> vol (idim a) < 2 ^ 31 ->
  (pos_dims (idim a) -> 
    (forall p, 0 <= p <= vol (idim a) -> getI (imin a) (idim a) p = Ret (c p)) /\
    (forall p, 0 <= p < vol (idim a) -> in_box (imin a) (idim a) (c p)) /\
    (forall p q, 0 <= p < vol (idim a) -> 0 <= q < vol (idim a) -> c p = c q -> p = q) /\
    (forall x, in_box (imin a) (idim a) x -> exists p, 0 <= p < vol (idim a) /\ c p = x)) ->
  exists l, iterate getI a = Ret l /\ NoDup l /\
    (forall x, In x l <-> length x = length (idim a) /\ inside a x = true) /\ Z.of_nat (length l) = size a /\
    (pos_dims (idim a) -> l = map c (zseq 0 (Z.to_nat (vol (idim a))))).
Proof.
  intros Hl Hn Hv H. unfold iterate.
  assert (Hs : size a = vol (idim a)) by (apply size_vol; auto; lia).
  pose proof (vol_nonneg _ Hn) as Hv0. rewrite Hs, to_int_small by lia.
  destruct (Z.ltb_spec (vol (idim a)) 0); [lia|]. unfold it_make.
  destruct (empty a) eqn:E.
  - rewrite (empty_vol _ Hn E). cbn. exists []. split; [reflexivity|]. split; [constructor|]. split; [|split; [reflexivity|]].
    + intros x. split; [intros []|]. intros [Hx Hi]. unfold inside in Hi. rewrite inside_in_box in Hi by auto.
      apply in_box_pos in Hi. apply empty_spec in Hi. congruence.
    + intros Hp. apply empty_spec in Hp. congruence.
  - apply empty_spec in E. destruct (H E) as (H1 & H2 & H3 & H4). rewrite !H1 by lia. cbn [obind].
    rewrite (it_loop_pure _ _ c (vol (idim a)) H1) by lia.
    eexists. split; [reflexivity|]. split; [|split; [|split; [|auto]]].
    + apply NoDup_map_inj; [apply zseq_NoDup|]. intros x y Hx Hy. rewrite zseq_In in Hx, Hy. apply H3; lia.
    + intros x. rewrite in_map_iff. split.
      * intros (p & <- & Hp). rewrite zseq_In in Hp. assert (Hb : in_box (imin a) (idim a) (c p)) by (apply H2; lia).
        pose proof (in_box_length _ _ _ Hb) as [_ Hlx]. split; [auto|]. unfold inside. now rewrite inside_in_box.
      * intros [Hx Hi]. unfold inside in Hi. rewrite inside_in_box in Hi by auto.
        destruct (H4 x Hi) as (p & Hp & <-). exists p. split; [auto|]. rewrite zseq_In. lia.
    + unfold zseq. rewrite !map_length, seq_length. lia.
Qed.

Definition int_corners (a : interval) : Prop :=
  Forall2 (fun m d => - 2 ^ 31 <= m /\ m + d - 1 < 2 ^ 31) (imin a) (idim a).

Lemma int_corners_ok a : int_corners a -> pos_dims (idim a) -> corners_ok (imin a) (idim a).
Proof.
  unfold int_corners, pos_dims. intros H. induction H as [|m d mn dm Hmd H IH]; intros Hp; constructor; inversion Hp; subst; auto; lia.
Qed.

Lemma iterate_lemma a : int_corners a -> nonneg_dims a -> vol (idim a) < 2 ^ 31 ->
  (exists l, iterate_raster a = Ret l /\ NoDup l /\
    (forall x, In x l <-> length x = length (idim a) /\ inside a x = true) /\ Z.of_nat (length l) = size a) /\
  (exists l, iterate_boustrophedon a = Ret l /\ NoDup l /\
    (forall x, In x l <-> length x = length (idim a) /\ inside a x = true) /\ Z.of_nat (length l) = size a).
Proof.
  intros Hc Hn Hv. assert (Hl : length (imin a) = length (idim a)) by (unfold int_corners in Hc; clear - Hc; induction Hc; simpl; congruence).
  split.
  - destruct (iterate_gen raster_getIndices a (fun p => sidx p (imin a) (idim a)) Hl Hn Hv) as (l & H1 & H2 & H3 & H4 & _); [|eauto].
    intros Hp. pose proof (int_corners_ok a Hc Hp) as Hco. split; [|split; [|split]].
    + intros p Hpr. apply raster_getIndices_pure; auto. lia.
    + intros p Hpr. now apply sidx_in_box.
    + intros p q H5 H6 H7. rewrite <- (getPos_sidx _ Hp (imin a) p Hl H5), <- (getPos_sidx _ Hp (imin a) q Hl H6). now rewrite H7.
    + intros x Hx. exists (static_getPos (imin a) (idim a) x). split; [now apply getPos_range|now apply sidx_getPos].
  - destruct (iterate_gen boust_getIndices a (fun p => map2 Z.add (bz (idim a) p) (imin a)) Hl Hn Hv) as (l & H1 & H2 & H3 & H4 & _); [|eauto].
    intros Hp. split; [|split; [|split]].
    + intros p Hpr. apply boust_pure; auto. lia.
    + intros p Hpr. now apply bz_in_box.
    + intros p q H5 H6 H7. apply map2_add_inj in H7; rewrite ?bz_length; auto. now apply (bz_inj _ Hp).
    + intros x Hx. destruct (bz_surj _ _ _ Hx) as (p & Hpr & E). eauto.
Qed.

(** ** Neighbours in boustrophedon order *)
Lemma nb_cons x y xs ys : neighbours (x :: xs) (y :: ys) <-> (x = y /\ neighbours xs ys) \/ (xs = ys /\ Z.abs (x - y) = 1).
Proof.
  split.
  - intros ([|z pre] & a & b & post & H1 & H2 & H3); simpl in *; injection H1 as -> ->; injection H2 as -> ->.
    + right. auto.
    + left. split; [auto|]. exists pre, a, b, post. auto.
  - intros [[-> (pre & a & b & post & -> & -> & H)]|[-> H]].
    + exists (y :: pre), a, b, post. auto.
    + exists [], x, y, ys. auto.
Qed.

Lemma nb_shift a : forall b mn, length a = length mn -> length b = length mn ->
  (neighbours (map2 Z.add a mn) (map2 Z.add b mn) <-> neighbours a b).
Proof.
  induction a as [|x a IH]; intros [|y b] [|m mn] H1 H2; simpl in *; try discriminate; [tauto|].
  rewrite !nb_cons, IH by lia. split; (intros [[E H]|[E H]]; [left|right]).
  - split; [lia|auto].
  - split; [|lia]. apply (map2_add_inj a b mn); auto; lia.
  - split; [lia|auto].
  - split; [now subst|lia].
Qed.

Lemma div_next d p : 0 < d -> 0 <= p ->
  (p mod d < d - 1 /\ (p + 1) / d = p / d /\ (p + 1) mod d = p mod d + 1) \/
  (p mod d = d - 1 /\ (p + 1) / d = p / d + 1 /\ (p + 1) mod d = 0).
Proof.
  intros Hd Hp. pose proof (Z.mod_pos_bound p d Hd) as Hm. pose proof (Z.div_mod p d ltac:(lia)) as E.
  destruct (Z.eq_dec (p mod d) (d - 1)) as [H|H].
  - right. split; [auto|]. assert (E1 : p + 1 = (p / d + 1) * d + 0) by lia.
    split; symmetry; [apply (Z.div_unique (p + 1) d (p / d + 1) 0); lia|apply (Z.mod_unique (p + 1) d (p / d + 1) 0); lia].
  - left. split; [lia|]. 
    split; symmetry; [apply (Z.div_unique (p + 1) d (p / d) (p mod d + 1)); lia|apply (Z.mod_unique (p + 1) d (p / d) (p mod d + 1)); lia].
Qed.

Definition all_nb (dm : list Z) : Prop := forall p, 0 <= p -> p + 1 < vol dm -> neighbours (bz dm p) (bz dm (p + 1)).

Lemma all_nb_ok dm : pos_dims dm -> (all_nb dm <-> zigzag_ok dm).
Proof.
  unfold all_nb. induction 1 as [|d0 dm Hd Hdm IH].
  { split; [constructor|]. intros _ p H1 H2. simpl in H2. lia. }
  destruct dm as [|d1 rest].
  { split; [intros _; exact I|]. intros _ p H1 H2. cbn [vol] in H2. cbn [bz hdd]. change (Z.even 0) with true. cbv iota.
    apply nb_cons. right. split; [auto|]. rewrite !Z.mod_small by lia. lia. }
  set (t := d1 :: rest) in *. inversion Hdm as [|? ? Hd1 Hrest]; subst.
  assert (Hvr : 0 < vol rest) by now apply vol_pos.
  assert (Hvt : vol t = d1 * vol rest) by reflexivity.
  assert (Hz : zigzag_ok (d0 :: t) <-> (Z.even d1 = true \/ d0 = 1 \/ vol rest = 1) /\ zigzag_ok t) by reflexivity.
  rewrite Hz, <- IH. clear Hz.
  assert (Hb : forall p, bz (d0 :: t) p = (if Z.even ((p / d0) mod d1) then p mod d0 else d0 - p mod d0 - 1) :: bz t (p / d0)) by reflexivity.
  change (vol (d0 :: t)) with (d0 * vol t).
  split.
  - intros H. split.
    + destruct (Z.even d1) eqn:Ev; [auto|]. right.
      destruct (Z.eq_dec d0 1) as [|Hd0]; [auto|]. right.
      destruct (Z.eq_dec (vol rest) 1) as [|Hv1]; [auto|]. exfalso.
      (* q has first digit d1 - 1, q + 1 has first digit 0 *)
      set (q := d1 - 1). assert (Hq : 0 <= q /\ q + 1 < vol t) by (unfold q; nia).
      specialize (H (q * d0 + (d0 - 1))). rewrite !Hb in H.
      assert (E1 : (q * d0 + (d0 - 1)) / d0 = q) by (rewrite Z.div_add_l, Z.div_small by lia; lia).
      assert (E2 : (q * d0 + (d0 - 1)) mod d0 = d0 - 1) by (rewrite (Z.add_comm (q * d0)), Z.mod_add, Z.mod_small by lia; lia).
      assert (E3 : (q * d0 + (d0 - 1) + 1) / d0 = q + 1) by (replace (q * d0 + (d0 - 1) + 1) with ((q + 1) * d0) by ring; now rewrite Z.div_mul by lia).
      assert (E4 : (q * d0 + (d0 - 1) + 1) mod d0 = 0) by (replace (q * d0 + (d0 - 1) + 1) with ((q + 1) * d0) by ring; now rewrite Z.mod_mul by lia).
      rewrite E1, E2, E3, E4 in H. specialize (H ltac:(nia) ltac:(nia)).
      assert (F1 : q mod d1 = d1 - 1) by (unfold q; rewrite Z.mod_small by lia; auto).
      assert (F2 : (q + 1) mod d1 = 0) by (unfold q; replace (d1 - 1 + 1) with (1 * d1) by ring; now rewrite Z.mod_mul by lia).
      rewrite F1, F2 in H. change (Z.even 0) with true in H. cbv iota in H.
      assert (F3 : Z.even (d1 - 1) = true) by (rewrite Z.even_sub, Ev; reflexivity).
      rewrite F3 in H. apply nb_cons in H. destruct H as [[H _]|[H _]]; [lia|].
      assert (q = q + 1) by (apply (bz_inj t Hdm); auto; lia). lia.
    + intros q Hq1 Hq2. specialize (H (q * d0 + (d0 - 1))). rewrite !Hb in H.
      assert (E1 : (q * d0 + (d0 - 1)) / d0 = q) by (rewrite Z.div_add_l, Z.div_small by lia; lia).
      assert (E3 : (q * d0 + (d0 - 1) + 1) / d0 = q + 1) by (replace (q * d0 + (d0 - 1) + 1) with ((q + 1) * d0) by ring; now rewrite Z.div_mul by lia).
      rewrite E1, E3 in H. specialize (H ltac:(nia) ltac:(nia)).
      apply nb_cons in H. destruct H as [[_ H]|[H _]]; [auto|].
      assert (q = q + 1) by (apply (bz_inj t Hdm); auto; lia). lia.
  - intros [Hc Ht] p Hp1 Hp2. rewrite !Hb. apply nb_cons.
    destruct (div_next d0 p Hd Hp1) as [(H1 & H2 & H3)|(H1 & H2 & H3)]; rewrite H2, H3.
    + right. split; [auto|]. destruct (Z.even ((p / d0) mod d1)); lia.
    + left. rewrite H1. set (q := p / d0) in *.
      assert (Hq0 : 0 <= q) by (apply Z.div_pos; lia).
      assert (Hq1 : q + 1 < vol t).
      { pose proof (Z.div_mod p d0 ltac:(lia)) as E. fold q in E. rewrite H1 in E. nia. }
      split; [|now apply Ht].
      destruct (div_next d1 q Hd1 Hq0) as [(G1 & G2 & G3)|(G1 & G2 & G3)]; rewrite G3.
      * rewrite Z.even_add. change (Z.even 1) with false. destruct (Z.even (q mod d1)); cbn; lia.
      * rewrite G1. change (Z.even 0) with true. cbv iota. destruct Hc as [Hc|[Hc|Hc]].
        -- rewrite Z.even_sub, Hc. cbn. lia.
        -- destruct (Z.even _); lia.
        -- exfalso. pose proof (Z.div_mod q d1 ltac:(lia)) as E. rewrite G1 in E.
           assert (0 <= q / d1) by (apply Z.div_pos; lia). nia.
Qed.

Lemma middle_even_ok dm : middle_even dm -> zigzag_ok dm.
Proof.
  destruct dm as [|d0 dm]; simpl; auto. revert d0. induction dm as [|d1 rest IH]; intros d0 H; auto.
  destruct rest as [|d2 rest]; [simpl; auto|]. destruct H as [H1 H2]. split; [auto|]. now apply IH.
Qed.

Lemma zigzag_exact_lemma mn dm : length mn = length dm -> Forall (fun d => 0 < d) dm ->
  ((forall p x y, 0 <= p -> p + 1 < vol dm -> boust_getIndices mn dm p = Ret x ->
      boust_getIndices mn dm (p + 1) = Ret y -> neighbours x y) <-> zigzag_ok dm).
Proof.
  intros Hl Hp. rewrite <- (all_nb_ok dm Hp). unfold all_nb. split; intros H p.
  - intros H1 H2. apply (nb_shift (bz dm p) (bz dm (p + 1)) mn); rewrite ?bz_length; auto.
    apply (H p); auto; apply boust_pure; auto; lia.
  - intros x y H1 H2. rewrite !boust_pure by (auto; lia). intros Hx Hy. injection Hx as <-. injection Hy as <-.
    apply nb_shift; rewrite ?bz_length; auto.
Qed.

Lemma zigzag_even_lemma mn dm : length mn = length dm -> Forall (fun d => 0 < d) dm ->
  ((length dm <= 2)%nat \/ middle_even dm) ->
  forall p, 0 <= p -> p + 1 < vol dm -> exists x y, boust_getIndices mn dm p = Ret x /\
      boust_getIndices mn dm (p + 1) = Ret y /\ neighbours x y.
Proof.
  intros Hl Hp Hc p H1 H2.
  assert (Hz : zigzag_ok dm).
  { destruct Hc as [Hc|Hc]; [|now apply middle_even_ok]. destruct dm as [|a [|b [|]]]; simpl in *; auto. lia. }
  eexists. eexists. split; [apply boust_pure; auto|]. split; [apply boust_pure; auto; lia|].
  apply nb_shift; rewrite ?bz_length; auto. now apply (all_nb_ok dm Hp).
Qed.

Lemma zigzag_refuted_lemma : exists mn dm p x y, length mn = length dm /\ Forall (fun d => 0 < d) dm /\ 0 <= p /\ p + 1 < vol dm /\
  boust_getIndices mn dm p = Ret x /\ boust_getIndices mn dm (p + 1) = Ret y /\ ~ neighbours x y.
Proof.
  exists [0; 0; 0], [2; 1; 2], 1, [1; 0; 0], [0; 0; 1]. split; [reflexivity|]. split; [repeat constructor|].
  split; [lia|]. split; [vm_compute; reflexivity|]. split; [reflexivity|]. split; [reflexivity|].
  intros H. apply nb_cons in H. destruct H as [[H _]|[H _]]; discriminate.
Qed.

(** ** Set operations *)
Lemma inside_nth mn dm : forall x, length mn = length dm -> length x = length dm ->
  (inside_loop mn dm x = true <-> forall k m d i, nth_error mn k = Some m -> nth_error dm k = Some d -> nth_error x k = Some i -> m <= i < m + d).
Proof.
  revert dm; induction mn as [|m mn IH]; intros [|d dm] [|i x] H1 H2; simpl in *; try discriminate.
  - split; auto. intros _ [|k] m d i H; discriminate.
  - specialize (IH dm x ltac:(lia) ltac:(lia)).
    destruct (Z.ltb_spec i m), (Z.leb_spec (m + d) i); simpl;
      try (split; [discriminate|intros Hb; specialize (Hb O m d i eq_refl eq_refl eq_refl); lia]).
    rewrite IH. split.
    + intros Hb [|k] m' d' i'; simpl; intros E1 E2 E3; [injection E1 as <-; injection E2 as <-; injection E3 as <-; lia|eauto].
    + intros Hb k m' d' i' E1 E2 E3. apply (Hb (S k) m' d' i'); auto.
Qed.

Lemma inside_intersect_ne a0 d0 a1 d1 : forall x, length a0 = length d0 -> length a1 = length a0 -> length d1 = length a0 -> length x = length a0 ->
  let mn := map2 Z.max a0 a1 in
  let mx := map (fun x => x - 1) (map2 Z.min (map2 Z.add a0 d0) (map2 Z.add a1 d1)) in
  inside_loop mn (map (fun d => if d <? 0 then 0 else d) (map2 (fun a b => b - a + 1) mn mx)) x =
  inside_loop a0 d0 x && inside_loop a1 d1 x.
Proof.
  revert d0 a1 d1; induction a0 as [|m0 a0 IH]; intros [|e0 d0] [|m1 a1] [|e1 d1] [|i x] H1 H2 H3 H4; simpl in *; try discriminate; auto.
  rewrite IH by lia.
  set (d := Z.min (m0 + e0) (m1 + e1) - 1 - Z.max m0 m1 + 1).
  destruct (inside_loop a0 d0 x), (inside_loop a1 d1 x); simpl; destruct (Z.ltb_spec d 0);
  repeat match goal with |- context [?a <? ?b] => destruct (Z.ltb_spec a b) | |- context [?a <=? ?b] => destruct (Z.leb_spec a b) end; simpl; auto; lia.
Qed.

Lemma inside_empty a x : length (imin a) = length (idim a) -> length x = length (idim a) -> empty a = true -> inside a x = false.
Proof.
  intros H1 H2 E. destruct (inside a x) eqn:Ei; auto. unfold inside in Ei. apply inside_in_box in Ei; auto.
  apply in_box_pos in Ei. apply empty_spec in Ei. congruence.
Qed.

Lemma intersect_lemma a b x : length (imin a) = length (idim a) -> length (imin b) = length (idim b) ->
  length (imin b) = length (imin a) -> length x = length (imin a) ->
  inside (intersect a b) x = inside a x && inside b x.
Proof.
  intros H1 H2 H3 H4. unfold intersect. destruct (empty a) eqn:Ea.
  - rewrite (inside_empty a) by (auto; lia). reflexivity.
  - destruct (empty b) eqn:Eb.
    + rewrite (inside_empty b) by (auto; lia). now rewrite andb_false_r.
    + unfold inside. cbn [imin idim initMinMax]. unfold ilast. apply inside_intersect_ne; lia.
Qed.

Lemma translateV_lemma a t x : length (imin a) = length (idim a) -> length t = length (imin a) -> length x = length (imin a) ->
  inside (translateV a t) (map2 Z.add x t) = inside a x.
Proof.
  unfold inside, translateV. cbn [imin idim]. generalize (imin a) (idim a). intros mn.
  revert t x. induction mn as [|m mn IH]; intros [|s t] [|i x] [|d dm] H1 H2 H3; simpl in *; try discriminate; auto.
  rewrite IH by lia.
  repeat match goal with |- context [?a <? ?b] => destruct (Z.ltb_spec a b) | |- context [?a <=? ?b] => destruct (Z.leb_spec a b) end; simpl; auto; lia.
Qed.

Lemma eq_true_iff' (b1 b2 : bool) : (b1 = true <-> b2 = true) -> b1 = b2.
Proof. destruct b1, b2; intuition congruence. Qed.

Lemma translate_lemma a d incr x : length (imin a) = length (idim a) -> length x = length (imin a) ->
  ((d < length (imin a))%nat -> exists b, translate a d incr = Ret b /\ idim b = idim a /\
     forall i, nth_error x d = Some i -> inside b (lset x d (i + incr)) = inside a x) /\
  ((length (imin a) <= d)%nat -> translate a d incr = Exit /\ stacked a d incr = Exit).
Proof.
  intros Hl Hx. split.
  - intros Hd. unfold translate. destruct (Nat.ltb_spec d (length (imin a))) as [_|]; [|lia].
    destruct (nth_error_ex (imin a) d Hd) as [m Hm]. unfold vread. rewrite Hm. cbn [obind].
    eexists. split; [reflexivity|]. cbn [idim]. split; [auto|]. intros i Hi.
    apply eq_true_iff'. unfold inside. cbn [imin idim].
    rewrite !inside_nth by (rewrite ?length_lset; lia).
    split; intros H k m' d' i' E1 E2 E3.
    + destruct (Nat.eq_dec d k) as [<-|Hne].
      * specialize (H d (m + incr) d' (i + incr)). rewrite !nth_error_lset_eq in H by lia. specialize (H eq_refl E2 eq_refl).
        assert (m' = m) by congruence. assert (i' = i) by congruence. lia.
      * apply (H k); auto; rewrite nth_error_lset_neq; auto.
    + destruct (Nat.eq_dec d k) as [<-|Hne].
      * rewrite nth_error_lset_eq in E1, E3 by lia. specialize (H d m d' i Hm E2 Hi). injection E1 as <-. injection E3 as <-. lia.
      * rewrite nth_error_lset_neq in E1, E3 by auto. apply (H k); auto.
  - intros Hd. unfold translate, stacked. destruct (Nat.ltb_spec d (length (imin a))); [lia|auto].
Qed.

Lemma stacked_lemma a d incr e : length (imin a) = length (idim a) -> (d < length (imin a))%nat -> nth_error (idim a) d = Some e ->
  exists s t, stacked a d incr = Ret s /\ translate a d incr = Ret t /\
  (forall x, length x = length (imin a) -> inside t x = true -> inside a x = false -> inside s x = true) /\
  (forall x, length x = length (imin a) -> inside s x = true -> inside a x = false) /\
  (Z.abs incr <= e -> forall x, length x = length (imin a) ->
     (inside s x = true <-> inside t x = true /\ inside a x = false)).
Proof.
  intros Hl Hd He. unfold stacked, translate. destruct (Nat.ltb_spec d (length (imin a))) as [_|]; [|lia].
  destruct (nth_error_ex (imin a) d Hd) as [m Hm]. unfold vread. rewrite Hm, He. cbn [obind].
  eexists. eexists. split; [reflexivity|]. split; [reflexivity|].
  (* characterisations *)
  assert (Ha : forall x i, length x = length (imin a) -> nth_error x d = Some i ->
     (inside a x = true <-> m <= i < m + e /\ forall k m' d' i', k <> d -> nth_error (imin a) k = Some m' -> nth_error (idim a) k = Some d' -> nth_error x k = Some i' -> m' <= i' < m' + d')).
  { intros x i Hx Hi. unfold inside. rewrite inside_nth by lia. split.
    - intros H. split; [apply (H d); auto|]. intros k m' d' i' _. apply H.
    - intros [H1 H2] k m' d' i' E1 E2 E3. destruct (Nat.eq_dec k d) as [->|Hne]; [|eauto].
      assert (m' = m) by congruence. assert (d' = e) by congruence. assert (i' = i) by congruence. lia. }
  assert (Hg : forall M E x i, length x = length (imin a) -> nth_error x d = Some i ->
     (inside (mkI (lset (imin a) d M) (lset (idim a) d E)) x = true <-> M <= i < M + E /\ forall k m' d' i', k <> d -> nth_error (imin a) k = Some m' -> nth_error (idim a) k = Some d' -> nth_error x k = Some i' -> m' <= i' < m' + d')).
  { intros M E x i Hx Hi. unfold inside. cbn [imin idim]. rewrite inside_nth by (rewrite !length_lset; lia). split.
    - intros H. split; [apply (H d); auto; rewrite nth_error_lset_eq by lia; auto|].
      intros k m' d' i' Hk E1 E2 E3. apply (H k); auto; rewrite nth_error_lset_neq; auto.
    - intros [H1 H2] k m' d' i' E1 E2 E3. destruct (Nat.eq_dec k d) as [->|Hne].
      + rewrite nth_error_lset_eq in E1, E2 by lia. injection E1 as <-. injection E2 as <-. assert (i' = i) by congruence. lia.
      + rewrite nth_error_lset_neq in E1, E2 by auto. eauto. }
  assert (Hlset : idim a = lset (idim a) d e).
  { apply nth_error_ext. intros k. rewrite nth_error_lset. destruct (Nat.eqb_spec d k) as [<-|]; auto.
    destruct (Nat.ltb_spec d (length (idim a))); [auto|lia]. }
  assert (Ht := fun M => Hg M e). rewrite <- Hlset in Ht.
  assert (Hf : forall x, inside a x = false <-> ~ inside a x = true) by (intros x; destruct (inside a x); intuition congruence).
  split; [|split].
  - intros x Hx. destruct (nth_error_ex x d ltac:(lia)) as [i Hi]. rewrite Hf, (Ha x i Hx Hi).
    destruct (Z.leb_spec 0 incr); rewrite ?(Ht _ x i Hx Hi), ?(Hg _ _ x i Hx Hi); intros [H1 H2] H3; (split; [|auto]).
    + assert (~ (m <= i < m + e)) by tauto. lia.
    + assert (~ (m <= i < m + e)) by tauto. lia.
  - intros x Hx. destruct (nth_error_ex x d ltac:(lia)) as [i Hi]. rewrite Hf, (Ha x i Hx Hi).
    destruct (Z.leb_spec 0 incr); rewrite ?(Ht _ x i Hx Hi), ?(Hg _ _ x i Hx Hi); lia.
  - intros Hab x Hx. destruct (nth_error_ex x d ltac:(lia)) as [i Hi]. rewrite Hf, (Ha x i Hx Hi).
    destruct (Z.leb_spec 0 incr); rewrite ?(Ht _ x i Hx Hi), ?(Hg _ _ x i Hx Hi); (split; [intros [H1 H2]; split; [split; [lia|auto]|lia]|]);
    intros [[H1 H2] H3]; (split; [|auto]); assert (~ (m <= i < m + e)) by tauto; lia.
Qed.

(** ** Constructors *)
Lemma centered_lemma c : forall w x, length w = length c -> length x = length c ->
  (inside (initCentered c w) x = true <-> forall k ck wk xk, nth_error c k = Some ck -> nth_error w k = Some wk -> nth_error x k = Some xk -> Z.abs (xk - ck) <= wk).
Proof.
  unfold inside, initCentered. cbn [imin idim].
  induction c as [|ck c IH]; intros [|wk w] [|xk x] H1 H2; cbn [length map2 inside_loop] in *; try discriminate.
  - split; auto. intros _ [|k] ? ? ? H; discriminate.
  - specialize (IH w x ltac:(lia) ltac:(lia)).
    destruct (Z.ltb_spec xk (ck - wk)), (Z.leb_spec (ck - wk + (2 * wk + 1)) xk); cbn [orb];
      try (split; [discriminate|intros Hb; specialize (Hb O ck wk xk eq_refl eq_refl eq_refl); lia]).
    rewrite IH. split.
    + intros Hb [|k] m' d' i'; simpl; intros E1 E2 E3; [injection E1 as <-; injection E2 as <-; injection E3 as <-; lia|eauto].
    + intros Hb k m' d' i' E1 E2 E3. apply (Hb (S k) m' d' i'); auto.
Qed.

Lemma minmax_lemma mn : forall mx x, length mx = length mn -> length x = length mn ->
  (inside (initMinMax mn mx) x = true <-> forall k a b xk, nth_error mn k = Some a -> nth_error mx k = Some b -> nth_error x k = Some xk -> a <= xk <= b).
Proof.
  unfold inside, initMinMax. cbn [imin idim].
  induction mn as [|a mn IH]; intros [|b mx] [|xk x] H1 H2; simpl in *; try discriminate.
  - split; auto. intros _ [|k] ? ? ? H; discriminate.
  - specialize (IH mx x ltac:(lia) ltac:(lia)).
    destruct (Z.ltb_spec xk a), (Z.leb_spec (a + (b - a + 1)) xk); simpl;
      try (split; [discriminate|intros Hb; specialize (Hb O a b xk eq_refl eq_refl eq_refl); lia]).
    rewrite IH. split.
    + intros Hb [|k] m' d' i'; simpl; intros E1 E2 E3; [injection E1 as <-; injection E2 as <-; injection E3 as <-; lia|eauto].
    + intros Hb k m' d' i' E1 E2 E3. apply (Hb (S k) m' d' i'); auto.
Qed.

Lemma imax_lemma mn mx : length mx = length mn -> imax (initMinMax mn mx) = mx.
Proof.
  unfold imax, initMinMax. cbn [imin idim]. revert mx. induction mn as [|a mn IH]; intros [|b mx] H; simpl in *; try discriminate; auto.
  f_equal; [lia|]. apply IH. lia.
Qed.

Lemma constructors_lemma :
  (forall c w x, length w = length c -> length x = length c ->
    (inside (initCentered c w) x = true <-> forall k ck wk xk, nth_error c k = Some ck -> nth_error w k = Some wk -> nth_error x k = Some xk -> Z.abs (xk - ck) <= wk)) /\
  (forall mn mx x, length mx = length mn -> length x = length mn ->
    (inside (initMinMax mn mx) x = true <-> forall k a b xk, nth_error mn k = Some a -> nth_error mx k = Some b -> nth_error x k = Some xk -> a <= xk <= b)) /\
  (forall mn mx, length mx = length mn -> imin (initMinMax mn mx) = mn /\ imax (initMinMax mn mx) = mx) /\
  (forall mn dm x, length dm = length mn -> length x = length mn -> (inside (initBounds mn dm) x = true <-> in_box mn dm x)).
Proof.
  split; [exact centered_lemma|]. split; [exact minmax_lemma|]. split.
  - intros mn mx H. split; [auto|now apply imax_lemma].
  - intros mn dm x H1 H2. unfold inside. cbn [imin idim initBounds]. apply inside_in_box; lia.
Qed.

(** ** C21 *)
Lemma size_lemma a : length (imin a) = length (idim a) -> nonneg_dims a -> vol (idim a) < 2 ^ 64 ->
  (exists l, NoDup l /\ (forall x, In x l <-> length x = length (idim a) /\ inside a x = true) /\ size a = Z.of_nat (length l)) /\
  (empty a = true <-> size a = 0) /\
  (empty a = true <-> forall x, length x = length (idim a) -> inside a x = false).
Proof.
  intros Hl Hn Hv. rewrite size_vol by auto. pose proof (vol_nonneg _ Hn) as Hv0.
  destruct (empty a) eqn:E.
  - split; [|split].
    + exists []. split; [constructor|]. split; [|simpl; now apply empty_vol]. intros x. split; [intros []|].
      intros [H1 H2]. rewrite inside_empty in H2; auto. discriminate.
    + split; auto. intros _. now apply empty_vol.
    + split; auto. intros _ x Hx. now apply inside_empty.
  - apply empty_spec in E. pose proof (vol_pos _ E) as Hp. split; [|split].
    + exists (map (fun p => sidx p (imin a) (idim a)) (zseq 0 (Z.to_nat (vol (idim a))))). split; [|split].
      * apply NoDup_map_inj; [apply zseq_NoDup|]. intros p q Hp1 Hq1. rewrite zseq_In in Hp1, Hq1. intros H7.
        rewrite <- (getPos_sidx _ E (imin a) p Hl ltac:(lia)), <- (getPos_sidx _ E (imin a) q Hl ltac:(lia)). now rewrite H7.
      * intros x. rewrite in_map_iff. split.
        -- intros (p & <- & Hp1). assert (Hb : in_box (imin a) (idim a) (sidx p (imin a) (idim a))) by now apply sidx_in_box.
           pose proof (in_box_length _ _ _ Hb) as [_ Hlx]. split; [auto|]. unfold inside. now rewrite inside_in_box.
        -- intros [Hx Hi]. unfold inside in Hi. rewrite inside_in_box in Hi by auto.
           exists (static_getPos (imin a) (idim a) x). split; [now apply sidx_getPos|]. pose proof (getPos_range _ _ _ Hi).
           rewrite zseq_In. lia.
      * unfold zseq. rewrite !map_length, seq_length. lia.
    + split; [discriminate|lia].
    + split; [discriminate|]. intros H.
      assert (Hb : in_box (imin a) (idim a) (sidx 0 (imin a) (idim a))) by now apply sidx_in_box.
      pose proof (in_box_length _ _ _ Hb) as [_ Hlx]. specialize (H _ Hlx).
      apply inside_in_box in Hb; auto. unfold inside in H. congruence.
Qed.

Lemma size_refuted_lemma :
  (exists a, length (imin a) = length (idim a) /\ empty a = true /\ size a = 1 /\
     (forall x, length x = length (idim a) -> inside a x = false)) /\
  (exists a x, length (imin a) = length (idim a) /\ empty a = false /\ size a = 0 /\ nonneg_dims a /\ inside a x = true).
Proof.
  split.
  - exists (mkI [0; 0] [-1; -1]). split; [auto|]. split; [reflexivity|]. split; [reflexivity|].
    intros x Hx. now apply inside_empty.
  - exists (mkI [0; 0; 0; 0] [65536; 65536; 65536; 65536]), [0; 0; 0; 0].
    split; [auto|]. split; [reflexivity|]. split; [reflexivity|]. split; [|reflexivity]. repeat constructor; lia.
Qed.

Lemma iterate_refuted_lemma : exists a x, length (imin a) = length (idim a) /\ empty a = true /\
  iterate_raster a = Ret [x] /\ iterate_boustrophedon a = Ret [x] /\ inside a x = false.
Proof. exists (mkI [4; 7] [-1; -1]), [4; 7]. repeat split. Qed.

(** ** Checked arithmetic *)
Lemma chk_ok x : - 2 ^ 31 <= x < 2 ^ 31 -> chk x = Ret x.
Proof. intros H. unfold chk. destruct (Z.leb_spec (- 2 ^ 31) x), (Z.ltb_spec x (2 ^ 31)); simpl; auto; lia. Qed.

Lemma static_chk mn dm x : in_box mn dm x -> vol dm < 2 ^ 31 -> static_getPos_chk mn dm x = Ret (static_getPos mn dm x).
Proof.
  induction 1 as [|m d x mn dm xs H Hb IH]; intros Hv; auto. cbn [static_getPos_chk static_getPos vol] in *.
  assert (Hp : 0 < vol dm) by (apply vol_pos; eapply in_box_pos; eauto).
  pose proof (getPos_range _ _ _ Hb) as Hr. rewrite IH by nia. cbn [obind].
  rewrite (chk_ok (x - m)) by nia. cbn [obind]. rewrite (chk_ok (d * _)) by nia. cbn [obind]. apply chk_ok. nia.
Qed.

Lemma raster_chk_app l1 : forall l2 i, raster_getPos_chk_loop (l1 ++ l2) i = obind (raster_getPos_chk_loop l1 i) (raster_getPos_chk_loop l2).
Proof.
  induction l1 as [|[[m d] x] l1 IH]; intros l2 i; simpl; auto.
  destruct (chk (i * d)); simpl; auto. destruct (chk (a + x)); simpl; auto. destruct (chk (a0 - m)); simpl; auto.
Qed.

Lemma raster_chk mn dm x V : in_box mn dm x -> vol dm <= V -> V < 2 ^ 31 -> Forall (fun m => - 2 ^ 31 <= m /\ m + V <= 2 ^ 31) mn ->
  raster_getPos_chk mn dm x = Ret (static_getPos mn dm x).
Proof.
  unfold raster_getPos_chk.
  induction 1 as [|m d x mn dm xs H Hb IH]; intros Hv HV Hm; auto. inversion Hm as [|? ? Hm1 Hm2]; subst.
  cbn [static_getPos vol combine rev] in *.
  assert (Hp : 0 < vol dm) by (apply vol_pos; eapply in_box_pos; eauto).
  pose proof (getPos_range _ _ _ Hb) as Hr. rewrite raster_chk_app, IH by (auto; nia). cbn [obind raster_getPos_chk_loop].
  rewrite (chk_ok (_ * d)) by nia. cbn [obind]. rewrite (chk_ok (_ + x)) by nia. cbn [obind]. rewrite chk_ok by nia. cbn [obind].
  f_equal. ring.
Qed.

Lemma overflow_static_lemma mn dm x : int_box mn dm -> in_box mn dm x -> static_getPos_chk mn dm x = Ret (static_getPos mn dm x).
Proof. intros [_ H] Hx. now apply static_chk. Qed.

Lemma overflow_raster_lemma mn dm x : int_box mn dm -> in_box mn dm x -> Forall (fun m => m + vol dm <= 2 ^ 31) mn ->
  raster_getPos_chk mn dm x = Ret (raster_getPos mn dm x).
Proof.
  intros [Hc H] Hx Hm. rewrite raster_getPos_eq. apply (raster_chk _ _ _ (vol dm)); auto; [lia|].
  clear H Hx. revert Hm. generalize (vol dm). intros V. induction Hc; intros Hm; constructor; inversion Hm; subst; auto.
Qed.

Lemma overflow_refuted_lemma : exists mn dm x, int_box mn dm /\ in_box mn dm x /\ raster_getPos_chk mn dm x = UB /\
  exists p, static_getPos_chk mn dm x = Ret p.
Proof.
  exists [2147483646; 0], [2; 2], [2147483647; 1]. split; [|split; [|split]].
  - split; [|reflexivity]. constructor; [lia|lia|reflexivity|]. constructor; [lia|lia|reflexivity|constructor].
  - constructor; [lia|]. constructor; [lia|constructor].
  - vm_compute. reflexivity.
  - exists 3. vm_compute. reflexivity.
Qed.

(** ** Grid *)
Definition grid_ok {V} (g : grid V) : Prop :=
  length (imin (gdom g)) = length (idim (gdom g)) /\ length (gdata g) = Z.to_nat (size (gdom g)) /\
  nonneg_dims (gdom g) /\ vol (idim (gdom g)) < 2 ^ 64.

Lemma length_resize {V} (v0 : V) l n : length (resize v0 l n) = n.
Proof. unfold resize. rewrite app_length, firstn_length, repeat_length. lia. Qed.

Section GridProofs.
Context {V : Type}.
Variable v0 : V.

Lemma grid_reset_ok (g : grid V) a : length (imin a) = length (idim a) -> nonneg_dims a -> vol (idim a) < 2 ^ 64 -> grid_ok (grid_reset v0 g a).
Proof. intros. unfold grid_ok, grid_reset. cbn [gdom gdata]. rewrite length_resize. auto. Qed.

Lemma grid_pos_ok (g : grid V) x : grid_ok g -> length x = length (idim (gdom g)) -> inside (gdom g) x = true ->
  exists k, zidx (grid_pos g x) = Some k /\ (k < length (gdata g))%nat /\ grid_pos g x = Z.of_nat k.
Proof.
  intros (Hl & Hd & Hn & Hv) Hx Hi. unfold inside in Hi. rewrite inside_in_box in Hi by auto.
  pose proof (getPos_range _ _ _ Hi) as Hr. unfold grid_pos, zidx.
  rewrite size_vol in Hd by auto.
  destruct (Z.ltb_spec (static_getPos (imin (gdom g)) (idim (gdom g)) x) 0); [lia|]. eexists. split; [reflexivity|]. lia.
Qed.

Lemma grid_lemma (g : grid V) : grid_ok g ->
  (forall x, length x = length (idim (gdom g)) -> inside (gdom g) x = true ->
     exists v, grid_get g x = Ret v /\ grid_at g (grid_getPos g x) = Ret v /\
     forall w, exists g', grid_set g x w = Ret g' /\ grid_ok g' /\ gdom g' = gdom g /\ grid_get g' x = Ret w /\
       forall y, length y = length (idim (gdom g)) -> inside (gdom g) y = true -> y <> x -> grid_get g' y = grid_get g y) /\
  (forall v, grid_ok (grid_fill g v) /\ forall x, length x = length (idim (gdom g)) -> inside (gdom g) x = true -> grid_get (grid_fill g v) x = Ret v).
Proof.
  intros Hg. split.
  - intros x Hx Hi. destruct (grid_pos_ok g x Hg Hx Hi) as (k & Ek & Hk & Hpk).
    destruct (nth_error_ex (gdata g) k Hk) as [v Hv]. exists v. unfold grid_get, grid_at, grid_getPos.
    rewrite raster_getPos_eq. fold (grid_pos g x). rewrite Ek. unfold vread. rewrite Hv. split; [auto|]. split; [auto|].
    intros w. unfold grid_set. rewrite Ek. unfold vwrite. rewrite Hv. cbn [obind].
    eexists. split; [reflexivity|]. cbn [gdom gdata]. split; [|split; [auto|split]].
    + destruct Hg as (H1 & H2 & H3). split; [auto|]. cbn [gdom gdata]. now rewrite length_lset.
    + unfold grid_pos in *. cbn [gdom]. rewrite Ek. now rewrite nth_error_lset_eq.
    + intros y Hy Hyi Hne. destruct (grid_pos_ok g y Hg Hy Hyi) as (j & Ej & Hj & Hpj).
      unfold grid_pos in *. cbn [gdom]. rewrite Ej. rewrite nth_error_lset_neq; auto.
      intros <-. apply Hne. destruct Hg as (H1 & _). unfold inside in Hi, Hyi. rewrite inside_in_box in Hi, Hyi by auto.
      apply (getPos_inj _ _ _ _ Hyi Hi). lia.
  - intros v. split.
    + destruct Hg as (H1 & H2 & H3). split; [auto|]. cbn [gdom gdata grid_fill]. now rewrite repeat_length.
    + intros x Hx Hi. destruct (grid_pos_ok g x Hg Hx Hi) as (k & Ek & Hk & _). unfold grid_get, grid_fill, grid_pos in *.
      cbn [gdom gdata]. rewrite Ek. unfold vread. rewrite (nth_error_nth' _ v) by (now rewrite repeat_length).
      f_equal. apply (repeat_spec (length (gdata g))). apply nth_In. now rewrite repeat_length.
Qed.

Lemma greach_ok (g : grid V) : greach v0 g -> grid_ok g.
Proof.
  assert (Hr : forall g mn dm, dom_ok mn dm -> grid_ok (grid_reset v0 g (mkI mn dm))).
  { intros g' mn dm (H1 & H2 & H3). now apply grid_reset_ok. }
  induction 1 as [n|g mn dm Hg IH Hd|g c w Hg IH Hl Hd|g mn mx Hg IH Hl Hd|g x v g' Hg IH Hs|g v Hg IH].
  - split; [|split; [|split]]; cbn [gdom gdata imin idim grid_new].
    + now rewrite !repeat_length.
    + rewrite size_mod. reflexivity.
    + unfold nonneg_dims. cbn [idim gdom grid_new]. apply Forall_forall. intros x Hx. apply repeat_spec in Hx. lia.
    + reflexivity.
  - now apply Hr.
  - destruct (initCentered c w) as [mn dm] eqn:E. unfold grid_initCenter. rewrite E. now apply Hr.
  - destruct (initMinMax mn mx) as [mn' dm] eqn:E. unfold grid_initMinMax. rewrite E. now apply Hr.
  - unfold grid_set in Hs. destruct (zidx (grid_pos g x)) as [k|]; [|discriminate]. unfold vwrite in Hs.
    destruct (nth_error (gdata g) k) eqn:E; [|discriminate]. cbn [obind] in Hs. injection Hs as <-.
    destruct IH as (H1 & H2 & H3). split; [auto|]. cbn [gdom gdata]. now rewrite length_lset.
  - now apply grid_lemma.
Qed.

Lemma gcell_inside (g : grid V) x : grid_ok g -> (gcell g x <-> length x = length (idim (gdom g)) /\ inside (gdom g) x = true).
Proof.
  intros (Hl & _). unfold gcell, inside. split.
  - intros H. pose proof (in_box_length _ _ _ H) as [_ Hx]. split; [auto|]. now apply inside_in_box.
  - intros [Hx H]. now apply inside_in_box in H.
Qed.

Lemma grid_cells_lemma (g : grid V) : greach v0 g ->
  (forall x, gcell g x -> exists v, grid_get g x = Ret v /\ grid_at g (grid_getPos g x) = Ret v /\
     forall w, exists g', grid_set g x w = Ret g' /\ greach v0 g' /\ gdom g' = gdom g /\ grid_get g' x = Ret w /\
       forall y, gcell g y -> y <> x -> grid_get g' y = grid_get g y) /\
  (forall v x, gcell g x -> grid_get (grid_fill g v) x = Ret v).
Proof.
  intros Hr. pose proof (greach_ok g Hr) as Hg. destruct (grid_lemma g Hg) as [H1 H2]. split.
  - intros x Hx. apply gcell_inside in Hx; auto. destruct Hx as [Hx Hi]. destruct (H1 x Hx Hi) as (v & Hv & Hat & Hw).
    exists v. split; [auto|]. split; [auto|]. intros w. destruct (Hw w) as (g' & Hs & _ & Hd & Hget & Ho).
    exists g'. split; [auto|]. split; [eapply greach_set; eauto|]. split; [auto|]. split; [auto|].
    intros y Hy Hne. apply gcell_inside in Hy; auto. destruct Hy. now apply Ho.
  - intros v x Hx. apply gcell_inside in Hx; auto. destruct Hx. now apply (H2 v).
Qed.

(** Re-initialisation keeps the old storage. *)
Lemma grid_stale_lemma (g : grid V) a x : grid_ok (grid_reset v0 g a) -> gcell (grid_reset v0 g a) x ->
  grid_get (grid_reset v0 g a) x = Ret (nth (Z.to_nat (grid_pos (grid_reset v0 g a) x)) (gdata g) v0).
Proof.
  intros Hg Hx. apply gcell_inside in Hx; auto. destruct Hx as [Hx Hi].
  destruct (grid_pos_ok _ x Hg Hx Hi) as (k & Ek & Hk & Hpk). unfold grid_get. rewrite Ek, Hpk, Nat2Z.id.
  unfold vread. rewrite (nth_error_nth' _ v0) by auto. f_equal. unfold grid_reset in *. cbn [gdata] in *.
  unfold resize in *. rewrite app_length, firstn_length, repeat_length in Hk.
  destruct (Nat.lt_ge_cases k (length (gdata g))) as [Hlt|Hge].
  - rewrite app_nth1 by (rewrite firstn_length; lia).
    rewrite <- (firstn_skipn (Z.to_nat (size a)) (gdata g)) at 2. rewrite app_nth1; auto. rewrite firstn_length. lia.
  - rewrite app_nth2 by (rewrite firstn_length; lia). rewrite (nth_overflow (gdata g)) by auto.
    generalize (k - length (firstn (Z.to_nat (size a)) (gdata g)))%nat. generalize (Z.to_nat (size a) - length (gdata g))%nat.
    intros m. induction m as [|m IH]; intros [|j]; simpl; auto.
Qed.

Lemma grid_fresh_lemma n mn dm x : dom_ok mn dm -> in_box mn dm x ->
  grid_get (grid_initBounds v0 (grid_new (S n)) mn dm) x = Ret v0.
Proof.
  intros Hd Hx. unfold grid_initBounds. rewrite grid_stale_lemma.
  - cbn [gdata grid_new]. now destruct (Z.to_nat _).
  - apply (greach_ok (grid_initBounds v0 (grid_new (S n)) mn dm)). constructor; [constructor|auto].
  - exact Hx.
Qed.

Lemma grid_reinit_lemma (g : grid V) mn dm x : greach v0 g -> dom_ok mn dm -> in_box mn dm x ->
  grid_get (grid_initBounds v0 g mn dm) x = Ret (nth (Z.to_nat (static_getPos mn dm x)) (gdata g) v0).
Proof.
  intros Hg Hd Hx. unfold grid_initBounds. rewrite grid_stale_lemma; auto.
  apply (greach_ok (grid_initBounds v0 g mn dm)). now constructor.
Qed.
End GridProofs.

Lemma grid_reinit_refuted_lemma : exists g mn dm x, greach 0 g /\ dom_ok mn dm /\ in_box mn dm x /\
  grid_get (grid_initBounds 0 g mn dm) x = Ret 7.
Proof.
  exists (grid_fill (grid_initBounds 0 (grid_new 1) [0] [3]) 7), [10], [3], [11].
  split; [|split; [|split]].
  - constructor. constructor; [constructor|]. split; [auto|]. split; [repeat constructor; lia|reflexivity].
  - split; [auto|]. split; [repeat constructor; lia|reflexivity].
  - constructor; [lia|constructor].
  - reflexivity.
Qed.


(** Added after mutation testing. *)
Lemma grid_at_lemma {V} (v0 : V) g pos : greach v0 g ->
  Z.of_nat (grid_size g) = vol (idim (gdom g)) /\
  (0 <= pos < vol (idim (gdom g)) -> exists v, grid_at g pos = Ret v) /\
  (~ 0 <= pos < vol (idim (gdom g)) -> grid_at g pos = Exit).
Proof.
  intros Hr. destruct (greach_ok v0 g Hr) as (Hl & Hd & Hn & Hv).
  assert (Hs : Z.of_nat (length (gdata g)) = vol (idim (gdom g))).
  { pose proof (vol_nonneg _ Hn) as H0. rewrite size_mod, Z.mod_small in Hd by (split; assumption). lia. }
  unfold grid_size, grid_at, zidx. split; [exact Hs|]. split; intros H.
  - rewrite (proj2 (Z.ltb_ge pos 0)) by lia. destruct (nth_error (gdata g) (Z.to_nat pos)) eqn:E; [eauto|].
    apply nth_error_None in E. lia.
  - destruct (Z.ltb_spec pos 0); [reflexivity|]. rewrite (proj2 (nth_error_None _ _)) by lia. reflexivity.
Qed.

Lemma map2_length f : forall a b, length b = length a -> length (map2 f a b) = length a.
Proof. induction a as [|x a IH]; intros [|y b] H; cbn in *; try discriminate; [reflexivity|]. rewrite IH; lia. Qed.

Lemma intersect_shape_lemma a b : length (imin a) = length (idim a) -> length (imin b) = length (idim b) -> length (imin b) = length (imin a) ->
  length (imin (intersect a b)) = length (imin a) /\ length (idim (intersect a b)) = length (idim a) /\
  (Forall (fun d => 0 <= d) (idim a) -> Forall (fun d => 0 <= d) (idim b) -> Forall (fun d => 0 <= d) (idim (intersect a b))).
Proof.
  intros H1 H2 H3. unfold intersect. destruct (empty a); [auto|]. destruct (empty b); [split; [lia|split; [lia|auto]]|].
  cbn [imin idim initMinMax].
  assert (L1 : length (ilast a) = length (imin a)) by (unfold ilast; apply map2_length; lia).
  assert (L2 : length (ilast b) = length (imin b)) by (unfold ilast; apply map2_length; lia).
  split; [|split].
  - apply map2_length. lia.
  - rewrite map_length, map2_length; rewrite ?map_length, ?map2_length; lia.
  - intros _ _. apply Forall_forall. intros d Hd. apply in_map_iff in Hd. destruct Hd as (e & <- & _). destruct (Z.ltb_spec e 0); lia.
Qed.
