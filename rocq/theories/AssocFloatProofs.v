(** * Proofs: the correspondence graph in float arithmetic. *)
From Coq Require Import List ZArith Bool Reals Lia Lra Psatz Permutation Sorted.
From Flocq Require Import Core.
From Verif Require Import Base LabelSetModel LabelSetProofs AssocModel AssocSpec AssocProofs AssocFacts DoubleProofs SingleModel SingleProofs AssocFloatModel AssocFloatSpec.
Import ListNotations.
Open Scope Z_scope.

#[local] Existing Instance prec24.
Lemma float_format x : is_float x -> generic_format radix2 sexp x.
Proof. intros (m & e & -> & Hm & He). rewrite <- (bpow_powerRZ radix2). apply sformat; lia. Qed.

Definition windowf (t : R) (ds : list pdist) (s : pdist) := take_below (dist_upper s t) (upper_from (dist_lower s t) ds).
Definition all_edgesf nd t ds ss := flat_map (fun s => edges nd s (windowf t ds s)) ss.
Lemma link_srcf_spec nd t ds : forall ss l, okl l -> inr l (all_edgesf nd t ds ss) ->
  exists l', link_srcf nd t ds ss l = Ret l' /\ effect l l' (all_edgesf nd t ds ss).
Proof.
  induction ss as [|s ss IH]; intros l Hok Hr.
  - exists l. split; [reflexivity|apply effect_nil; exact Hok].
  - cbn [link_srcf]. change (all_edgesf nd t ds (s :: ss)) with (edges nd s (windowf t ds s) ++ all_edgesf nd t ds ss) in *.
    apply inr_app in Hr. destruct Hr as [H1 H2]. fold (windowf t ds s).
    destruct (link_dst_spec nd s (windowf t ds s) l Hok H1) as (l1 & E1 & F1). rewrite E1. cbn [obind].
    destruct (IH l1 (proj1 (proj2 F1)) (inr_shape _ _ _ (proj1 F1) H2)) as (l2 & E2 & F2).
    exists l2. split; [exact E2|]. eapply effect_trans; eassumption.
Qed.
(** The test made on two distances. *)
Definition near (t x y : R) : Prop := (single (x - t) < y)%R /\ (y < single (x + t))%R.
Lemma windowf_In t ds s p : dsorted ds -> (In p (windowf t ds s) <-> In p ds /\ near t (pdd s) (pdd p)).
Proof.
  intros H. unfold windowf, near, dist_upper, dist_lower. rewrite take_In by (apply upper_sorted; exact H). rewrite upper_In by exact H. tauto.
Qed.

Section graph.
  Context {A B : Type} (sort : list pdist -> list pdist) (src : list A) (ds : A -> A -> R) (dst : list B) (dd : B -> B -> R) (c : cga).
  Hypothesis Hc : conforming sort.
  Notation ns := (Z.of_nat (length src)).
  Notation nd := (Z.of_nat (length dst)).
  Notation t := (tol c).
  Notation m := (dmin c).
  Hypothesis Hn : nodes c = [].
  Hypothesis Hs : dsrc c = sort ([] ++ pairs_from ds 0 src).
  Hypothesis Hd : ddst c = sort ([] ++ pairs_from dd 0 dst).
  Hypothesis Hns : nsrc c = ns.
  Hypothesis Hnd : ndst c = nd.

  Lemma dsrc_sortedf : dsorted (dsrc c). Proof. rewrite Hs. apply Hc. Qed.
  Lemma ddst_sortedf : dsorted (ddst c). Proof. rewrite Hd. apply Hc. Qed.
  Lemma dsrc_In p : In p (dsrc c) <-> gap ds src (pd0 p) (pd1 p) (pdd p) /\ pd0 p < pd1 p.
  Proof. rewrite Hs. apply sorted_pairs_In; exact Hc. Qed.
  Lemma ddst_In p : In p (ddst c) <-> gap dd dst (pd0 p) (pd1 p) (pdd p) /\ pd0 p < pd1 p.
  Proof. rewrite Hd. apply sorted_pairs_In; exact Hc. Qed.

  Lemma all_Inf i j : In (i, j) (all_edgesf nd t (ddst c) (upper_from m (dsrc c))) <->
    exists s0 s1 d0 d1 x y, s0 < s1 /\ gap ds src s0 s1 x /\ gap dd dst d0 d1 y /\ (m < x)%R /\ near t x y /\
      i = s0 * nd + d0 /\ j = s1 * nd + d1.
  Proof.
    unfold all_edgesf. rewrite in_flat_map. split.
    - intros (s & Is & H). apply upper_In in Is; [|apply dsrc_sortedf]. destruct Is as [Is Hm].
      apply dsrc_In in Is. destruct Is as [Gs Ls].
      apply in_flat_map in H. destruct H as (d & Id & H). apply windowf_In in Id; [|apply ddst_sortedf]. destruct Id as [Id Ht].
      apply ddst_In in Id. destruct Id as [Gd Ld].
      cbn [edge2 In] in H. destruct H as [H | [H | []]]; injection H as <- <-.
      + exists (pd0 s), (pd1 s), (pd0 d), (pd1 d), (pdd s), (pdd d). exact (conj Ls (conj Gs (conj Gd (conj Hm (conj Ht (conj eq_refl eq_refl)))))).
      + exists (pd0 s), (pd1 s), (pd1 d), (pd0 d), (pdd s), (pdd d). apply gap_sym in Gd. exact (conj Ls (conj Gs (conj Gd (conj Hm (conj Ht (conj eq_refl eq_refl)))))).
    - intros (s0 & s1 & d0 & d1 & x & y & L & Gs & Gd & Hm & Ht & -> & ->).
      exists (mkPD s0 s1 x). split.
      + apply upper_In; [apply dsrc_sortedf|]. split; [|exact Hm]. apply dsrc_In. split; [exact Gs|exact L].
      + apply in_flat_map. destruct (Z.lt_trichotomy d0 d1) as [Hdd | [Hdd | Hdd]].
        * exists (mkPD d0 d1 y). split; [|cbn; auto]. apply windowf_In; [apply ddst_sortedf|]. split; [|exact Ht].
          apply ddst_In. split; [exact Gd|exact Hdd].
        * exfalso. apply Gd. exact Hdd.
        * exists (mkPD d1 d0 y). split; [|cbn; auto]. apply windowf_In; [apply ddst_sortedf|]. split; [|exact Ht].
          apply ddst_In. split; [apply gap_sym; exact Gd|exact Hdd].
  Qed.

  Lemma graphf_any : exists l, buildf c = Ret l /\ Z.of_nat (length l) = ns * nd /\
    (forall s d, 0 <= s < ns -> 0 <= d < nd -> exists n, nth_error l (Z.to_nat (s * nd + d)) = Some n /\ isrc n = s /\ idst n = d /\ StronglySorted Z.lt (adjacents n)) /\
    (forall i j, linked l i j <-> exists s0 s1 d0 d1 x y, gap ds src s0 s1 x /\ gap dd dst d0 d1 y /\ (m < x)%R /\ near t x y /\
      i = s0 * nd + d0 /\ j = s1 * nd + d1).
  Proof.
    unfold buildf. rewrite Hn, Hns, Hnd. cbn [app].
    destruct (link_srcf_spec nd t (ddst c) (upper_from m (dsrc c)) (new_nodes ns nd)) as (l & E & S & O & Ha).
    { apply new_nodes_ok. }
    { intros i j H. apply all_Inf in H. destruct H as (s0 & s1 & d0 & d1 & x & y & _ & Gs & Gd & _ & _ & -> & ->).
      apply gap_range in Gs. apply gap_range in Gd. rewrite new_nodes_length by lia. nia. }
    exists l. split; [exact E|]. split; [rewrite (shape_length _ _ S); apply new_nodes_length; lia|]. split.
    - intros s d Is Id.
      pose proof (new_nodes_nth ns nd s d Is Id) as Hx. apply (map_nth_error (fun n => (isrc n, idst n))) in Hx. cbn in Hx.
      fold (shape (new_nodes ns nd)) in Hx. rewrite <- S in Hx. unfold shape in Hx. rewrite nth_error_map in Hx.
      destruct (nth_error l (Z.to_nat (s * nd + d))) as [n|] eqn:En; [|discriminate]. cbn in Hx. injection Hx as H1 H2.
      exists n. repeat split; auto. unfold okl in O. rewrite Forall_forall in O. apply O. eapply nth_error_In; exact En.
    - assert (Hlk : forall i j, linked l i j <-> 0 <= i /\ In j (adj l i)).
      { intros i j. unfold linked, adj. split.
        - intros (Hi & n & -> & Hx). auto.
        - intros (Hi & Hx). split; [exact Hi|]. destruct (nth_error l (Z.to_nat i)) as [n|]; [eauto|destruct Hx]. }
      intros i j. rewrite Hlk. split.
      + intros [Hi Hj]. apply Ha in Hj; [|exact Hi]. rewrite new_nodes_adj in Hj. destruct Hj as [[] | [Hj | Hj]]; apply all_Inf in Hj;
        destruct Hj as (s0 & s1 & d0 & d1 & x & y & L & Gs & Gd & Hm & Ht & -> & ->).
        * exists s0, s1, d0, d1, x, y. exact (conj Gs (conj Gd (conj Hm (conj Ht (conj eq_refl eq_refl))))).
        * exists s1, s0, d1, d0, x, y. apply gap_sym in Gs. apply gap_sym in Gd. exact (conj Gs (conj Gd (conj Hm (conj Ht (conj eq_refl eq_refl))))).
      + intros (s0 & s1 & d0 & d1 & x & y & Gs & Gd & Hm & Ht & -> & ->).
        pose proof (gap_range _ _ _ _ _ Gs) as Rs. pose proof (gap_range _ _ _ _ _ Gd) as Rd.
        assert (Hi : 0 <= s0 * nd + d0) by nia. split; [exact Hi|]. apply Ha; [exact Hi|].
        right. destruct (Z.lt_trichotomy s0 s1) as [L | [L | L]].
        * left. apply all_Inf. exists s0, s1, d0, d1, x, y. exact (conj L (conj Gs (conj Gd (conj Hm (conj Ht (conj eq_refl eq_refl)))))).
        * exfalso. apply Gs. exact L.
        * right. apply all_Inf. exists s1, s0, d1, d0, x, y. apply gap_sym in Gs. apply gap_sym in Gd. exact (conj L (conj Gs (conj Gd (conj Hm (conj Ht (conj eq_refl eq_refl)))))).
  Qed.
  Lemma index_injf s0 d0 s1 d1 : 0 <= d0 < nd -> 0 <= d1 < nd -> s0 * nd + d0 = s1 * nd + d1 -> s0 = s1 /\ d0 = d1.
  Proof. intros H0 H1 E. assert (s0 = s1) by nia. subst. split; [reflexivity|lia]. Qed.

  Lemma graphf_lemma : exists l, buildf c = Ret l /\ Z.of_nat (length l) = ns * nd /\
    (forall s d, 0 <= s < ns -> 0 <= d < nd -> exists n, nth_error l (Z.to_nat (s * nd + d)) = Some n /\ isrc n = s /\ idst n = d /\ StronglySorted Z.lt (adjacents n)) /\
    (forall i j, linked l i j -> 0 <= j < ns * nd) /\
    (forall s0 d0 s1 d1, 0 <= s0 < ns -> 0 <= d0 < nd -> 0 <= s1 < ns -> 0 <= d1 < nd ->
      (linked l (s0 * nd + d0) (s1 * nd + d1) <->
       exists x y, gap ds src s0 s1 x /\ gap dd dst d0 d1 y /\ (m < x)%R /\ near t x y)) /\
    (forall i j, linked l i j -> linked l j i) /\ (forall i, ~ linked l i i) /\
    (forall i j, linked l i j -> exists s0 s1 x, gap ds src s0 s1 x /\ (m < x)%R /\ exists d0 d1 y, gap dd dst d0 d1 y /\ near t x y).
  Proof.
    destruct graphf_any as (l & E & Hlen & Hnode & Hed). exists l. split; [exact E|].
    split; [exact Hlen|]. split; [exact Hnode|]. split; [|split; [|split; [|split]]].
    - intros i j H. apply Hed in H. destruct H as (s0 & s1 & d0 & d1 & x & y & Gs & Gd & _ & _ & _ & ->).
      apply gap_range in Gs. apply gap_range in Gd. nia.
    - intros s0 d0 s1 d1 H1 H2 H3 H4. rewrite Hed. split.
      + intros (s0' & s1' & d0' & d1' & x & y & Gs & Gd & Hm & Ht & E0 & E1).
        pose proof (gap_range _ _ _ _ _ Gd) as Rd.
        destruct (index_injf _ _ _ _ H2 (proj1 Rd) E0) as [-> ->]. destruct (index_injf _ _ _ _ H4 (proj2 Rd) E1) as [-> ->]. exists x, y. exact (conj Gs (conj Gd (conj Hm Ht))).
      + intros (x & y & Gs & Gd & Hm & Ht). exists s0, s1, d0, d1, x, y. exact (conj Gs (conj Gd (conj Hm (conj Ht (conj eq_refl eq_refl))))).
    - intros i j H. apply Hed in H. apply Hed. destruct H as (s0 & s1 & d0 & d1 & x & y & Gs & Gd & Hm & Ht & -> & ->).
      exists s1, s0, d1, d0, x, y. apply gap_sym in Gs. apply gap_sym in Gd. exact (conj Gs (conj Gd (conj Hm (conj Ht (conj eq_refl eq_refl))))).
    - intros i H. apply Hed in H. destruct H as (s0 & s1 & d0 & d1 & x & y & Gs & Gd & Hm & Ht & E0 & E1).
      pose proof (gap_range _ _ _ _ _ Gd) as Rd. rewrite E0 in E1.
      destruct (index_injf _ _ _ _ (proj1 Rd) (proj2 Rd) E1) as [Es _]. apply Gs. exact Es.
    - intros i j H. apply Hed in H. destruct H as (s0 & s1 & d0 & d1 & x & y & Gs & Gd & Hm & Ht & _). exists s0, s1, x. split; [exact Gs|]. split; [exact Hm|].
      exists d0, d1, y. split; assumption.
  Qed.
End graph.

(** The rounded test never accepts more than the exact one. *)
Lemma near_sound t x y : generic_format radix2 sexp y -> near t x y -> (Rabs (x - y) < t)%R.
Proof.
  intros F [H1 H2]. apply Rabs_def1.
  - apply Rnot_le_lt. intros H. assert (y <= single (x - t))%R by (apply single_lower; [exact F|lra]). lra.
  - apply Rnot_le_lt. intros H. assert (single (x + t) <= y)%R by (apply single_upper; [exact F|lra]). lra.
Qed.
(** It accepts what is inside the tolerance by more than the rounding error. *)
Lemma near_complete t x y : (Rabs (x - y) + V * (Rabs x + Rabs t) + V * V < t)%R -> near t x y.
Proof.
  intros H. pose proof V_pos as Vp. pose proof (single_err (x - t)) as E1. pose proof (single_err (x + t)) as E2.
  assert (T1 : (Rabs (x - t) <= Rabs x + Rabs t)%R).
  { unfold Rminus. eapply Rle_trans; [apply Rabs_triang|]. rewrite Rabs_Ropp. lra. }
  assert (T2 : (Rabs (x + t) <= Rabs x + Rabs t)%R) by apply Rabs_triang.
  assert (M1 : (V * Rabs (x - t) <= V * (Rabs x + Rabs t))%R) by (apply Rmult_le_compat_l; lra).
  assert (M2 : (V * Rabs (x + t) <= V * (Rabs x + Rabs t))%R) by (apply Rmult_le_compat_l; lra).
  assert (X : (Rabs (x - y) < t - (V * (Rabs x + Rabs t) + V * V))%R) by lra. apply Rabs_def2 in X.
  assert (E1' : (Rabs (single (x - t) - (x - t)) <= V * (Rabs x + Rabs t) + V * V)%R) by lra.
  assert (E2' : (Rabs (single (x + t) - (x + t)) <= V * (Rabs x + Rabs t) + V * V)%R) by lra.
  apply abs_le_inv in E1', E2'. unfold near. lra.
Qed.

(** Floats of magnitude at least 2^k are multiples of 2^(k-23). *)
Lemma sgrid x k : generic_format radix2 sexp x -> (bpow radix2 k <= Rabs x)%R -> exists m, x = (IZR m * bpow radix2 (k - 23))%R.
Proof.
  intros F Hx. unfold generic_format, F2R in F. cbn in F. set (M := Ztrunc (scaled_mantissa radix2 sexp x)) in F. set (e := cexp radix2 sexp x) in F.
  assert (He : k - 23 <= e).
  { unfold e, cexp, sexp, FLT_exp. assert (k + 1 <= mag radix2 x) by (apply mag_ge_bpow; replace (k + 1 - 1) with k by lia; exact Hx). lia. }
  exists (M * 2 ^ (e - (k - 23))). rewrite mult_IZR, (IZR_Zpower radix2) by lia. rewrite Rmult_assoc, <- bpow_plus. replace (e - (k - 23) + (k - 23)) with e by lia. exact F.
Qed.
(** A tolerance below half the spacing accepts nothing, not even the distance itself. *)
Lemma near_none k t x y : generic_format radix2 sexp x -> generic_format radix2 sexp y -> (bpow radix2 k <= x)%R -> (t < bpow radix2 (k - 24))%R -> ~ near t x y.
Proof.
  intros Fx Fy Hx Ht Hn. pose proof (near_sound t x y Fy Hn) as Hs. destruct Hn as [_ H2].
  assert (Bp : (0 < bpow radix2 (k - 24))%R) by apply bpow_gt_0.
  assert (B2 : (bpow radix2 (k - 23) = 2 * bpow radix2 (k - 24))%R) by (replace (k - 23) with (1 + (k - 24)) by lia; rewrite bpow_plus; reflexivity).
  assert (Bk : (bpow radix2 k = 2 * bpow radix2 (k - 1))%R) by (replace k with (1 + (k - 1)) at 1 by lia; rewrite bpow_plus; reflexivity).
  assert (Bs : (bpow radix2 (k - 24) <= bpow radix2 (k - 1))%R) by (apply bpow_le; lia).
  apply Rabs_def2 in Hs. assert (T0 : (0 < t)%R) by lra.
  assert (Gx : exists i, x = (IZR i * bpow radix2 (k - 23))%R) by (apply sgrid; [exact Fx|rewrite Rabs_pos_eq; lra]).
  assert (Gx1 : exists i, x = (IZR i * bpow radix2 (k - 24))%R).
  { replace (k - 24) with (k - 1 - 23) by lia. apply sgrid; [exact Fx|rewrite Rabs_pos_eq; lra]. }
  assert (Gy : exists i, y = (IZR i * bpow radix2 (k - 24))%R).
  { replace (k - 24) with (k - 1 - 23) by lia. apply sgrid; [exact Fy|rewrite Rabs_pos_eq; lra]. }
  destruct Gx1 as (i & Ei). destruct Gy as (j & Ej). assert (Eij : i = j).
  { assert ((-1 < IZR (i - j) < 1)%R) as [L R].
    { rewrite minus_IZR. split; apply (Rmult_lt_reg_r (bpow radix2 (k - 24))); try exact Bp; rewrite Rmult_minus_distr_r, <- Ei, <- Ej; lra. }
    apply lt_IZR in L, R. lia. }
  assert (Exy : x = y) by (rewrite Ei, Ej, Eij; reflexivity). subst y.
  set (z := single (x + t)) in *. assert (Fz : generic_format radix2 sexp z) by apply single_format.
  assert (Gz : exists i, z = (IZR i * bpow radix2 (k - 23))%R) by (apply sgrid; [exact Fz|rewrite Rabs_pos_eq; lra]).
  destruct Gx as (a & Ea). destruct Gz as (b & Eb).
  assert (Hab : a + 1 <= b).
  { assert (a < b); [|lia]. apply lt_IZR. apply (Rmult_lt_reg_r (bpow radix2 (k - 23))); lra. }
  assert (Hz : (x + bpow radix2 (k - 23) <= z)%R).
  { rewrite Ea, Eb. apply IZR_le in Hab. rewrite plus_IZR in Hab. replace (IZR a * bpow radix2 (k - 23) + bpow radix2 (k - 23))%R with ((IZR a + 1) * bpow radix2 (k - 23))%R by ring.
    apply Rmult_le_compat_r; lra. }
  destruct (round_N_pt radix2 sexp (fun n => negb (Z.even n)) (x + t)) as [_ Hmin]. specialize (Hmin x Fx).
  change (Znearest (fun n => negb (Z.even n))) with ZnearestE in Hmin. change (round radix2 sexp ZnearestE (x + t)) with z in Hmin.
  rewrite (Rabs_pos_eq (z - (x + t))) in Hmin by lra. rewrite (Rabs_left (x - (x + t))) in Hmin by lra. lra.
Qed.

Lemma V_bpow : V = bpow radix2 (-24). Proof. reflexivity. Qed.
(** 0.1f. *)
Lemma tenth_value : single (1 / 10) = (IZR 13421773 * bpow radix2 (-27))%R.
Proof.
  apply single_near; [lia| |].
  - rewrite Rabs_pos_eq by lra. change (bpow radix2 (23 + -27)) with (/ 16)%R. change (bpow radix2 (24 + -27)) with (/ 8)%R. lra.
  - change (bpow radix2 (- -27)) with 134217728%R. apply Rabs_def1; lra.
Qed.
Lemma tenth_near : (99999 / 1000000 < single (1 / 10) < 100001 / 1000000)%R.
Proof. rewrite tenth_value. change (bpow radix2 (-27)) with (/ 134217728)%R. lra. Qed.
Lemma tenth_none x y : is_float x -> is_float y -> (2097152 <= x)%R -> ~ near (single (1 / 10)) x y.
Proof.
  intros Fx Fy Hx. apply (near_none 21); [now apply float_format|now apply float_format| |].
  - change (bpow radix2 21) with 2097152%R. exact Hx.
  - change (bpow radix2 (21 - 24)) with (/ 8)%R. pose proof tenth_near. lra.
Qed.
Lemma tenth_same x : (Rabs x <= 1600000)%R -> near (single (1 / 10)) x x.
Proof.
  intros Hx. apply near_complete. pose proof tenth_near. rewrite (Rabs_pos_eq (single _)) by lra. rewrite Rminus_eq_0, Rabs_R0. unfold V. pose proof (Rabs_pos x). lra.
Qed.

Lemma problem_fields {A B} sort (src : list A) ds (dst : list B) dd t m : let c := problem sort src ds dst dd t m in
  nodes c = [] /\ dsrc c = sort ([] ++ pairs_from ds 0 src) /\ ddst c = sort ([] ++ pairs_from dd 0 dst) /\ nsrc c = Z.of_nat (length src) /\ ndst c = Z.of_nat (length dst) /\ tol c = t /\ dmin c = m.
Proof. repeat split. Qed.
Lemma default_fields {A B} sort (src : list A) ds (dst : list B) dd : let c := default_problem sort src ds dst dd in
  nodes c = [] /\ dsrc c = sort ([] ++ pairs_from ds 0 src) /\ ddst c = sort ([] ++ pairs_from dd 0 dst) /\ nsrc c = Z.of_nat (length src) /\ ndst c = Z.of_nat (length dst) /\ tol c = single (1 / 10) /\ dmin c = 0%R.
Proof. repeat split. Qed.

Definition graph_of {A B} (l : list node) (src : list A) ds (dst : list B) dd (t m : R) : Prop :=
  let ns := Z.of_nat (length src) in let nd := Z.of_nat (length dst) in
  Z.of_nat (length l) = ns * nd /\
  (forall s d, 0 <= s < ns -> 0 <= d < nd -> exists n, nth_error l (Z.to_nat (s * nd + d)) = Some n /\ isrc n = s /\ idst n = d /\ StronglySorted Z.lt (adjacents n)) /\
    (forall i j, linked l i j -> 0 <= j < ns * nd) /\
    (forall s0 d0 s1 d1, 0 <= s0 < ns -> 0 <= d0 < nd -> 0 <= s1 < ns -> 0 <= d1 < nd ->
      (linked l (s0 * nd + d0) (s1 * nd + d1) <->
       exists x y, gap ds src s0 s1 x /\ gap dd dst d0 d1 y /\ (m < x)%R /\ near t x y)) /\
    (forall i j, linked l i j -> linked l j i) /\ (forall i, ~ linked l i i) /\
    (forall i j, linked l i j -> exists s0 s1 x, gap ds src s0 s1 x /\ (m < x)%R /\ exists d0 d1 y, gap dd dst d0 d1 y /\ near t x y).
Lemma problem_graph {A B} sort (src : list A) ds (dst : list B) dd t m : conforming sort ->
  exists l, buildf (problem sort src ds dst dd t m) = Ret l /\ graph_of l src ds dst dd t m.
Proof.
  intros Hc. destruct (problem_fields sort src ds dst dd t m) as (F1 & F2 & F3 & F4 & F5 & F6 & F7).
  destruct (graphf_lemma sort src ds dst dd _ Hc F1 F2 F3 F4 F5) as (l & E & G). rewrite F6, F7 in G. exists l. split; [exact E|exact G].
Qed.
Lemma default_graph {A B} sort (src : list A) ds (dst : list B) dd : conforming sort ->
  exists l, buildf (default_problem sort src ds dst dd) = Ret l /\ graph_of l src ds dst dd (single (1 / 10)) 0.
Proof.
  intros Hc. destruct (default_fields sort src ds dst dd) as (F1 & F2 & F3 & F4 & F5 & F6 & F7).
  destruct (graphf_lemma sort src ds dst dd _ Hc F1 F2 F3 F4 F5) as (l & E & G). rewrite F6, F7 in G. exists l. split; [exact E|exact G].
Qed.
Lemma gap_float {A} (dist : A -> A -> R) items i j x : float_valued dist -> gap dist items i j x -> is_float x.
Proof. intros F (_ & _ & _ & a & b & _ & _ & <-). apply F. Qed.

(** Links are compatible pairs. *)
Lemma sound_lemma {A B} sort (src : list A) ds (dst : list B) dd t m : conforming sort -> float_valued dd ->
  let ns := Z.of_nat (length src) in let nd := Z.of_nat (length dst) in
  exists l, buildf (problem sort src ds dst dd t m) = Ret l /\ Z.of_nat (length l) = ns * nd /\
    (forall s d, 0 <= s < ns -> 0 <= d < nd ->
      exists n, nth_error l (Z.to_nat (s * nd + d)) = Some n /\ isrc n = s /\ idst n = d /\ StronglySorted Z.lt (adjacents n)) /\
    (forall i j, linked l i j -> 0 <= j < ns * nd) /\
    (forall s0 d0 s1 d1, 0 <= s0 < ns -> 0 <= d0 < nd -> 0 <= s1 < ns -> 0 <= d1 < nd ->
      linked l (s0 * nd + d0) (s1 * nd + d1) ->
       exists x y, gap ds src s0 s1 x /\ gap dd dst d0 d1 y /\ (m < x)%R /\ (Rabs (x - y) < t)%R) /\
    (forall i j, linked l i j -> linked l j i) /\ (forall i, ~ linked l i i).
Proof.
  intros Hc Fd ns nd. destruct (problem_graph sort src ds dst dd t m Hc) as (l & E & G1 & G2 & G3 & G4 & G5 & G6 & _).
  exists l. refine (conj E (conj G1 (conj G2 (conj G3 (conj _ (conj G5 G6)))))).
  intros s0 d0 s1 d1 H1 H2 H3 H4 L. apply G4 in L; try assumption. destruct L as (x & y & Gs & Gd & Hm & Hn).
  exists x, y. refine (conj Gs (conj Gd (conj Hm _))). apply near_sound; [|exact Hn]. apply float_format. exact (gap_float _ _ _ _ _ Fd Gd).
Qed.
Lemma complete_lemma {A B} sort (src : list A) ds (dst : list B) dd t m : conforming sort ->
  let ns := Z.of_nat (length src) in let nd := Z.of_nat (length dst) in
  exists l, buildf (problem sort src ds dst dd t m) = Ret l /\
    forall s0 d0 s1 d1 x y, gap ds src s0 s1 x -> gap dd dst d0 d1 y -> (m < x)%R ->
      (Rabs (x - y) + powerRZ 2 (-24) * (Rabs x + Rabs t) + powerRZ 2 (-48) < t)%R -> linked l (s0 * nd + d0) (s1 * nd + d1).
Proof.
  intros Hc ns nd. destruct (problem_graph sort src ds dst dd t m Hc) as (l & E & _ & _ & _ & G4 & _).
  exists l. split; [exact E|]. intros s0 d0 s1 d1 x y Gs Gd Hm Ht.
  pose proof (gap_range _ _ _ _ _ Gs). pose proof (gap_range _ _ _ _ _ Gd). apply G4; try tauto.
  exists x, y. refine (conj Gs (conj Gd (conj Hm _))). apply near_complete. rewrite V_bpow, <- bpow_plus. rewrite !bpow_powerRZ. exact Ht.
Qed.
Lemma far_lemma {A B} sort (src : list A) ds (dst : list B) dd : conforming sort -> float_valued ds -> float_valued dd ->
  (forall i j x, gap ds src i j x -> (2097152 <= x)%R) ->
  exists l, buildf (default_problem sort src ds dst dd) = Ret l /\ forall i j, ~ linked l i j.
Proof.
  intros Hc Fs Fd Hf. destruct (default_graph sort src ds dst dd Hc) as (l & E & _ & _ & _ & _ & _ & _ & G). exists l. split; [exact E|].
  intros i j L. apply G in L. destruct L as (s0 & s1 & x & Gs & _ & d0 & d1 & y & Gd & Hn). revert Hn. apply tenth_none.
  - exact (gap_float _ _ _ _ _ Fs Gs).
  - exact (gap_float _ _ _ _ _ Fd Gd).
  - eapply Hf. exact Gs.
Qed.
Lemma same_lemma {A B} sort (src : list A) ds (dst : list B) dd : conforming sort -> 
  exists l, buildf (default_problem sort src ds dst dd) = Ret l /\
    forall s0 d0 s1 d1 x, gap ds src s0 s1 x -> gap dd dst d0 d1 x -> (0 < x <= 1600000)%R ->
      linked l (s0 * Z.of_nat (length dst) + d0) (s1 * Z.of_nat (length dst) + d1).
Proof.
  intros Hc. destruct (default_graph sort src ds dst dd Hc) as (l & E & _ & _ & _ & G4 & _). exists l. split; [exact E|].
  intros s0 d0 s1 d1 x Gs Gd Hx. pose proof (gap_range _ _ _ _ _ Gs). pose proof (gap_range _ _ _ _ _ Gd). apply G4; try tauto.
  exists x, x. refine (conj Gs (conj Gd (conj (proj1 Hx) _))). apply tenth_same. destruct Hx. rewrite Rabs_pos_eq; lra.
Qed.

(** Two items at a constant distance. *)
Definition pair2 : list unit := [tt; tt].
Definition const (x : R) : unit -> unit -> R := fun _ _ => x.
Lemma const_gap x : gap (const x) pair2 0 1 x.
Proof. split; [lia|]. split; [lia|]. split; [lia|]. exists tt, tt. repeat split. Qed.
Lemma const_gap_inv x i j y : gap (const x) pair2 i j y -> y = x.
Proof. intros (_ & _ & _ & a & b & _ & _ & E). symmetry. exact E. Qed.
Lemma int_float n : (Z.abs n < 2 ^ 24)%Z -> is_float (IZR n).
Proof. intros H. exists n, 0. cbn. rewrite Rmult_1_r. repeat split; [exact H|lia|lia]. Qed.
Lemma float_pow24 : is_float 16777216.
Proof. exists 8388608, 1. split; [|lia]. change (powerRZ 2 1) with (2 * 1)%R. lra. Qed.
Lemma float_7_4 : is_float (7 / 4).
Proof. exists 7, (-2). split; [|lia]. change (powerRZ 2 (-2)) with (/ (2 * (2 * 1)))%R. lra. Qed.
Lemma up_round : single (16777215 + 7 / 4) = 16777216%R.
Proof.
  rewrite (single_near (16777215 + 7 / 4) 8388608 1); [change (bpow radix2 1) with 2%R; lra|lia| |].
  - rewrite Rabs_pos_eq by lra. change (bpow radix2 (23 + 1)) with 16777216%R. change (bpow radix2 (24 + 1)) with 33554432%R. lra.
  - change (bpow radix2 (- (1))) with (/ 2)%R. apply Rabs_def1; lra.
Qed.
Lemma back_near : near (7 / 4) 16777216 16777215.
Proof.
  unfold near. split.
  - rewrite (single_near (16777216 - 7 / 4) 16777214 0); [change (bpow radix2 0) with 1%R; lra|lia| |].
    + rewrite Rabs_pos_eq by lra. change (bpow radix2 (23 + 0)) with 8388608%R. change (bpow radix2 (24 + 0)) with 16777216%R. lra.
    + change (bpow radix2 (- 0)) with 1%R. apply Rabs_def1; lra.
  - apply Rlt_le_trans with 16777216%R; [lra|]. apply single_lower; [apply float_format, float_pow24|lra].
Qed.

(** Exact arithmetic treats the two sets alike. *)
Lemma exchange_lemma {A B} sort (src : list A) ds (dst : list B) dd t : conforming sort ->
  (forall a b, (0 < ds a b)%R) -> (forall a b, (0 < dd a b)%R) ->
  let ns := Z.of_nat (length src) in let nd := Z.of_nat (length dst) in
  exists l l', build (problem sort src ds dst dd t 0) = Ret l /\ build (problem sort dst dd src ds t 0) = Ret l' /\
    forall s0 d0 s1 d1, 0 <= s0 < ns -> 0 <= d0 < nd -> 0 <= s1 < ns -> 0 <= d1 < nd ->
      (linked l (s0 * nd + d0) (s1 * nd + d1) <-> linked l' (d0 * ns + s0) (d1 * ns + s1)).
Proof.
  intros Hc Ps Pd ns nd.
  destruct (graph_lemma sort src ds dst dd t 0 Hc) as (l & E & _ & _ & _ & G & _).
  destruct (graph_lemma sort dst dd src ds t 0 Hc) as (l' & E' & _ & _ & _ & G' & _).
  exists l, l'. split; [exact E|]. split; [exact E'|]. intros s0 d0 s1 d1 H1 H2 H3 H4.
  eapply iff_trans; [exact (G s0 d0 s1 d1 H1 H2 H3 H4)|]. eapply iff_trans; [|apply iff_sym; exact (G' d0 s0 d1 s1 H2 H1 H4 H3)]. split; intros (x & y & Gx & Gy & _ & Ht); exists y, x; refine (conj Gy (conj Gx (conj _ _))).
  - destruct Gy as (_ & _ & _ & a & b & _ & _ & <-). apply Pd.
  - rewrite Rabs_minus_sym. exact Ht.
  - destruct Gy as (_ & _ & _ & a & b & _ & _ & <-). apply Ps.
  - rewrite Rabs_minus_sym. exact Ht.
Qed.
(** Float arithmetic does outside the band of one rounding error. *)
Lemma gap_unique {A} (dist : A -> A -> R) items i j x y : gap dist items i j x -> gap dist items i j y -> x = y.
Proof. intros (_ & _ & _ & a & b & Ha & Hb & <-) (_ & _ & _ & a' & b' & Ha' & Hb' & <-). congruence. Qed.
Lemma exchangef_lemma {A B} sort (src : list A) ds (dst : list B) dd t : conforming sort ->
  float_valued ds -> float_valued dd -> (forall a b, (0 < ds a b)%R) -> (forall a b, (0 < dd a b)%R) ->
  let ns := Z.of_nat (length src) in let nd := Z.of_nat (length dst) in
  exists l l', buildf (problem sort src ds dst dd t 0) = Ret l /\ buildf (problem sort dst dd src ds t 0) = Ret l' /\
    forall s0 d0 s1 d1 x y, gap ds src s0 s1 x -> gap dd dst d0 d1 y ->
      ((t <= Rabs (x - y))%R \/ (Rabs (x - y) + powerRZ 2 (-24) * (Rmax x y + Rabs t) + powerRZ 2 (-48) < t)%R) ->
      (linked l (s0 * nd + d0) (s1 * nd + d1) <-> linked l' (d0 * ns + s0) (d1 * ns + s1)).
Proof.
  intros Hc Fs Fd Ps Pd ns nd.
  destruct (problem_graph sort src ds dst dd t 0 Hc) as (l & E & _ & _ & _ & G & _).
  destruct (problem_graph sort dst dd src ds t 0 Hc) as (l' & E' & _ & _ & _ & G' & _).
  exists l, l'. split; [exact E|]. split; [exact E'|]. intros s0 d0 s1 d1 x y Gx Gy H.
  destruct (gap_range _ _ _ _ _ Gx) as [H1 H3]. destruct (gap_range _ _ _ _ _ Gy) as [H2 H4].
  assert (Fx : generic_format radix2 sexp x) by (apply float_format; exact (gap_float _ _ _ _ _ Fs Gx)).
  assert (Fy : generic_format radix2 sexp y) by (apply float_format; exact (gap_float _ _ _ _ _ Fd Gy)).
  assert (Px : (0 < x)%R) by (destruct Gx as (_ & _ & _ & a & b & _ & _ & <-); apply Ps).
  assert (Py : (0 < y)%R) by (destruct Gy as (_ & _ & _ & a & b & _ & _ & <-); apply Pd).
  assert (I1 : linked l (s0 * nd + d0) (s1 * nd + d1) <-> near t x y).
  { eapply iff_trans; [exact (G s0 d0 s1 d1 H1 H2 H3 H4)|]. split.
    - intros (x' & y' & Gx' & Gy' & _ & N). rewrite (gap_unique _ _ _ _ _ _ Gx Gx'), (gap_unique _ _ _ _ _ _ Gy Gy'). exact N.
    - intros N. exists x, y. exact (conj Gx (conj Gy (conj Px N))). }
  assert (I2 : linked l' (d0 * ns + s0) (d1 * ns + s1) <-> near t y x).
  { eapply iff_trans; [exact (G' d0 s0 d1 s1 H2 H1 H4 H3)|]. split.
    - intros (y' & x' & Gy' & Gx' & _ & N). rewrite (gap_unique _ _ _ _ _ _ Gx Gx'), (gap_unique _ _ _ _ _ _ Gy Gy'). exact N.
    - intros N. exists y, x. exact (conj Gy (conj Gx (conj Py N))). }
  rewrite I1, I2. destruct H as [H | H].
  - split; intros N; apply near_sound in N; try assumption; [|rewrite Rabs_minus_sym in N]; lra.
  - pose proof V_pos. pose proof (Rmax_l x y). pose proof (Rmax_r x y).
    rewrite <- !(bpow_powerRZ radix2) in H. change (bpow radix2 (-24)) with V in H.
    replace (bpow radix2 (-48)) with (V * V)%R in H by (rewrite V_bpow, <- bpow_plus; reflexivity).
    assert ((V * (x + Rabs t) <= V * (Rmax x y + Rabs t))%R) by (apply Rmult_le_compat_l; lra).
    assert ((V * (y + Rabs t) <= V * (Rmax x y + Rabs t))%R) by (apply Rmult_le_compat_l; lra).
    split; intros _; apply near_complete; rewrite (Rabs_pos_eq _ (Rlt_le _ _ Px)) || rewrite (Rabs_pos_eq _ (Rlt_le _ _ Py)); [rewrite Rabs_minus_sym|]; lra.
Qed.
