(** * Proofs about the initial transformation of a box and the moments of the cloud. *)
From Coq Require Import List Reals Bool Arith Lra Lia Permutation.
From Verif Require Import Base BoxModel BoxSpec BoxInit BoxMomentModel BoxMomentSpec.
Import ListNotations.
Open Scope R_scope.

Lemma zipw_length {A} (f : A -> A -> A) a : forall b, length a = length b -> length (zipw f a b) = length a.
Proof. induction a as [|x a IH]; intros [|y b] H; try discriminate; [reflexivity|]. cbn. rewrite IH by (injection H; auto). reflexivity. Qed.
Lemma zipw_nth {A} (f : A -> A -> A) da db dc a : forall b i, length a = length b -> (i < length a)%nat -> nth i (zipw f a b) dc = f (nth i a da) (nth i b db).
Proof. induction a as [|x a IH]; intros [|y b] i H L; cbn in *; try discriminate; [lia|]. destruct i as [|i]; [reflexivity|]. apply IH; [injection H; auto|lia]. Qed.

(** ** Inner products *)
Lemma inner_add u v w : length u = length v -> inner (addl u v) w = inner u w + inner v w.
Proof. revert v w. induction u as [|x u IH]; intros [|y v] w H; try discriminate; [cbn; lra|]. destruct w as [|z w]; cbn; [lra|]. fold addl. rewrite IH by (injection H; auto). lra. Qed.
Lemma inner_sub u v w : length u = length v -> inner (subl u v) w = inner u w - inner v w.
Proof. revert v w. induction u as [|x u IH]; intros [|y v] w H; try discriminate; [cbn; lra|]. destruct w as [|z w]; cbn; [lra|]. fold subl. rewrite IH by (injection H; auto). lra. Qed.
Lemma inner_sym u : forall v, inner u v = inner v u.
Proof. induction u as [|x u IH]; intros [|y v]; cbn; try reflexivity. rewrite IH. lra. Qed.
Lemma inner_scale k v : forall w, inner (map (Rmult k) v) w = k * inner v w.
Proof. induction v as [|y v IH]; intros [|z w]; cbn; try lra. rewrite IH. lra. Qed.
Lemma inner_unit i v : forall s, inner (map (fun j => if Nat.eqb i j then 1 else 0) (seq s (length v))) v = if Nat.ltb i s then 0 else nth (i - s) v 0.
Proof.
  induction v as [|y v IH]; intros s; cbn [length seq map inner].
  - destruct (i <? s)%nat; [reflexivity|]. destruct (i - s)%nat; reflexivity.
  - rewrite IH. destruct (Nat.eqb_spec i s) as [->|N].
    + destruct (Nat.ltb_spec s (S s)); [|lia]. destruct (Nat.ltb_spec s s); [lia|]. rewrite Nat.sub_diag. cbn. lra.
    + destruct (Nat.ltb_spec i (S s)), (Nat.ltb_spec i s); try lia; try lra. replace (i - s)%nat with (S (i - S s)) by lia. cbn. lra.
Qed.

(** ** Matrices *)
Definition shape (D : nat) (M : list (list R)) : Prop := length M = D /\ Forall (fun r => length r = D) M.
Definition appm (M : list (list R)) (v : list R) : list R := map (fun r => inner r v) M.
Lemma shape_row D M i : shape D M -> (i < D)%nat -> length (nth i M []) = D.
Proof. intros [L F] H. rewrite Forall_forall in F. apply F, nth_In. lia. Qed.
Lemma shape_add D M N : shape D M -> shape D N -> shape D (addml M N).
Proof.
  intros HM HN. pose proof HM as [LM _]. pose proof HN as [LN _]. assert (LL : length (addml M N) = D) by (unfold addml; rewrite zipw_length; lia).
  split; [exact LL|]. apply Forall_forall. intros r Hr. destruct (In_nth _ _ [] Hr) as (i & Hi & <-). rewrite LL in Hi. unfold addml.
  rewrite (zipw_nth addl [] [] []) by lia. unfold addl. rewrite zipw_length; rewrite !(shape_row D) by assumption; reflexivity.
Qed.
Lemma shape_outer D a b : length a = D -> length b = D -> shape D (outerl a b).
Proof.
  intros A B. split; [unfold outerl; rewrite map_length; exact A|]. apply Forall_forall. intros r Hr. apply in_map_iff in Hr. destruct Hr as (x & <- & _). rewrite map_length. exact B.
Qed.
Lemma shape_id D : shape D (identityl D).
Proof.
  split; [unfold identityl; rewrite map_length, seq_length; reflexivity|]. apply Forall_forall. intros r Hr. apply in_map_iff in Hr. destruct Hr as (x & <- & _). rewrite map_length, seq_length. reflexivity.
Qed.
Lemma entry_add D M N i j : shape D M -> shape D N -> (i < D)%nat -> (j < D)%nat -> nth j (nth i (addml M N) []) 0 = nth j (nth i M []) 0 + nth j (nth i N []) 0.
Proof.
  intros HM HN Hi Hj. pose proof HM as [LM _]. pose proof HN as [LN _]. unfold addml. rewrite (zipw_nth addl [] [] []) by lia. unfold addl.
  pose proof (shape_row D M i HM Hi). pose proof (shape_row D N i HN Hi). apply zipw_nth; lia.
Qed.
Lemma nth_map {A B} (f : A -> B) l i d e : (i < length l)%nat -> nth i (map f l) e = f (nth i l d).
Proof. intros H. rewrite (nth_indep _ e (f d)) by (rewrite map_length; exact H). apply map_nth. Qed.
Lemma entry_outer D a b i j : length a = D -> length b = D -> (i < D)%nat -> (j < D)%nat -> nth j (nth i (outerl a b) []) 0 = nth i a 0 * nth j b 0.
Proof. intros A B Hi Hj. unfold outerl. rewrite (nth_map _ a i 0) by lia. rewrite (nth_map _ b j 0) by lia. reflexivity. Qed.
Lemma entry_id D i j : (i < D)%nat -> (j < D)%nat -> nth j (nth i (identityl D) []) 0 = if Nat.eqb i j then 1 else 0.
Proof. intros Hi Hj. unfold identityl. rewrite (nth_map _ _ i 0%nat) by (rewrite seq_length; lia). rewrite (nth_map _ _ j 0%nat) by (rewrite seq_length; lia). rewrite !seq_nth by assumption. reflexivity. Qed.
Lemma app_add u D M N v : shape D M -> shape D N -> inner u (appm (addml M N) v) = inner u (appm M v) + inner u (appm N v).
Proof.
  intros [LM FM] [LN FN]. assert (L : length M = length N) by lia. clear LM LN. revert N FN L u. induction M as [|r M IH]; intros [|s N] FN L u; try discriminate.
  - destruct u; cbn; lra.
  - destruct u as [|x u]; [cbn; lra|]. inversion FM; inversion FN; subst. 
    change (appm (addml (r :: M) (s :: N)) v) with (inner (addl r s) v :: appm (addml M N) v). change (appm (r :: M) v) with (inner r v :: appm M v). change (appm (s :: N) v) with (inner s v :: appm N v).
    cbn [inner]. rewrite inner_add by congruence. rewrite IH by (assumption || (injection L; auto)). lra.
Qed.
Lemma app_outer u a b v : inner u (appm (outerl a b) v) = inner u a * inner b v.
Proof. revert u. induction a as [|x a IH]; intros [|y u]; cbn; try lra. rewrite inner_scale. unfold appm, outerl in IH. rewrite IH. lra. Qed.
Lemma app_id u v : inner u (appm (identityl (length v)) v) = inner u v.
Proof.
  f_equal. unfold appm, identityl. rewrite map_map. apply (nth_ext _ _ 0 0); [rewrite map_length, seq_length; reflexivity|]. intros i Hi. rewrite map_length, seq_length in Hi.
  rewrite (nth_map _ _ i 0%nat) by (rewrite seq_length; lia). rewrite seq_nth by assumption. rewrite inner_unit. cbn [Nat.add Nat.ltb]. rewrite Nat.sub_0_r. reflexivity.
Qed.
Lemma inner_div k r v : inner (map (fun x => x * 1 / k) r) v = inner r v / k.
Proof. revert v. induction r as [|x r IH]; intros [|y v]; cbn; try (unfold Rdiv; lra). rewrite IH. unfold Rdiv. lra. Qed.
Lemma app_div k u M v : inner u (appm (map (map (fun x => x * 1 / k)) M) v) = inner u (appm M v) / k.
Proof. revert u. induction M as [|r M IH]; intros [|y u]; cbn; try (unfold Rdiv; lra). rewrite inner_div. unfold appm in IH. rewrite IH. unfold Rdiv. lra. Qed.

(** ** Centroid and covariance *)
Lemma fold_centroid D cloud : cloud_of D cloud -> forall acc, length acc = D -> length (fold_left addl cloud acc) = D /\
  forall i, (i < D)%nat -> nth i (fold_left addl cloud acc) 0 = nth i acc 0 + total (fun c => nth i c 0) cloud.
Proof.
  induction cloud as [|c cloud IH]; intros F acc L; cbn [fold_left total]; [split; [exact L|intros; lra]|]. inversion F; subst.
  assert (LA : length (addl acc c) = length acc) by (unfold addl; rewrite zipw_length; congruence). destruct (IH H2 (addl acc c) LA) as [I1 I2]. split; [exact I1|].
  intros i Hi. rewrite I2 by exact Hi. unfold addl. rewrite (zipw_nth Rplus 0 0 0) by lia. lra.
Qed.
Lemma centroid_ok D cloud : cloud_of D cloud -> cloud <> [] -> is_centroid D cloud (centroidl D cloud).
Proof.
  intros F N. destruct (fold_centroid D cloud F (repeat 0 D) (repeat_length _ _)) as [I1 I2]. split; [unfold centroidl; rewrite map_length; exact I1|].
  intros i Hi. unfold centroidl. rewrite (nth_map _ _ i 0) by lia. rewrite I2 by exact Hi. rewrite nth_repeat. field.
  apply not_0_INR. destruct cloud; [congruence|discriminate].
Qed.
Lemma fold_covar D m cloud : length m = D -> cloud_of D cloud -> forall acc, shape D acc ->
  let M := fold_left (fun acc c => addml acc (outerl (subl c m) (subl c m))) cloud acc in shape D M /\
  (forall i j, (i < D)%nat -> (j < D)%nat -> nth j (nth i M []) 0 = nth j (nth i acc []) 0 + total (fun c => (nth i c 0 - nth i m 0) * (nth j c 0 - nth j m 0)) cloud) /\
  (forall u v, inner u (appm M v) = inner u (appm acc v) + total (fun c => (inner c u - inner m u) * (inner c v - inner m v)) cloud).
Proof.
  intros Lm. induction cloud as [|c cloud IH]; intros F acc S; cbn [fold_left total]; cbv zeta.
  { split; [exact S|]. split; intros; lra. }
  inversion F; subst. assert (LS : length (subl c m) = length m) by (unfold subl; rewrite zipw_length; congruence).
  pose proof (shape_outer (length m) _ _ LS LS) as SO. destruct (IH H2 _ (shape_add _ _ _ S SO)) as (I1 & I2 & I3). split; [exact I1|]. split.
  - intros i j Hi Hj. rewrite I2 by assumption. rewrite (entry_add (length m)) by assumption. rewrite (entry_outer (length m)) by assumption.
    unfold subl. rewrite !(zipw_nth Rminus 0 0 0) by lia. lra.
  - intros u v. rewrite I3. rewrite (app_add u (length m)) by assumption. rewrite app_outer. rewrite (inner_sym u (subl c m)), !inner_sub by congruence. lra.
Qed.
Lemma covar_ok D cloud : cloud_of D cloud -> (2 <= length cloud)%nat ->
  let m := centroidl D cloud in let M := covarl D cloud m in
  moment_matrix D cloud M /\ forall u v, length v = D -> (INR (length cloud) - 1) * inner u (appm M v) = inner u v + moment cloud m u v.
Proof.
  intros F N. cbv zeta. set (m := centroidl D cloud). assert (C : is_centroid D cloud m) by (apply centroid_ok; [exact F|destruct cloud; [cbn in N; lia|discriminate]]).
  destruct (fold_covar D m cloud (proj1 C) F (identityl D) (shape_id D)) as (I1 & I2 & I3).
  assert (P : INR (length cloud) - 1 <> 0) by (apply le_INR in N; cbn in N; lra).
  unfold covarl. set (M0 := fold_left _ cloud (identityl D)) in *. split.
  - destruct I1 as [L1 L2]. split; [rewrite map_length; exact L1|]. split.
    { apply Forall_forall. intros r Hr. apply in_map_iff in Hr. destruct Hr as (x & <- & Hx). rewrite map_length. rewrite Forall_forall in L2. apply L2, Hx. }
    exists m. split; [exact C|]. intros i j Hi Hj. rewrite (nth_map _ _ i []) by lia. rewrite (nth_map _ _ j 0) by (rewrite (shape_row D); [exact Hj|split; assumption|exact Hi]).
    rewrite I2 by assumption. rewrite entry_id by assumption. field. exact P.
  - intros u v <-. rewrite app_div, I3, app_id. unfold moment. field. exact P.
Qed.

Lemma inner_scaled_r u k v : inner u (map (Rmult k) v) = k * inner u v.
Proof. rewrite inner_sym, inner_scale, inner_sym. reflexivity. Qed.

Lemma principal_lemma sorter solver D dims cloud : sorts_indices sorter -> length dims = D -> cloud_of D cloud -> (2 <= length cloud)%nat ->
  (forall M, moment_matrix D cloud M -> eigen_ok D M (solver M)) ->
  exists linear m, estimateInit solver D (setDimension sorter dims) cloud = Ret (linear, m) /\ is_centroid D cloud m /\ orthonormal D linear /\
    (forall i j, (i < D)%nat -> (j < D)%nat -> i <> j -> moment cloud m (nth i linear []) (nth j linear []) = 0) /\
    (forall i j, (i < D)%nat -> (j < D)%nat -> nth i dims 0 < nth j dims 0 ->
      moment cloud m (nth i linear []) (nth i linear []) <= moment cloud m (nth j linear []) (nth j linear [])).
Proof.
  intros HS LD F N HE. destruct (covar_ok D cloud F N) as [HM HQ]. cbv zeta in HM, HQ. specialize (HE _ HM).
  assert (C : is_centroid D cloud (centroidl D cloud)) by (apply centroid_ok; [exact F|destruct cloud; [cbn in N; lia|discriminate]]).
  unfold estimateInit. destruct (Nat.ltb_spec (length cloud) 2); [lia|]. set (m := centroidl D cloud) in *. set (M := covarl D cloud m) in *.
  destruct (solver M) as [vals vs]. destruct HE as (Lv & (O1 & O2 & O3) & A & E).
  destruct (init_lemma sorter dims (length cloud) vs (identityl D) HS N) as (sg & Es & HP & HO). rewrite Es. cbn [obind].
  assert (Lsg : length sg = D) by (rewrite (Permutation_length HP), seq_length; exact LD).
  assert (Bsg : forall i, (i < D)%nat -> (nth i sg 0 < D)%nat).
  { intros i Hi. assert (I : In (nth i sg 0%nat) (seq 0 (length dims))) by (apply (Permutation_in _ HP), nth_In; lia). apply in_seq in I. lia. }
  assert (Inj : forall i j, (i < D)%nat -> (j < D)%nat -> nth i sg 0%nat = nth j sg 0%nat -> i = j).
  { intros i j Hi Hj Eq. apply (proj1 (NoDup_nth sg 0%nat)); [|lia|lia|exact Eq]. apply (Permutation_NoDup (Permutation_sym HP)), seq_NoDup. }
  assert (Col : forall i, (i < D)%nat -> nth i (map (fun k => nth k vs []) sg) [] = nth (nth i sg 0%nat) vs []) by (intros i Hi; apply (nth_map (fun k => nth k vs [])); lia).
  assert (Lc : forall k, (k < D)%nat -> length (nth k vs []) = D) by (intros k Hk; rewrite Forall_forall in O2; apply O2, nth_In; lia).
  assert (Q : forall a b, (a < D)%nat -> (b < D)%nat -> moment cloud m (nth a vs []) (nth b vs []) = (INR (length cloud) - 1) * (nth b vals 0 * (if Nat.eqb a b then 1 else 0)) - (if Nat.eqb a b then 1 else 0)).
  { intros a b Ha Hb. pose proof (HQ (nth a vs []) (nth b vs []) (Lc b Hb)) as G. unfold appm in G. rewrite (E b Hb), inner_scaled_r, (O3 a b Ha Hb) in G. lra. }
  exists (map (fun k => nth k vs []) sg), m. split; [reflexivity|]. split; [exact C|]. split; [|split].
  - split; [rewrite map_length; exact Lsg|]. split.
    + apply Forall_forall. intros r Hr. apply in_map_iff in Hr. destruct Hr as (k & <- & Hk). apply Lc. apply (Permutation_in _ HP) in Hk. apply in_seq in Hk. lia.
    + intros i j Hi Hj. rewrite !Col by assumption. rewrite O3 by (apply Bsg; assumption). destruct (Nat.eqb_spec i j) as [->|Ne]; [rewrite Nat.eqb_refl; reflexivity|].
      destruct (Nat.eqb_spec (nth i sg 0%nat) (nth j sg 0%nat)) as [Eq|_]; [|reflexivity]. exfalso. apply Ne, Inj; assumption.
  - intros i j Hi Hj Ne. rewrite !Col by assumption. rewrite Q by (apply Bsg; assumption).
    destruct (Nat.eqb_spec (nth i sg 0%nat) (nth j sg 0%nat)) as [Eq|_]; [|lra]. exfalso. apply Ne, Inj; assumption.
  - intros i j Hi Hj L. rewrite !Col by assumption. rewrite !Q by (apply Bsg; assumption). rewrite !Nat.eqb_refl.
    assert (AA : nth (nth i sg 0%nat) vals 0 <= nth (nth j sg 0%nat) vals 0) by (apply A; specialize (HO i j ltac:(lia) ltac:(lia) L); specialize (Bsg j Hj); lia).
    assert (1 <= INR (length cloud) - 1) by (apply le_INR in N; cbn in N; lra). nra.
Qed.
Lemma small_lemma solver D box cloud : (length cloud < 2)%nat -> exists linear t, estimateInit solver D box cloud = Ret (linear, t) /\
  (forall i j, (i < D)%nat -> (j < D)%nat -> nth j (nth i linear []) 0 = if Nat.eqb i j then 1 else 0) /\ t = repeat 0 D.
Proof.
  intros H. unfold estimateInit. destruct (Nat.ltb_spec (length cloud) 2); [|lia]. exists (identityl D), (repeat 0 D). split; [reflexivity|]. split; [intros i j; apply entry_id|reflexivity].
Qed.
(** A cloud on a line through the origin along the first axis. *)
Definition pair_cloud : list (list R) := [[1; 0]; [-1; 0]].
Definition pair_solver (M : list (list R)) : list R * list (list R) := ([1; 3], [[0; 1]; [1; 0]]).
Lemma pair_eigen M : moment_matrix 2 pair_cloud M -> eigen_ok 2 M (pair_solver M).
Proof.
  intros (L & FF & m & (Lm & Cm) & H). destruct m as [|m0 [|m1 [|? ?]]]; try discriminate. pose proof (Cm 0%nat ltac:(lia)) as C0. pose proof (Cm 1%nat ltac:(lia)) as C1. cbn in C0, C1.
  destruct M as [|r [|s [|? ?]]]; try discriminate. inversion FF as [|? ? Hr FF']. inversion FF' as [|? ? Hs _]. subst. destruct r as [|a [|b [|? ?]]]; try discriminate. destruct s as [|c [|d [|? ?]]]; try discriminate.
  pose proof (H 0%nat 0%nat ltac:(lia) ltac:(lia)) as H00. pose proof (H 0%nat 1%nat ltac:(lia) ltac:(lia)) as H01. pose proof (H 1%nat 0%nat ltac:(lia) ltac:(lia)) as H10. pose proof (H 1%nat 1%nat ltac:(lia) ltac:(lia)) as H11. cbn in H00, H01, H10, H11.
  assert (m0 = 0) by lra. assert (m1 = 0) by lra. subst m0 m1. assert (a = 3) by lra. assert (b = 0) by lra. assert (c = 0) by lra. assert (d = 1) by lra. subst.
  unfold eigen_ok, pair_solver. split; [reflexivity|]. split; [|split].
  - split; [reflexivity|]. split; [repeat constructor|]. intros [|[|i]] [|[|j]] Hi Hj; try lia; cbn; lra.
  - intros [|[|i]] [|[|j]] [H1 H2]; try lia; cbn; lra.
  - intros [|[|k]] Hk; try lia; cbn; (f_equal; [lra|f_equal; lra]).
Qed.
