(** * Properties of BoxRegistration. *)
From Coq Require Import List Reals Bool Arith Lra Lia Permutation.
From Verif Require Import Base AlignerModel BoxModel BoxSpec BoxProofs BoxFit BoxFit3 BoxWitness BoxSvd BoxInit.
Import ListNotations.
Open Scope R_scope.

(** C55 *)
Theorem C55_nearest : forall dims q, (0 < length dims)%nat -> (forall i, (i < length dims)%nat -> 0 <= nth i dims 0) -> length q = length dims ->
  exists p, associate dims q = Ret p /\ on_surface dims p /\ forall s, on_surface dims s -> sqd p q <= sqd s q.
Proof. exact associate_lemma. Qed.
Print Assumptions C55_nearest.
Example C55_case : on_surface [2; 4] [1; 1] /\ associate [2; 4] [1/2; 1] = Ret [1; 1].
Proof.
  split.
  - split; [split; [reflexivity|]|exists 0%nat; cbn; split; [lia|lra]]. intros [|[|i]] Hi; cbn in *; try lra. lia.
  - unfold associate, assoc_loop. decide_R. cbn [lset]. repeat f_equal; lra.
Qed.

(** C113: column i of the initial linear part is an eigenvector of the cloud; a longer side takes one with a greater eigenvalue. *)
Theorem C113_axes : forall sorter dims n eigenvectors identity, sorts_indices sorter -> (2 <= n)%nat ->
  exists sigma, initLinear (setDimension sorter dims) n eigenvectors identity = Ret (map (fun k => nth k eigenvectors []) sigma) /\
    Permutation sigma (seq 0 (length dims)) /\
    (forall i j, (i < length dims)%nat -> (j < length dims)%nat -> nth i dims 0 < nth j dims 0 -> (nth i sigma 0 < nth j sigma 0)%nat) /\
    forall eigenvalues, (forall k l, (k <= l)%nat -> nth k eigenvalues 0 <= nth l eigenvalues 0) ->
      forall i j, (i < length dims)%nat -> (j < length dims)%nat -> nth i dims 0 < nth j dims 0 ->
      nth (nth i sigma 0%nat) eigenvalues 0 <= nth (nth j sigma 0%nat) eigenvalues 0.
Proof.
  intros sorter dims n ev id HS Hn. destruct (init_lemma sorter dims n ev id HS Hn) as (sg & E & P & O). exists sg. repeat split; try assumption.
  intros vals A i j Hi Hj L. apply A. specialize (O i j Hi Hj L). lia.
Qed.
Print Assumptions C113_axes.
Example C113_case : sorts_indices insertion.
Proof. exact insertion_sorts. Qed.

(** C114: a box whose sides were never set reads permutation indices that hold no value. *)
Theorem C114_defined_refuted : exists DIM n eigenvectors identity, (2 <= n)%nat /\ initLinear (defaultBox DIM) n eigenvectors identity = UB.
Proof. exists 2%nat, 2%nat, [], []. split; [lia|reflexivity]. Qed.
Print Assumptions C114_defined_refuted.
Theorem C114_defined_partial : forall sorter dims n eigenvectors identity, exists m, initLinear (setDimension sorter dims) n eigenvectors identity = Ret m.
Proof. intros. unfold initLinear, setDimension. destruct (Nat.ltb n 2); eexists; reflexivity. Qed.
Print Assumptions C114_defined_partial.

(** C115: whatever orthonormal eigenvectors the solver returns, some box gets a mirror instead of a rotation. *)
Theorem C115_rotation_refuted : exists sorter x y a b c d identity p q r s, sorts_indices sorter /\ 0 < x /\ 0 < y /\
  a * a + c * c = 1 /\ b * b + d * d = 1 /\ a * b + c * d = 0 /\
  initLinear (setDimension sorter [x; y]) 2 [[a; c]; [b; d]] identity = Ret [[p; r]; [q; s]] /\ p * s - q * r = - (1).
Proof.
  destruct (mirror_lemma insertion 1 0 0 1 [] insertion_sorts ltac:(lra) ltac:(lra) ltac:(lra)) as (x & y & p & q & r & s & A & B & C & D).
  exists insertion, x, y, 1, 0, 0, 1, [], p, q, r, s. refine (conj insertion_sorts (conj A (conj B (conj _ (conj _ (conj _ (conj C D))))))); lra.
Qed.
Print Assumptions C115_rotation_refuted.
Theorem C115_mirror_exact : forall sorter a b c d identity, sorts_indices sorter -> a * a + c * c = 1 -> b * b + d * d = 1 -> a * b + c * d = 0 ->
  exists x y p q r s, 0 < x /\ 0 < y /\ initLinear (setDimension sorter [x; y]) 2 [[a; c]; [b; d]] identity = Ret [[p; r]; [q; s]] /\ p * s - q * r = - (1).
Proof. exact mirror_lemma. Qed.
Print Assumptions C115_mirror_exact.
Theorem C115_rotation_partial : forall sorter dims n eigenvectors identity, sorts_indices sorter -> (2 <= n)%nat -> length eigenvectors = length dims ->
  exists m, initLinear (setDimension sorter dims) n eigenvectors identity = Ret m /\ Permutation m eigenvectors.
Proof.
  intros sorter dims n ev id HS Hn HL. destruct (init_lemma sorter dims n ev id HS Hn) as (sg & E & P & _). eexists. split; [exact E|]. apply map_nth_perm. rewrite HL. exact P.
Qed.
Print Assumptions C115_rotation_partial.
Example C115_case : sorts_indices insertion /\ 0 * 0 + 1 * 1 = 1.
Proof. split; [exact insertion_sorts|lra]. Qed.

(** C116 *)
Theorem C116_step2 : forall svd dims cloud t, conforming2 svd -> 0 <= fst dims -> 0 <= snd dims -> rotation2 (fst t) -> cloud <> [] ->
  exists l t', computeTransform2 svd dims cloud t = Ret (Some t') /\ matched2 dims t cloud l /\ rotation2 (fst t') /\
    act2 t' (centroid2 (map fst l)) = centroid2 cloud.
Proof. intros svd dims cloud t HS D1 D2 HT HC. destruct (step2_lemma svd dims cloud t HS D1 D2 HT HC) as (l & t' & A & B & C & D & _). exists l, t'. auto. Qed.
Print Assumptions C116_step2.
Theorem C116_step3 : forall svd dims cloud t, conforming3 svd -> (let '(x, y, z) := dims in 0 <= x /\ 0 <= y /\ 0 <= z) -> rotation3 (fst t) -> cloud <> [] ->
  exists l t', computeTransform3 svd dims cloud t = Ret (Some t') /\ matched3 dims t cloud l /\ rotation3 (fst t') /\
    act3 t' (centroid3 (map fst l)) = centroid3 cloud.
Proof. intros svd dims cloud t HS HD HT HC. destruct (step3_lemma svd dims cloud t HS HD HT HC) as (l & t' & U & s & V & A & B & C & D & _). exists l, t'. auto. Qed.
Print Assumptions C116_step3.
Example C116_case2 : forall S, exists U s V, svd2_ok S U s V.
Proof. exact svd2_exists. Qed.
Example C116_case3 : forall S, exists U s V, svd3_ok S U s V.
Proof. exact svd3_exists. Qed.
Example C116_case : rotation2 ((0, -1), (1, 0)) /\ rotation3 ((0, -1, 0), (1, 0, 0), (0, 0, 1)).
Proof. unfold rotation2, rotation3, orthogonal2, orthogonal3. repeat split; lra. Qed.

(** C117 *)
Theorem C117_optimal2 : forall svd dims cloud t, conforming2 svd -> 0 <= fst dims -> 0 <= snd dims -> rotation2 (fst t) -> cloud <> [] ->
  exists l t', computeTransform2 svd dims cloud t = Ret (Some t') /\ matched2 dims t cloud l /\ forall w, rotation2 (fst w) -> cost2 t' l <= cost2 w l.
Proof. intros svd dims cloud t HS D1 D2 HT HC. destruct (step2_lemma svd dims cloud t HS D1 D2 HT HC) as (l & t' & A & B & _ & _ & D). exists l, t'. auto. Qed.
Print Assumptions C117_optimal2.
Example C117_case : (forall S, exists U s V, svd2_ok S U s V) /\ rotation2 ((3/5, -4/5), (4/5, 3/5)).
Proof. split; [exact svd2_exists|]. unfold rotation2, orthogonal2. repeat split; lra. Qed.

(** C118 *)
Theorem C118_monotone2 : forall svd dims cloud t e, conforming2 svd -> 0 <= fst dims -> 0 <= snd dims -> rotation2 (fst t) -> cloud <> [] -> error2 dims t cloud e ->
  exists t' e', computeTransform2 svd dims cloud t = Ret (Some t') /\ rotation2 (fst t') /\ error2 dims t' cloud e' /\ e' <= e.
Proof. exact monotone2_lemma. Qed.
Print Assumptions C118_monotone2.
Example C118_case : forall dims t cloud, 0 <= fst dims -> 0 <= snd dims -> rotation2 (fst t) -> exists e, error2 dims t cloud e.
Proof. intros dims t cloud D1 D2 HT. destruct (associate_all2_ok dims t D1 D2 HT cloud) as (l & _ & M). exists (cost2 t l), l. auto. Qed.

(** C119: in space the sign is put on the second singular vector instead of the last, and the fit can get worse. *)
Theorem C119_monotone3_refuted : exists dims cloud t, rotation3 (fst t) /\ cloud <> [] /\ (let '(x, y, z) := dims in 0 <= x /\ 0 <= y /\ 0 <= z) /\
  forall svd e, conforming3 svd -> error3 dims t cloud e -> exists t', computeTransform3 svd dims cloud t = Ret (Some t') /\ forall e', error3 dims t' cloud e' -> e < e'.
Proof.
  exists wdims, wcloud, identity3. split; [exact id_rotation|]. split; [discriminate|]. split; [unfold wdims; lra|]. intros svd e. exact (worse svd e).
Qed.
Print Assumptions C119_monotone3_refuted.
Theorem C119_monotone3_partial : forall svd dims cloud t e, conforming3 svd -> (let '(x, y, z) := dims in 0 <= x /\ 0 <= y /\ 0 <= z) -> rotation3 (fst t) -> cloud <> [] ->
  (forall l, matched3 dims t cloud l -> 0 < spread_det l) -> error3 dims t cloud e ->
  exists t' e', computeTransform3 svd dims cloud t = Ret (Some t') /\ rotation3 (fst t') /\ error3 dims t' cloud e' /\ e' <= e.
Proof. exact monotone3_lemma. Qed.
Print Assumptions C119_monotone3_partial.
Example C119_case : forall dims t cloud, (let '(x, y, z) := dims in 0 <= x /\ 0 <= y /\ 0 <= z) -> rotation3 (fst t) -> exists e, error3 dims t cloud e.
Proof. intros dims t cloud HD HT. destruct (associate_all3_ok dims t HD HT cloud) as (l & _ & M). exists (cost3 t l), l. auto. Qed.

Example C119_case_spread : forall l, matched3 (2, 2, 2) identity3 star l -> 0 < spread_det l.
Proof. exact star_spread. Qed.

(** C120: an empty cloud gives a translation that is not a number. *)
Theorem C120_finite_refuted : exists svd dims cloud t, rotation2 (fst t) /\ computeTransform2 svd dims cloud t = Ret None.
Proof. exists (fun S => (S, (0, 0), S)), (1, 1), [], (((1, 0), (0, 1)), (0, 0)). split; [unfold rotation2, orthogonal2; cbn; repeat split; lra|reflexivity]. Qed.
Print Assumptions C120_finite_refuted.
Theorem C120_finite_partial : forall svd dims cloud t, 0 <= fst dims -> 0 <= snd dims -> rotation2 (fst t) -> cloud <> [] -> exists t', computeTransform2 svd dims cloud t = Ret (Some t').
Proof.
  intros svd dims cloud t D1 D2 HT HC. destruct (associate_all2_ok dims t D1 D2 HT cloud) as (l & E & _). unfold computeTransform2. rewrite E. cbn [obind]. destruct cloud; [congruence|]. eexists. reflexivity.
Qed.
Print Assumptions C120_finite_partial.
Theorem C120_finite3_partial : forall svd dims cloud t, sides3 dims -> rotation3 (fst t) -> cloud <> [] -> exists t', computeTransform3 svd dims cloud t = Ret (Some t').
Proof.
  intros svd dims cloud t D HT HC. destruct (associate_all3_ok dims t D HT cloud) as (l & E & _). unfold computeTransform3. rewrite E. cbn [obind]. destruct cloud; [congruence|]. eexists. reflexivity.
Qed.
Print Assumptions C120_finite3_partial.
Theorem C120_finite3_refuted : exists svd dims cloud t, rotation3 (fst t) /\ computeTransform3 svd dims cloud t = Ret None.
Proof. exists (fun S => (S, (0, 0, 0), S)), (1, 1, 1), [], (((1, 0, 0), (0, 1, 0), (0, 0, 1)), (0, 0, 0)). split; [unfold rotation3, orthogonal3; cbn; repeat split; lra|reflexivity]. Qed.
Print Assumptions C120_finite3_refuted.

(** C187: a box whose sides were never set is a point: associate returns the origin. *)
Theorem C187_default_box : forall DIM q, (0 < DIM)%nat -> length q = DIM -> exists p, associate (fst (defaultBox DIM)) q = Ret p /\ length p = DIM /\ Forall (fun c => c = 0) p.
Proof.
  intros DIM q HD HQ. set (dims := fst (defaultBox DIM)). assert (L : length dims = DIM) by apply repeat_length.
  assert (Z : forall i, nth i dims 0 = 0) by (intros i; unfold dims, defaultBox; cbn [fst]; apply nth_repeat).
  destruct (associate_lemma dims q) as (p & E & [[LP B] _] & _); [lia|intros i _; rewrite Z; lra|lia|]. exists p. split; [exact E|]. split; [lia|].
  apply Forall_forall. intros c Hc. destruct (In_nth p c 0 Hc) as (i & Hi & <-). specialize (B i ltac:(lia)). rewrite Z in B. lra.
Qed.
Print Assumptions C187_default_box.
Example C187_case : associate (fst (defaultBox 2)) [3; -4] = Ret [1 / 2 * 0; - (1 / 2) * 0].
Proof. unfold associate, assoc_loop, defaultBox. cbn [fst repeat]. decide_R. reflexivity. Qed.
