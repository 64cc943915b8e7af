(** * Properties of the initial transformation of a box with the moments of the cloud. *)
From Coq Require Import List Reals Arith Lra Lia.
From Verif Require Import Base BoxModel BoxSpec BoxInit BoxMomentModel BoxMomentSpec BoxMomentProofs.
Import ListNotations.
Open Scope R_scope.

(** C241 *)
Theorem C241_principal_axes : forall sorter solver D dims cloud, sorts_indices sorter -> length dims = D -> cloud_of D cloud -> (2 <= length cloud)%nat ->
  (forall M, moment_matrix D cloud M -> eigen_ok D M (solver M)) ->
  exists linear m, estimateInit solver D (setDimension sorter dims) cloud = Ret (linear, m) /\ is_centroid D cloud m /\ orthonormal D linear /\
    (forall i j, (i < D)%nat -> (j < D)%nat -> i <> j -> moment cloud m (nth i linear []) (nth j linear []) = 0) /\
    (forall i j, (i < D)%nat -> (j < D)%nat -> nth i dims 0 < nth j dims 0 ->
      moment cloud m (nth i linear []) (nth i linear []) <= moment cloud m (nth j linear []) (nth j linear [])).
Proof. exact principal_lemma. Qed.
Print Assumptions C241_principal_axes.
Theorem C241_small_cloud : forall solver D box cloud, (length cloud < 2)%nat -> exists linear t, estimateInit solver D box cloud = Ret (linear, t) /\
  (forall i j, (i < D)%nat -> (j < D)%nat -> nth j (nth i linear []) 0 = if Nat.eqb i j then 1 else 0) /\ t = repeat 0 D.
Proof. exact small_lemma. Qed.
Print Assumptions C241_small_cloud.
Example C241_case : sorts_indices insertion /\ cloud_of 2 pair_cloud /\ (forall M, moment_matrix 2 pair_cloud M -> eigen_ok 2 M (pair_solver M)) /\
  moment_matrix 2 pair_cloud (covarl 2 pair_cloud (centroidl 2 pair_cloud)).
Proof.
  assert (F : cloud_of 2 pair_cloud) by (repeat constructor). refine (conj insertion_sorts (conj F (conj pair_eigen _))). apply covar_ok; [exact F|cbn; lia].
Qed.
