(** * Moments of a cloud, said independently. *)
From Coq Require Import List Reals Arith.
Import ListNotations.
Open Scope R_scope.

Fixpoint inner (u v : list R) : R := match u, v with x :: s, y :: t => x * y + inner s t | _, _ => 0 end.
Fixpoint total {A} (f : A -> R) (l : list A) : R := match l with [] => 0 | x :: t => f x + total f t end.
Definition cloud_of (D : nat) (cloud : list (list R)) : Prop := Forall (fun c => length c = D) cloud.
(** [m] is the centroid of the cloud. *)
Definition is_centroid (D : nat) (cloud : list (list R)) (m : list R) : Prop :=
  length m = D /\ forall i, (i < D)%nat -> INR (length cloud) * nth i m 0 = total (fun c => nth i c 0) cloud.
(** Sum over the cloud of the products of the coordinates along [u] and [v], from the centroid [m]. *)
Definition moment (cloud : list (list R)) (m u v : list R) : R := total (fun c => (inner c u - inner m u) * (inner c v - inner m v)) cloud.
(** The matrix given to the solver: second moments and the identity, over n - 1. *)
Definition moment_matrix (D : nat) (cloud : list (list R)) (M : list (list R)) : Prop :=
  length M = D /\ Forall (fun r => length r = D) M /\ exists m, is_centroid D cloud m /\
  forall i j, (i < D)%nat -> (j < D)%nat ->
    (INR (length cloud) - 1) * nth j (nth i M []) 0 =
    (if Nat.eqb i j then 1 else 0) + total (fun c => (nth i c 0 - nth i m 0) * (nth j c 0 - nth j m 0)) cloud.
(** What an eigen decomposition of a symmetric matrix is: values in increasing order, orthonormal vectors. *)
Definition orthonormal (D : nat) (vs : list (list R)) : Prop :=
  length vs = D /\ Forall (fun v => length v = D) vs /\
  forall i j, (i < D)%nat -> (j < D)%nat -> inner (nth i vs []) (nth j vs []) = if Nat.eqb i j then 1 else 0.
Definition eigen_ok (D : nat) (M : list (list R)) (r : list R * list (list R)) : Prop :=
  let '(vals, vs) := r in
  length vals = D /\ orthonormal D vs /\ (forall i j, (i <= j < D)%nat -> nth i vals 0 <= nth j vals 0) /\
  forall k, (k < D)%nat -> map (fun row => inner row (nth k vs [])) M = map (Rmult (nth k vals 0)) (nth k vs []).
