(** * estimateInitTranform of BoxRegistration with its moments (geometry/include/rofl/geometry/box_registration.h 206-239).

    float/double are modelled by the real numbers, points of dimension DIM by lists of DIM coordinates, matrices by lists of rows.
    The eigen solver (231) is a parameter giving the eigenvalues and the eigenvectors by columns.  The sides and the permutation
    are those of BoxModel.v. *)
From Coq Require Import List Reals Bool Arith.
From Verif Require Import Base BoxModel.
Import ListNotations.
Open Scope R_scope.
Open Scope outcome_scope.

Fixpoint zipw {A} (f : A -> A -> A) (a b : list A) : list A :=
  match a, b with x :: s, y :: t => f x y :: zipw f s t | _, _ => [] end.
(** Eigen's sum and difference of vectors, sum of matrices, outer product, identity. *)
Definition addl := zipw Rplus.
Definition subl := zipw Rminus.
Definition addml := zipw addl.
Definition outerl (a b : list R) : list (list R) := map (fun x => map (Rmult x) b) a.
Definition identityl (DIM : nat) : list (list R) := map (fun i => map (fun j => if Nat.eqb i j then 1 else 0) (seq 0 DIM)) (seq 0 DIM).

(** 212, 218-221: sum of the points times 1.0 / n. *)
Definition centroidl (DIM : nat) (cloud : list (list R)) : list R :=
  map (fun x => x * 1 / INR (length cloud)) (fold_left addl cloud (repeat 0 DIM)).
(** 225-229: the sum starts with the identity (225). *)
Definition covarl (DIM : nat) (cloud : list (list R)) (m : list R) : list (list R) :=
  map (map (fun x => x * 1 / (INR (length cloud) - 1)))
    (fold_left (fun acc c => addml acc (outerl (subl c m) (subl c m))) cloud (identityl DIM)).
(** 206-239: the linear part by columns and the translation. *)
Definition estimateInit (solver : list (list R) -> list R * list (list R)) (DIM : nat) (box : list R * option (list nat)) (cloud : list (list R)) :
  outcome (list (list R) * list R) :=
  if Nat.ltb (length cloud) 2 then Ret (identityl DIM, repeat 0 DIM)
  else
    let m := centroidl DIM cloud in
    let '(_, vectors) := solver (covarl DIM cloud m) in
    let! linear := initLinear box (length cloud) vectors (identityl DIM) in Ret (linear, m).
