(** * What users of the correspondence graph rely on. *)
From Coq Require Import List ZArith Reals Permutation Sorted.
From Verif Require Import Base LabelSetModel AssocModel.
Import ListNotations.
Open Scope Z_scope.

(** A conforming std::sort by distance. *)
Definition conforming (sort : list pdist -> list pdist) : Prop :=
  forall l, Permutation l (sort l) /\ StronglySorted (fun p q => (pdd p <= pdd q)%R) (sort l).

(** The object after one insertSrc and one insertDst with the two thresholds set. *)
Definition problem {A B} (sort : list pdist -> list pdist) (src : list A) (ds : A -> A -> R) (dst : list B) (dd : B -> B -> R) (t m : R) : cga :=
  setDistanceMin (setTolerance (insertDst sort (insertSrc sort cga_new src ds) dst dd) t) m.

(** [x] is the distance of the different items [i] and [j]; the functor receives the items in the order of the container. *)
Definition gap {A} (dist : A -> A -> R) (items : list A) (i j : Z) (x : R) : Prop :=
  0 <= i /\ 0 <= j /\ i <> j /\
  exists a b, nth_error items (Z.to_nat (Z.min i j)) = Some a /\ nth_error items (Z.to_nat (Z.max i j)) = Some b /\ dist a b = x.

Definition linked (l : list node) (i j : Z) : Prop :=
  0 <= i /\ exists n, nth_error l (Z.to_nat i) = Some n /\ In j (adjacents n).

(** A set of nodes pairwise linked, none of whose proper supersets is. *)
Definition clique (l : list node) (s : list Z) : Prop :=
  (forall i, In i s -> 0 <= i < Z.of_nat (length l)) /\ (forall i j, In i s -> In j s -> i <> j -> linked l i j).
Definition maximal_clique (l : list node) (s : list Z) : Prop :=
  clique l s /\ forall k, ~ In k s -> ~ clique l (k :: s).
