(** * Correspondence graph on floats. *)
From Coq Require Import List ZArith Reals.
From Verif Require Import Base AssocModel AssocSpec AssocFloatModel.
Open Scope R_scope.

(** A finite float: an integer of at most 24 binary digits times a power of two. *)
Definition is_float (x : R) : Prop := exists m e : Z, x = IZR m * powerRZ 2 e /\ (Z.abs m < 2 ^ 24)%Z /\ (-149 <= e <= 104)%Z.
(** A distance functor with float results. *)
Definition float_valued {A} (dist : A -> A -> R) : Prop := forall a b, is_float (dist a b).

(** The object with the default thresholds after one insertSrc and one insertDst. *)
Definition default_problem {A B} (sort : list pdist -> list pdist) (src : list A) (ds : A -> A -> R) (dst : list B) (dd : B -> B -> R) : cga :=
  insertDst sort (insertSrc sort cga_newf src ds) dst dd.
