(** * What estimateTranslationTls is to do in IEEE arithmetic. *)
From Coq Require Import List ZArith Reals QArith Qabs Bool Sorting.Sorted Permutation.
From Coq Require Import Floats.SpecFloat.
From Flocq Require Import Core BinarySingleNaN.
Import ListNotations.

(** What std::sort guarantees when no key is NaN: a permutation, no element less than an earlier one. *)
Definition no_nan (l : list (spec_float * Z)) : Prop := forall x, In x l -> fst x <> S754_nan.
Definition orders (sort : list (spec_float * Z) -> list (spec_float * Z)) : Prop :=
  forall l, no_nan l -> Permutation l (sort l) /\ StronglySorted (fun a b => SFltb (fst b) (fst a) = false) (sort l).

(** [x] is a finite number of the format and stands for the real number [v]; [x] is a finite number of the format. *)
Definition stands (prec emax : Z) (x : spec_float) (v : R) : Prop :=
  valid_binary prec emax x = true /\ is_finite_SF x = true /\ SF2R radix2 x = v.
Definition number (prec emax : Z) (x : spec_float) : Prop := valid_binary prec emax x = true /\ is_finite_SF x = true.

(** The nearest number of the format, ties to even. *)
Definition nearest (prec emax : Z) (x : R) : R := round radix2 (FLT_exp (3 - emax - prec) prec) ZnearestE x.

(** Mean of the integers [z i] over the indices in [S], in units of 2^e. *)
Definition mean (z : list Z) (e : Z) (S : list nat) : R :=
  (IZR (fold_right (fun i acc => nth i z 0%Z + acc)%Z 0%Z S) / INR (length S) * bpow radix2 e)%R.

(** Measurements on a grid: the values are the integers [zs] in units of 2^e, all ranges are 2^k with k >= e, and [m] bits are enough for
    the end points in these units; [n] measurements of m bits fit into the mantissa. *)
Definition on_grid (prec emax e k m : Z) (zs : list Z) (values ranges : list spec_float) : Prop :=
  Forall2 (fun x z => stands prec emax x (IZR z * bpow radix2 e)) values zs /\
  length ranges = length values /\ Forall (fun r => stands prec emax r (bpow radix2 k)) ranges /\
  (e <= k)%Z /\ (0 <= m)%Z /\ Forall (fun z => Z.abs z + 2 ^ (k - e) <= 2 ^ m)%Z zs /\
  (Z.of_nat (length values) * 2 ^ m <= 2 ^ prec)%Z /\ (Z.of_nat (length values) < 2 ^ 31)%Z /\ (0 < length values)%nat.

(** The sets that may be active at the position [x], in units of the grid: all measurements with x in the interior of their interval, and
    none not containing x. *)
Definition around (zs : list Z) (rho x : Z) (S : list nat) : Prop :=
  NoDup S /\ (forall i, In i S -> (i < length zs)%nat /\ (Z.abs (nth i zs 0 - x) <= rho)%Z) /\
  (forall i, (i < length zs)%nat -> (Z.abs (nth i zs 0 - x) < rho)%Z -> In i S).

(** The measurements whose interval contains the position [x], in units of the grid, x being no end point of an interval. *)
Definition inside (zs : list Z) (rho : Z) (x : Q) (T : list nat) : Prop :=
  NoDup T /\ (forall i, (i < length zs)%nat -> ~ (Qabs (inject_Z (nth i zs 0%Z) - x) == inject_Z rho)%Q) /\
  (forall i, In i T <-> (i < length zs)%nat /\ (Qabs (inject_Z (nth i zs 0%Z) - x) < inject_Z rho)%Q).

(** Squared distances of the members of [S] from [h] plus the range 2^k for each of the others. *)
Definition tcost (zs : list Z) (e k : Z) (S : list nat) (h : R) : R :=
  (fold_right (fun i acc => (IZR (nth i zs 0%Z) * bpow radix2 e - h) * (IZR (nth i zs 0%Z) * bpow radix2 e - h) + acc) 0 S + INR (length zs - length S) * bpow radix2 k)%R.
