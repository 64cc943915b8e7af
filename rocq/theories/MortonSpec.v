(** * Z-order. *)
From Coq Require Import List ZArith Bool.
From Verif Require Import BitsModel BitsSpec.
Import ListNotations.
Open Scope Z_scope.

(** Interleaved bits, most significant level first, coordinate 0 first within a level; values are offset to start from zero. *)
Definition zlevel (t : ity) (v : list Z) (b : nat) : list bool := map (fun x => Z.testbit (x - tmin t) (Z.of_nat b)) v.
Definition zkey (t : ity) (v : list Z) : list bool := concat (map (zlevel t v) (rev (seq 0 (Z.to_nat (bit_num t))))).

(** Lexicographic order of bit strings. *)
Inductive lex_lt : list bool -> list bool -> Prop :=
| lex_here a b : lex_lt (false :: a) (true :: b)
| lex_next x a b : lex_lt a b -> lex_lt (x :: a) (x :: b).

(** Points of one type and dimension. *)
Definition point (t : ity) (n : nat) (v : list Z) : Prop := length v = n /\ Forall (in_type t) v.

(** [x] lies in the aligned block of size 2^k that starts at [lo]. *)
Definition aligned (k lo : Z) : Prop := 0 <= k /\ exists q, lo = q * 2 ^ k.
Definition in_block (k lo x : Z) : Prop := lo <= x < lo + 2 ^ k.

(** The coordinate that decides the order of two points: the points agree on all bits above level b, coordinates before D
    also agree on level b and coordinate D does not. *)
Definition split_coord (t : ity) (v1 v2 : list Z) (D : nat) : Prop :=
  (D < length v1)%nat /\ exists b : Z, 0 <= b /\
  (forall i k, (i < length v1)%nat -> b < k -> Z.testbit (nth i v1 0 - tmin t) k = Z.testbit (nth i v2 0 - tmin t) k) /\
  (forall i, (i < D)%nat -> Z.testbit (nth i v1 0 - tmin t) b = Z.testbit (nth i v2 0 - tmin t) b) /\
  Z.testbit (nth D v1 0 - tmin t) b <> Z.testbit (nth D v2 0 - tmin t) b.

(** Bit length of the difference pattern of two values of type t: the least k such that they share an aligned block of size 2^k. *)
Definition share_block (t : ity) (k x y : Z) : Prop := exists lo, aligned k (lo - tmin t) /\ in_block k lo x /\ in_block k lo y.
Definition span (t : ity) (x y k : Z) : Prop := share_block t k x y /\ forall k', share_block t k' x y -> k <= k'.

(** The block [low, upp] is the smallest aligned block around x and y and mid its midpoint. *)
Definition block_ok (t : ity) (x y low mid upp : Z) : Prop :=
  exists k, span t x y k /\ 1 <= k /\ aligned k (low - tmin t) /\ in_block k low x /\ in_block k low y /\
    upp = low + 2 ^ k - 1 /\ mid = low + 2 ^ (k - 1).

(** Pairs of values for which the shifts of intervalPow2Int are defined and the midpoint is right: they differ and either their
    block has at most 2^30 elements and is not the whole range, or it is the whole range of a signed type. *)
Definition handled (t : ity) (x y : Z) : Prop :=
  x <> y /\ forall k, span t x y k -> (k <= 30 /\ k < bit_num t) \/ (k = bit_num t /\ is_signed t = true).
