(** * Properties of the integer Morton functions (C28 - C31). *)
From Coq Require Import List ZArith Bool Lia.
From Verif Require Import Base BitsModel BitsSpec MortonModel MortonSpec MortonProofs.
Import ListNotations.
Open Scope Z_scope.

(** ** C28.  The answer is the lexicographic comparison of the interleaved bits.  The dimension has to be at most the number of
    values of UnsignedType because lastDim has that type; Dim = 257 with 8-bit coordinates is a counterexample below. *)
Theorem C28_zorder t n v1 v2 : point t n v1 -> point t n v2 -> (0 < n)%nat -> Z.of_nat n <= 2 ^ bit_num t ->
  exists b, mortonCmpInt t v1 v2 = Ret b /\ (b = true <-> lex_lt (zkey t v1) (zkey t v2)) /\ (b = false <-> v1 = v2 \/ lex_lt (zkey t v2) (zkey t v1)).
Proof. exact (zorder_lemma t n v1 v2). Qed.
Print Assumptions C28_zorder.

Theorem C28_strict_total_order t n : (0 < n)%nat -> Z.of_nat n <= 2 ^ bit_num t ->
  (forall a, point t n a -> mortonCmpInt t a a = Ret false) /\
  (forall a b c, point t n a -> point t n b -> point t n c -> mortonCmpInt t a b = Ret true -> mortonCmpInt t b c = Ret true -> mortonCmpInt t a c = Ret true) /\
  (forall a b, point t n a -> point t n b -> a <> b ->
     (mortonCmpInt t a b = Ret true /\ mortonCmpInt t b a = Ret false) \/ (mortonCmpInt t a b = Ret false /\ mortonCmpInt t b a = Ret true)).
Proof. exact (total_order_lemma t n). Qed.
Print Assumptions C28_strict_total_order.

Theorem C28_any_dimension_refuted : exists n a b, point U8 n a /\ point U8 n b /\ a <> b /\ mortonCmpInt U8 a b = Ret false /\ mortonCmpInt U8 b a = Ret false.
Proof. exact wide_refuted_lemma. Qed.
Print Assumptions C28_any_dimension_refuted.

Example C28_example : point I8 3 [-3; 5; 100] /\ point I8 3 [4; -128; 99] /\ mortonCmpInt I8 [-3; 5; 100] [4; -128; 99] = Ret true /\
  mortonCmpInt I8 [4; -128; 99] [-3; 5; 100] = Ret false.
Proof. repeat split; try reflexivity; repeat constructor; cbn; discriminate. Qed.

(** ** C29 *)
Theorem C29_distance t n a b c : point t n a -> point t n b -> point t n c ->
  mortonDistanceInt t a b = mortonDistanceInt t b a /\
  (mortonDistanceInt t a b = 0 <-> a = b) /\
  mortonDistanceInt t a c <= Z.max (mortonDistanceInt t a b) (mortonDistanceInt t b c) /\
  0 <= mortonDistanceInt t a b <= bit_num t.
Proof. exact (distance_lemma t n a b c). Qed.
Print Assumptions C29_distance.

(** The distance is the size of the smallest aligned cube that holds both points. *)
Theorem C29_distance_cube t n a b k : point t n a -> point t n b -> 0 <= k ->
  (mortonDistanceInt t a b <= k <-> forall i, (i < n)%nat -> (nth i a 0 - tmin t) / 2 ^ k = (nth i b 0 - tmin t) / 2 ^ k).
Proof. exact (distance_le t n a b k). Qed.
Print Assumptions C29_distance_cube.

Example C29_example : mortonDistanceInt I16 [-1; 7] [0; 7] = 16 /\ mortonDistanceInt I16 [12; 7] [8; 6] = 3.
Proof. split; reflexivity. Qed.

(** ** C30.  False as stated: equal arguments and blocks of 2^31 or more elements shift out of range, and the whole range of an
    unsigned type gets a midpoint one too low. *)
Theorem C30_block_partial t x y : in_type t x -> in_type t y -> handled t x y ->
  exists lev low mid upp, intervalPow2Int t x y = Ret (lev, low, mid, upp) /\ span t x y lev /\ block_ok t x y low mid upp.
Proof. exact (interval_lemma t x y). Qed.
Print Assumptions C30_block_partial.

Theorem C30_undefined t x y : in_type t x -> in_type t y ->
  (intervalPow2Int t x y = UB <-> x = y \/ exists k, span t x y k /\ 31 <= k < bit_num t).
Proof. exact (interval_ub_lemma t x y). Qed.
Print Assumptions C30_undefined.

Theorem C30_unsigned_range t x y : in_type t x -> in_type t y -> is_signed t = false -> span t x y (bit_num t) ->
  exists low mid upp, intervalPow2Int t x y = Ret (bit_num t, low, mid, upp) /\ low = tmin t /\ upp = tmax t /\ mid = 2 ^ (bit_num t - 1) - 1.
Proof. exact (interval_unsigned_lemma t x y). Qed.
Print Assumptions C30_unsigned_range.

Theorem C30_refuted :
  (exists t x, in_type t x /\ intervalPow2Int t x x = UB) /\
  (exists t x y, in_type t x /\ in_type t y /\ x <> y /\ intervalPow2Int t x y = UB) /\
  (exists x y lev low mid upp, in_type U8 x /\ in_type U8 y /\ intervalPow2Int U8 x y = Ret (lev, low, mid, upp) /\ 2 * mid <> low + upp + 1).
Proof. exact interval_refuted_lemma. Qed.
Print Assumptions C30_refuted.

Example C30_hypotheses : handled I32 9 13 /\ handled I8 (-1) 0.
Proof.
  split; apply handled_compute; [split; split; discriminate|left; split; [split; discriminate|reflexivity]|split; split; discriminate|right; split; reflexivity].
Qed.
Example C30_example : intervalPow2Int I32 9 13 = Ret (3, 8, 12, 15) /\ intervalPow2Int I8 (-1) 0 = Ret (8, -128, 0, 127).
Proof. split; reflexivity. Qed.

(** ** C31.  False as stated: one coordinate on which the points agree is enough to make the call undefined. *)
Theorem C31_split_partial t n v1 v2 : (0 < n)%nat -> point t n v1 -> point t n v2 -> (forall i, (i < n)%nat -> handled t (nth i v1 0) (nth i v2 0)) ->
  exists low mid upp, mortonSplitInt t v1 v2 = Ret (low, mid, upp) /\ point t n low /\ point t n mid /\ point t n upp /\
    exists D, split_coord t v1 v2 D /\
    (forall i, (i < n)%nat -> exists m, block_ok t (nth i v1 0) (nth i v2 0) (nth i low 0) m (nth i upp 0) /\ nth i mid 0 = if (i =? D)%nat then m else nth i low 0) /\
    Z.min (nth D v1 0) (nth D v2 0) < nth D mid 0 <= Z.max (nth D v1 0) (nth D v2 0) /\
    (lex_lt (zkey t v1) (zkey t v2) -> lex_lt (zkey t v1) (zkey t mid) /\ ~ lex_lt (zkey t v2) (zkey t mid)) /\
    (lex_lt (zkey t v2) (zkey t v1) -> lex_lt (zkey t v2) (zkey t mid) /\ ~ lex_lt (zkey t v1) (zkey t mid)).
Proof. exact (split_lemma t n v1 v2). Qed.
Print Assumptions C31_split_partial.

Theorem C31_refuted : exists v1 v2, point I32 2 v1 /\ point I32 2 v2 /\ v1 <> v2 /\ mortonSplitInt I32 v1 v2 = UB.
Proof. exact split_refuted_lemma. Qed.
Print Assumptions C31_refuted.

Theorem C31_undefined t n v1 v2 : point t n v1 -> point t n v2 -> (exists i, (i < n)%nat /\ nth i v1 0 = nth i v2 0) -> mortonSplitInt t v1 v2 = UB.
Proof. exact (split_ub_lemma t n v1 v2). Qed.
Print Assumptions C31_undefined.

Example C31_hypotheses : point I32 2 [9; 3] /\ point I32 2 [13; 4] /\ forall i, (i < 2)%nat -> handled I32 (nth i [9; 3] 0) (nth i [13; 4] 0).
Proof.
  split; [split; [reflexivity|repeat constructor; discriminate]|]. split; [split; [reflexivity|repeat constructor; discriminate]|].
  intros [|[|i]] Hi; [| |exfalso; lia]; (apply handled_compute; [split; split; discriminate|left; split; [split; discriminate|reflexivity]]).
Qed.
Example C31_example : mortonSplitInt I32 [9; 3; 20] [13; 4; 21] = Ret ([8; 0; 20], [12; 0; 20], [15; 7; 21]) /\
  mortonSplitInt I32 [9; 3] [13; 3] = UB.
Proof. split; reflexivity. Qed.
