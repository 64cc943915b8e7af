(** * Properties of the floating point Morton functions (C32, C33, C70 - C72).  Bit patterns are integers: see MortonFloatSpec. *)
From Coq Require Import List ZArith Bool Lia.
From Verif Require Import Base BitsModel MortonSpec MortonFloatModel MortonFloatSpec MortonFloatProofs.
Import ListNotations.
Open Scope Z_scope.

(** ** C32.  Missing in the two partial theorems: negative coordinates, -0 and magnitudes below 2^-103, for which the claim is
    false (cycle, signed zeros) or the comparison undefined (C33); and double, which is undefined for every pair of different
    coordinates of one sign. *)
Theorem C32_order_partial n v1 v2 : plain_point n v1 -> plain_point n v2 -> (0 < n)%nat ->
  exists b, mortonCmpFloat F32 v1 v2 = Ret b /\ (b = true <-> lex_lt (ikey 277 (map s_mag v1)) (ikey 277 (map s_mag v2))) /\
    (b = false <-> v1 = v2 \/ lex_lt (ikey 277 (map s_mag v2)) (ikey 277 (map s_mag v1))).
Proof. exact (fzorder_lemma n v1 v2). Qed.
Print Assumptions C32_order_partial.

Theorem C32_strict_total_partial n : (0 < n)%nat ->
  (forall a, plain_point n a -> mortonCmpFloat F32 a a = Ret false) /\
  (forall a b c, plain_point n a -> plain_point n b -> plain_point n c ->
     mortonCmpFloat F32 a b = Ret true -> mortonCmpFloat F32 b c = Ret true -> mortonCmpFloat F32 a c = Ret true) /\
  (forall a b, plain_point n a -> plain_point n b -> a <> b ->
     (mortonCmpFloat F32 a b = Ret true /\ mortonCmpFloat F32 b a = Ret false) \/ (mortonCmpFloat F32 a b = Ret false /\ mortonCmpFloat F32 b a = Ret true)).
Proof. exact (ftotal_lemma n). Qed.
Print Assumptions C32_strict_total_partial.

(** Three ordinary negative points each smaller than the next. *)
Theorem C32_cycle_refuted : exists a b c, Forall s_normal (a ++ b ++ c) /\ length a = 2%nat /\ length b = 2%nat /\ length c = 2%nat /\
  mortonCmpFloat F32 a b = Ret true /\ mortonCmpFloat F32 b c = Ret true /\ mortonCmpFloat F32 c a = Ret true.
Proof. exact cycle_lemma. Qed.
Print Assumptions C32_cycle_refuted.

Theorem C32_signed_zero_refuted : exists a b c, mortonCmpFloat F32 a b = Ret false /\ mortonCmpFloat F32 b a = Ret false /\
  mortonCmpFloat F32 b c = Ret false /\ mortonCmpFloat F32 c b = Ret false /\ mortonCmpFloat F32 a c = Ret true /\ Forall s_finite (a ++ b ++ c).
Proof. exact zero_lemma. Qed.
Print Assumptions C32_signed_zero_refuted.

Theorem C32_double_undefined v1 v2 i : length v1 = length v2 -> (i < length v1)%nat -> double (nth i v1 0) -> double (nth i v2 0) ->
  d_neg (nth i v1 0) = d_neg (nth i v2 0) -> nth i v1 0 <> nth i v2 0 -> mortonCmpFloat F64 v1 v2 = UB.
Proof. exact (fcmp_double_lemma v1 v2 i). Qed.
Print Assumptions C32_double_undefined.

(** (1, 0, 3) and (1.5, 2.25, 0). *)
Example C32_example : plain_point 3 [0x3F800000; 0; 0x40400000] /\ plain_point 3 [0x3FC00000; 0x40100000; 0] /\
  mortonCmpFloat F32 [0x3F800000; 0; 0x40400000] [0x3FC00000; 0x40100000; 0] = Ret true.
Proof.
  split; [|split; [|vm_compute; reflexivity]]; (split; [reflexivity|]); repeat (apply Forall_cons || apply Forall_nil);
    try (left; reflexivity); right; split; split; vm_compute; congruence.
Qed.
Example C32_double_example : double 0x3FF0000000000000 /\ double 0x4000000000000000 /\ d_neg 0x3FF0000000000000 = d_neg 0x4000000000000000.
Proof. repeat split; vm_compute; congruence. Qed.

(** ** C33.  The value is exact up to the last place of the larger operand when the result is a normal number. *)
Theorem C33_float_partial x y : s_normal x -> s_normal y -> s_neg x = s_neg y ->
  (s_neg x = true -> 0 < cut (ulp_exp x y) (s_mag x) /\ 0 < cut (ulp_exp x y) (s_mag y)) ->
  (x <> y -> 2 ^ 23 <= xor_cut x y) ->
  exists r m e, xorFloat F32 x y = Ret (r, m, e) /\ s_finite r /\ s_neg r = false /\ s_mag r = xor_cut x y /\
    (x = y -> e = -127) /\ (x <> y -> e = Z.log2 (xor_cut x y) - 149).
Proof. exact (xor_float_lemma x y). Qed.
Print Assumptions C33_float_partial.

Theorem C33_opposite_signs x y : single x -> single y -> s_neg x <> s_neg y -> xorFloat F32 x y = Ret (0x7F800000, 0, 128).
Proof. exact (xor_opposite x y). Qed.
Print Assumptions C33_opposite_signs.

Theorem C33_far_negative_undefined x y : single x -> single y -> s_neg x = true -> s_neg y = true ->
  24 <= Z.abs (s_exp x - s_exp y) -> xorFloat F32 x y = UB.
Proof. exact (xor_far_negative_ub x y). Qed.
Print Assumptions C33_far_negative_undefined.

Theorem C33_double_undefined x y : double x -> double y ->
  (d_neg x = d_neg y -> x <> y -> xorFloat F64 x y = UB) /\
  (x = y -> xorFloat F64 x y = Ret (0, 0, -1023)) /\
  (d_neg x <> d_neg y -> xorFloat F64 x y = Ret (0x0FF0000000000000, 0, -768)).
Proof. exact (xor_double_lemma x y). Qed.
Print Assumptions C33_double_undefined.

Theorem C33_refuted :
  (exists x y, s_normal x /\ s_normal y /\ s_neg x = true /\ s_neg y = true /\ xorFloat F32 x y = UB) /\
  (exists x y, s_normal x /\ s_normal y /\ s_neg x = false /\ s_neg y = false /\ xorFloat F32 x y = UB).
Proof. exact float_ub_lemma. Qed.
Print Assumptions C33_refuted.

Theorem C33_subnormal_refuted : exists x y r m e, s_finite x /\ s_finite y /\ s_neg x = false /\ s_neg y = false /\
  xorFloat F32 x y = Ret (r, m, e) /\ s_mag r <> Z.lxor (s_mag x) (s_mag y).
Proof. exact subnormal_lemma. Qed.
Print Assumptions C33_subnormal_refuted.

(** 5.5 and 0.75; -5.5 and -0.75. *)
Example C33_example : s_normal 0x40B00000 /\ s_normal 0x3F400000 /\ 2 ^ 23 <= xor_cut 0x40B00000 0x3F400000 /\
  s_normal 0xC0B00000 /\ s_normal 0xBF400000 /\ 2 ^ 23 <= xor_cut 0xC0B00000 0xBF400000 /\
  0 < cut (ulp_exp 0xC0B00000 0xBF400000) (s_mag 0xC0B00000) /\ 0 < cut (ulp_exp 0xC0B00000 0xBF400000) (s_mag 0xBF400000).
Proof. repeat split; vm_compute; congruence. Qed.
Example C33_far_example : single 0xCB800000 /\ single 0xBF000000 /\ 24 <= Z.abs (s_exp 0xCB800000 - s_exp 0xBF000000).
Proof. repeat split; vm_compute; congruence. Qed.

(** ** C70.  mortonDistanceFloat *)
Theorem C70_distance_partial n a b c : plain_point n a -> plain_point n b -> plain_point n c ->
  exists dab dba dac dbc, mortonDistanceFloat F32 a b = Ret dab /\ mortonDistanceFloat F32 b a = Ret dba /\
    mortonDistanceFloat F32 a c = Ret dac /\ mortonDistanceFloat F32 b c = Ret dbc /\
    dab = dba /\ (dab = -127 <-> a = b) /\ dac <= Z.max dab dbc.
Proof. exact (fdist_metric_lemma n a b c). Qed.
Print Assumptions C70_distance_partial.

(** The distance is the exponent of the largest aligned cube that separates the points. *)
Theorem C70_cube_partial n v1 v2 : plain_point n v1 -> plain_point n v2 ->
  exists d, mortonDistanceFloat F32 v1 v2 = Ret d /\ -127 <= d /\
    forall k, -127 <= k -> (d <= k <-> forall i, (i < n)%nat -> nth i v1 0 = nth i v2 0 \/ s_mag (nth i v1 0) / 2 ^ (k + 150) = s_mag (nth i v2 0) / 2 ^ (k + 150)).
Proof. exact (fdist_lemma n v1 v2). Qed.
Print Assumptions C70_cube_partial.

Theorem C70_refuted :
  (exists a b, Forall s_normal (a ++ b) /\ length a = 1%nat /\ length b = 1%nat /\ mortonDistanceFloat F32 a b = UB) /\
  (exists a b, Forall d_normal (a ++ b) /\ length a = 1%nat /\ length b = 1%nat /\ mortonDistanceFloat F64 a b = UB).
Proof. exact distance_ub_witness. Qed.
Print Assumptions C70_refuted.

Example C70_example : plain_point 2 [0x3F800000; 0] /\ plain_point 2 [0x3FC00000; 0x40100000] /\
  mortonDistanceFloat F32 [0x3F800000; 0] [0x3FC00000; 0x40100000] = Ret 1.
Proof.
  split; [|split; [|vm_compute; reflexivity]]; (split; [reflexivity|]); repeat (apply Forall_cons || apply Forall_nil);
    try (left; reflexivity); right; split; split; vm_compute; congruence.
Qed.

(** ** C71.  intervalPow2Float: for arguments in increasing magnitude the smallest dyadic block around them, cut in the middle.
    Missing: double, subnormal arguments. *)
Theorem C71_interval_partial x y : s_normal x -> s_normal y -> s_neg x = s_neg y -> s_mag x < s_mag y ->
  exists lev near mid far,
    intervalPow2Float F32 x y = (if s_neg x then Ret (lev, far, mid, near) else Ret (lev, near, mid, far)) /\
    s_finite near /\ s_finite mid /\ s_finite far /\ s_neg near = s_neg x /\ s_neg mid = s_neg x /\ s_neg far = s_neg x /\
    1 <= lev + 149 /\ (exists q, s_mag near = q * 2 ^ (lev + 149)) /\
    s_mag near <= s_mag x /\ s_mag x < s_mag mid /\ s_mag mid <= s_mag y /\ s_mag y <= s_mag far /\
    s_mag mid = s_mag near + 2 ^ (lev + 148) /\ s_mag far = s_mag near + 2 ^ (lev + 149) - 2 ^ (s_exp y - 1).
Proof. exact (interval_float_lemma x y). Qed.
Print Assumptions C71_interval_partial.

Theorem C71_descending_undefined x y : single x -> single y -> s_neg x = s_neg y -> s_mag y <= s_mag x -> intervalPow2Float F32 x y = UB.
Proof. exact (interval_float_ub x y). Qed.
Print Assumptions C71_descending_undefined.

Theorem C71_refuted : exists x y, s_normal x /\ s_normal y /\ s_neg x = s_neg y /\ intervalPow2Float F32 x y = UB.
Proof. exact interval_ub_witness. Qed.
Print Assumptions C71_refuted.

Example C71_example : s_normal 0x3F800000 /\ s_normal 0x40A00000 /\ s_mag 0x3F800000 < s_mag 0x40A00000 /\
  intervalPow2Float F32 0x40A00000 0x3F800000 = UB.
Proof. repeat split; vm_compute; congruence. Qed.

(** ** C72.  mortonSplitFloat *)
Theorem C72_undefined v1 v2 i : length v1 = length v2 -> (i < length v1)%nat -> single (nth i v1 0) -> single (nth i v2 0) ->
  s_neg (nth i v1 0) = s_neg (nth i v2 0) -> s_mag (nth i v2 0) <= s_mag (nth i v1 0) -> mortonSplitFloat F32 v1 v2 = UB.
Proof. exact (fsplit_ub_lemma v1 v2 i). Qed.
Print Assumptions C72_undefined.

(** The remaining pairs of points with normal coordinates: every coordinate gets the block of C71 (all values when the signs differ),
    and the middle point differs from the lower one only in the first coordinate of the largest block.  Missing: zero and
    subnormal coordinates, double. *)
Theorem C72_split_partial n v1 v2 : (0 < n)%nat -> length v1 = n -> length v2 = n -> (forall i, (i < n)%nat -> fhandled (nth i v1 0) (nth i v2 0)) ->
  exists low mid upp, mortonSplitFloat F32 v1 v2 = Ret (low, mid, upp) /\ length low = n /\ length mid = n /\ length upp = n /\
  exists D lev m, (D < n)%nat /\
    (forall i, (i < n)%nat -> fblock (nth i v1 0) (nth i v2 0) (lev i) (nth i low 0) (m i) (nth i upp 0)) /\
    (forall i, (i < D)%nat -> lev i < lev D) /\ (forall i, (i < n)%nat -> lev i <= lev D) /\
    nth D mid 0 = m D /\ forall i, (i < n)%nat -> i <> D -> nth i mid 0 = nth i low 0.
Proof. exact (fsplit_lemma n v1 v2). Qed.
Print Assumptions C72_split_partial.

Theorem C72_order_refuted : exists a b, Forall s_normal (a ++ b) /\ length a = 2%nat /\ length b = 2%nat /\
  (exists r, mortonSplitFloat F32 a b = Ret r) /\ mortonSplitFloat F32 b a = UB.
Proof. exact fsplit_order_lemma. Qed.
Print Assumptions C72_order_refuted.

Example C72_example : single 0x3F800000 /\ s_mag 0x3F800000 <= s_mag 0x3F800000 /\ mortonSplitFloat F32 [0x3F800000; 0] [0x3F800000; 0x40000000] = UB.
Proof. repeat split; vm_compute; congruence. Qed.
(** (1, -2) and (1.5, 3). *)
Example C72_split_example : (forall i, (i < 2)%nat -> fhandled (nth i [0x3F800000; 0xC0000000] 0) (nth i [0x3FC00000; 0x40400000] 0)) /\
  mortonSplitFloat F32 [0x3F800000; 0xC0000000] [0x3FC00000; 0x40400000] = Ret ([0x3F800000; 0xFF7FFFFF], [0x3F800000; 0], [0x3FFFFFFF; 0x7F7FFFFF]).
Proof.
  split; [|vm_compute; reflexivity].
  intros [|[|i]] Hi; [| |exfalso; lia]; (split; [repeat split; vm_compute; congruence|]); (split; [repeat split; vm_compute; congruence|]); vm_compute; congruence.
Qed.
