(** * Property theorems for bit manipulation and numeric traits. *)
From Coq Require Import List ZArith Bool Lia.
From Verif Require Import Base BitsModel BitsSpec BitsProofs.
Open Scope Z_scope.

(** C23 *)
Theorem C23_nlz :
  (forall x, 0 <= x < 2 ^ 8 -> leading_zeros 8 x (nlz8 x)) /\ (forall x, 0 <= x < 2 ^ 16 -> leading_zeros 16 x (nlz16 x)) /\
  (forall x, 0 <= x < 2 ^ 32 -> leading_zeros 32 x (nlz32 x)) /\ (forall x, 0 <= x < 2 ^ 64 -> leading_zeros 64 x (nlz64 x)).
Proof. exact nlz_lemma. Qed.
Print Assumptions C23_nlz.
Example C23_case : nlz32 255 = 24 /\ nlz8 0 = 8 /\ nlz64 (2 ^ 40 + 3) = 23 /\ leading_zeros 8 12 4.
Proof.
  split; [reflexivity|]. split; [reflexivity|]. split; [reflexivity|].
  exact (proj1 nlz_lemma 12 (conj (Zle_bool_imp_le 0 12 eq_refl) eq_refl)).
Qed.

(** C24 *)
Theorem C24_power_of_two : flp_ok 8 flp2u8 /\ flp_ok 16 flp2u16 /\ flp_ok 32 flp2u32 /\ flp_ok 64 flp2u64 /\
  clp_ok 8 clp2u8 /\ clp_ok 16 clp2u16 /\ clp_ok 32 clp2u32 /\ clp_ok 64 clp2u64.
Proof. exact pow2_lemma. Qed.
Print Assumptions C24_power_of_two.
Example C24_case : flp2u8 100 = 64 /\ clp2u8 100 = 128 /\ clp2u8 129 = 0 /\ clp2u32 (2 ^ 20 + 1) = 2 ^ 21 /\ flp2u64 (2 ^ 63 + 7) = 2 ^ 63.
Proof. repeat split. Qed.

(** C25 *)
Theorem C25_float_fields : forall f,
  (forall i, 0 <= i < 2 ^ ft_bits f -> let '(m, e, s) := ft_decompose f i in ft_compose f m e s = Ret i) /\
  (forall m e s, 0 <= m < 2 ^ ft_mbits f -> - ft_bias f <= e <= ft_bias f + 1 ->
     exists i, 0 <= i < 2 ^ ft_bits f /\ ft_compose f m e s = Ret i /\ ft_decompose f i = (m, e, s)).
Proof. exact float_roundtrip_lemma. Qed.
Print Assumptions C25_float_fields.
(** 1.5f and -2.0. *)
Example C25_case : ft_decompose F32 0x3FC00000 = (0x400000, 0, false) /\ ft_compose F32 0x400000 0 false = Ret 0x3FC00000 /\
  ft_decompose F64 0xC000000000000000 = (0, 1, true).
Proof. repeat split. Qed.
(** Outside the exponent range the fields are not kept. *)
Theorem C25_out_of_range :
  (exists i, ft_compose F32 5 129 false = Ret i /\ ft_decompose F32 i = (5, -127, true)) /\
  ft_compose F32 5 (-128) false = UB.
Proof. exact float_compose_out_lemma. Qed.
Print Assumptions C25_out_of_range.

(** C26: false for int64_t (calls nlz8) and undefined at the minimum of int32_t. *)
Theorem C26_log2Mod_refuted : (exists l, it_log2Mod I64 1 = Ret l /\ ~ is_log2 1 l) /\ it_log2Mod I32 (tmin I32) = UB.
Proof. exact log2Mod_refuted_lemma. Qed.
Print Assumptions C26_log2Mod_refuted.
Theorem C26_log2Mod_partial : forall t i, t <> I64 -> in_type t i -> neg_ok t i -> i <> 0 ->
  exists l, it_log2Mod t i = Ret l /\ is_log2 i l.
Proof. exact log2Mod_lemma. Qed.
Print Assumptions C26_log2Mod_partial.
Theorem C26_log2Mod_int64_partial : forall i, in_type I64 i -> i <> tmin I64 -> i <> 0 ->
  exists l, it_log2Mod I64 i = Ret l /\
    (Z.abs i mod 256 = 0 -> l = 55) /\ (Z.abs i mod 256 <> 0 -> is_log2 (Z.abs i mod 256) (l - 56)).
Proof. exact log2Mod64_lemma. Qed.
Print Assumptions C26_log2Mod_int64_partial.
Example C26_case : in_type I16 (-300) /\ it_log2Mod I16 (-300) = Ret 8 /\ in_type I8 (-128) /\ it_log2Mod I8 (-128) = Ret 7 /\
  it_log2Mod I64 (-1027) = Ret 57.
Proof. unfold in_type; cbn. repeat split; discriminate. Qed.

(** C27: undefined at the minimum of int32_t and int64_t although the value is representable; holds everywhere else. *)
Theorem C27_min_refuted : exists t i, in_type t i /\ greatest_below spow2 i i /\ least_above spow2 i i /\
  it_floorPow2 t i = UB /\ it_ceilPow2 t i = UB.
Proof.
  destruct (pow2traits_refuted_lemma I32 (or_introl eq_refl)) as (A & B & C & D). exists I32, (tmin I32). refine (conj B (conj A (conj _ (conj C D)))).
  destruct A as [P _]. split; [exact P|]. split; [apply Z.le_refl|]. intros q _ H. exact H.
Qed.
Print Assumptions C27_min_refuted.
Theorem C27_min_exact : forall t, t = I32 \/ t = I64 -> greatest_below spow2 (tmin t) (tmin t) /\ in_type t (tmin t) /\
  it_floorPow2 t (tmin t) = UB /\ it_ceilPow2 t (tmin t) = UB.
Proof. exact pow2traits_refuted_lemma. Qed.
Print Assumptions C27_min_exact.
Theorem C27_floorPow2_partial : forall t i, in_type t i -> neg_ok t i -> exists r, it_floorPow2 t i = Ret r /\ greatest_below spow2 i r.
Proof. exact floorPow2_lemma. Qed.
Print Assumptions C27_floorPow2_partial.
Theorem C27_ceilPow2_partial : forall t i, in_type t i -> neg_ok t i ->
  ((exists r, least_above spow2 i r /\ in_type t r) -> exists r, it_ceilPow2 t i = Ret r /\ least_above spow2 i r) /\
  ((forall r, least_above spow2 i r -> ~ in_type t r) -> it_ceilPow2 t i = Ret (tmin t)).
Proof. exact ceilPow2_lemma. Qed.
Print Assumptions C27_ceilPow2_partial.
Example C27_case : it_floorPow2 I32 (-5) = Ret (-8) /\ it_ceilPow2 I32 6 = Ret 8 /\ it_ceilPow2 I32 (-5) = Ret (-4) /\
  it_ceilPow2 I8 100 = Ret (-128) /\ it_ceilPow2 U8 200 = Ret 0 /\ it_floorPow2 I8 (-128) = Ret (-128).
Proof. repeat split. Qed.

(** C69: dividePow2 can be undefined. *)
Theorem C69_dividePow2_refuted : exists x, 0 <= x < 2 ^ 32 /\ ft_dividePow2 F32 x 0 = UB.
Proof. exact dividePow2_refuted_lemma. Qed.
Print Assumptions C69_dividePow2_refuted.
Theorem C69_dividePow2_exact_partial : forall f x exp2 m e s, 0 <= x < 2 ^ ft_bits f -> ft_decompose f x = (m, e, s) ->
  (ft_dividePow2 f x exp2 = UB <-> ft_mbits f < e - exp2) /\
  (exp2 <= e <= exp2 + ft_mbits f -> exists y, ft_dividePow2 f x exp2 = Ret y /\ ft_decompose f y = (m mod 2 ^ (e - exp2), e, s)) /\
  (e < exp2 -> ft_dividePow2 f x exp2 = Ret 0).
Proof. exact dividePow2_exact_lemma. Qed.
Print Assumptions C69_dividePow2_exact_partial.
Example C69_case : ft_decompose F32 0x40F80000 = (0x780000, 2, false) /\ ft_dividePow2 F32 0x40F80000 1 = Ret 0x40800000.
Proof. repeat split. Qed.
