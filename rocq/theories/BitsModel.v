(** * Model of common/src/bit_manip.cpp and common/include/rofl/common/numeric_traits.h.

    Machine integers are [Z]; conversions to unsigned ([wrap]) and signed ([swrap]) types are explicit.
    Floating point numbers are their bit patterns.  Signed overflow and shifts the C++17 standard leaves
    undefined are [UB]. *)
From Coq Require Import List ZArith Bool.
From Verif Require Import Base.
Import ListNotations.
Open Scope outcome_scope.
Open Scope Z_scope.

(** Conversion to an unsigned / signed type of [w] bits. *)
Definition wrap (w x : Z) : Z := x mod 2 ^ w.
Definition swrap (w x : Z) : Z := (x + 2 ^ (w - 1)) mod 2 ^ w - 2 ^ (w - 1).

(** ** Number of leading zeros *)
(** The repeated fragment  y = x >> s; if (y != 0) { n = n - s; x = y; }  on the pair (x, n). *)
Definition nlz_step (s : Z) (xn : Z * Z) : Z * Z :=
  let (x, n) := xn in
  let y := Z.shiftr x s in
  if y =? 0 then (x, n) else (y, n - s).
(** y = x >> 1; if (y != 0) return n - 2; return n - x; *)
Definition nlz_last (xn : Z * Z) : Z :=
  let (x, n) := xn in
  let y := Z.shiftr x 1 in
  if y =? 0 then n - x else n - 2.
(** nlz8 26-45, nlz16 47-71, nlz32 73-102, nlz64 104-138.  Arguments are converted to the unsigned type first. *)
Definition nlz8 (x : Z) : Z := nlz_last (nlz_step 2 (nlz_step 4 (wrap 8 x, 8))).
Definition nlz16 (x : Z) : Z := nlz_last (nlz_step 2 (nlz_step 4 (nlz_step 8 (wrap 16 x, 16)))).
Definition nlz32 (x : Z) : Z := nlz_last (nlz_step 2 (nlz_step 4 (nlz_step 8 (nlz_step 16 (wrap 32 x, 32))))).
Definition nlz64 (x : Z) : Z :=
  nlz_last (nlz_step 2 (nlz_step 4 (nlz_step 8 (nlz_step 16 (nlz_step 32 (wrap 64 x, 64)))))).

(** ** Powers of two *)
(** x = x | (x >> s) *)
Definition smear (s x : Z) : Z := Z.lor x (Z.shiftr x s).
(** flp2u8 149-154, flp2u16 161-167, flp2u32 174-194, flp2u64 201-209. *)
Definition flp2u8 (x : Z) : Z := let x := smear 4 (smear 2 (smear 1 (wrap 8 x))) in wrap 8 (x - Z.shiftr x 1).
Definition flp2u16 (x : Z) : Z := let x := smear 8 (smear 4 (smear 2 (smear 1 (wrap 16 x)))) in wrap 16 (x - Z.shiftr x 1).
Definition flp2u32 (x : Z) : Z :=
  let x := smear 16 (smear 8 (smear 4 (smear 2 (smear 1 (wrap 32 x))))) in wrap 32 (x - Z.shiftr x 1).
Definition flp2u64 (x : Z) : Z :=
  let x := smear 32 (smear 16 (smear 8 (smear 4 (smear 2 (smear 1 (wrap 64 x)))))) in wrap 64 (x - Z.shiftr x 1).
(** clp2u8 216-222, clp2u16 229-236, clp2u32 243-251, clp2u64 258-267: x - 1 and x + 1 wrap. *)
Definition clp2u8 (x : Z) : Z := wrap 8 (smear 4 (smear 2 (smear 1 (wrap 8 (wrap 8 x - 1)))) + 1).
Definition clp2u16 (x : Z) : Z := wrap 16 (smear 8 (smear 4 (smear 2 (smear 1 (wrap 16 (wrap 16 x - 1))))) + 1).
Definition clp2u32 (x : Z) : Z :=
  wrap 32 (smear 16 (smear 8 (smear 4 (smear 2 (smear 1 (wrap 32 (wrap 32 x - 1)))))) + 1).
Definition clp2u64 (x : Z) : Z :=
  wrap 64 (smear 32 (smear 16 (smear 8 (smear 4 (smear 2 (smear 1 (wrap 64 (wrap 64 x - 1))))))) + 1).

(** ** IEEE 754 fields *)
(** getMantissaExpSignF 273-284: bits -> mantissa, exponent, sign. *)
Definition getF (i : Z) : Z * Z * bool :=
  (Z.land 0x007FFFFF i, Z.shiftr (Z.land 0x7F800000 i) 23 - 127, negb (Z.land 0x80000000 i =? 0)).
(** Left shift of an int of [w] bits (C++17): undefined for a negative operand or a result that does not fit
    the unsigned type; otherwise the pattern (as an unsigned number). *)
Definition shl (w x s : Z) : outcome Z :=
  if (x <? 0) || (s <? 0) || (w <=? s) || (2 ^ w <=? Z.shiftl x s) then UB else Ret (Z.shiftl x s).
(** int addition. *)
Definition sadd (w x y : Z) : outcome Z :=
  if (- 2 ^ (w - 1) <=? x + y) && (x + y <? 2 ^ (w - 1)) then Ret (x + y) else UB.
(** setMantissaExpSignF 286-294: the result is the bit pattern. *)
Definition setF (m e : Z) (s : bool) : outcome Z :=
  let! e1 := sadd 32 e 127 in
  let! e2 := shl 32 e1 23 in
  let! s2 := shl 32 (if s then 1 else 0) 31 in
  Ret (Z.lor (Z.lor (Z.land 0x007FFFFF (wrap 32 m)) e2) s2).
(** getMantissaExpSignD 296-307, setMantissaExpSignD 309-317. *)
Definition getD (i : Z) : Z * Z * bool :=
  (Z.land 0x000FFFFFFFFFFFFF i, Z.shiftr (Z.land 0x7FF0000000000000 i) 52 - 1023, negb (Z.land 0x8000000000000000 i =? 0)).
Definition setD (m e : Z) (s : bool) : outcome Z :=
  let! e1 := sadd 64 e 1023 in
  let! e2 := shl 64 e1 52 in
  let! s2 := shl 64 (if s then 1 else 0) 63 in
  Ret (Z.lor (Z.lor (Z.land 0x000FFFFFFFFFFFFF (wrap 64 m)) e2) s2).

(** ** IntegerTraits (numeric_traits.h 34-312), one constructor per specialisation *)
Inductive ity := I8 | U8 | I16 | U16 | I32 | U32 | I64 | U64.
(** BIT_NUM 39, 78, 109, 148, 179, 218, 249, 288. *)
Definition bit_num (t : ity) : Z := match t with I8 | U8 => 8 | I16 | U16 => 16 | I32 | U32 => 32 | I64 | U64 => 64 end.
Definition is_signed (t : ity) : bool := match t with I8 | I16 | I32 | I64 => true | _ => false end.
(** Conversion to the type. *)
Definition conv (t : ity) (x : Z) : Z := if is_signed t then swrap (bit_num t) x else wrap (bit_num t) x.
(** Unary minus on a value of the type: int8_t and int16_t are promoted to int, so only int32_t and int64_t can overflow. *)
Definition neg (t : ity) (i : Z) : outcome Z :=
  match t with
  | I32 => if i =? - 2 ^ 31 then UB else Ret (- i)
  | I64 => if i =? - 2 ^ 63 then UB else Ret (- i)
  | _ => Ret (- i)
  end.
(** removeSign 41-43, 80-82, ...: i ^ 1 for signed types, converted to the unsigned type. *)
Definition removeSign (t : ity) (i : Z) : Z := if is_signed t then wrap (bit_num t) (Z.lxor i 1) else i.
(** nlz 45-47, 84-86, ... *)
Definition it_nlz (t : ity) (i : Z) : Z :=
  match t with I8 | U8 => nlz8 i | I16 | U16 => nlz16 i | I32 | U32 => nlz32 i | I64 | U64 => nlz64 i end.
(** log2Mod 49-56, 88-93, 119-126, 158-163, 189-196, 228-233, 259-266 (which calls nlz8), 298-303. *)
Definition it_log2Mod (t : ity) (i : Z) : outcome Z :=
  let nlzf := match t with I8 | U8 => nlz8 | I16 | U16 => nlz16 | I32 | U32 => nlz32 | I64 => nlz8 | U64 => nlz64 end in
  if is_signed t then
    if 0 <? i then Ret (bit_num t - 1 - nlzf i)
    else if i <? 0 then let! j := neg t i in Ret (bit_num t - 1 - nlzf j)
    else Ret 0
  else if negb (i =? 0) then Ret (bit_num t - nlzf i - 1) else Ret 0.
Definition it_flp2 (t : ity) : Z -> Z :=
  match t with I8 | U8 => flp2u8 | I16 | U16 => flp2u16 | I32 | U32 => flp2u32 | I64 | U64 => flp2u64 end.
Definition it_clp2 (t : ity) : Z -> Z :=
  match t with I8 | U8 => clp2u8 | I16 | U16 => clp2u16 | I32 | U32 => clp2u32 | I64 | U64 => clp2u64 end.
(** floorPow2 58-63, 95-97, ... *)
Definition it_floorPow2 (t : ity) (i : Z) : outcome Z :=
  if is_signed t then
    if 0 <=? i then Ret (conv t (it_flp2 t i))
    else let! j := neg t i in Ret (conv t (- it_clp2 t j))
  else Ret (it_flp2 t i).
(** ceilPow2 65-70, 99-101, ... *)
Definition it_ceilPow2 (t : ity) (i : Z) : outcome Z :=
  if is_signed t then
    if 0 <=? i then Ret (conv t (it_clp2 t i))
    else let! j := neg t i in Ret (conv t (- it_flp2 t j))
  else Ret (it_clp2 t i).

(** ** FloatTraits (382-427, 433-478) *)
Inductive fty := F32 | F64.
Definition ft_bits (f : fty) : Z := match f with F32 => 32 | F64 => 64 end.
(** MANTISSA_BITS 388, 439; EXPONENT_BITS 389, 440 (8 for both); EXPONENT_BIAS 390, 441. *)
Definition ft_mbits (f : fty) : Z := match f with F32 => 23 | F64 => 52 end.
Definition ft_ebits (f : fty) : Z := match f with F32 => 8 | F64 => 8 end.
Definition ft_bias (f : fty) : Z := match f with F32 => 127 | F64 => 1023 end.
(** 392-397, 443-448. *)
Definition ft_implicit (f : fty) : Z := 2 ^ ft_mbits f.
Definition ft_mmask (f : fty) : Z := 2 ^ ft_mbits f - 1.
Definition ft_emax (f : fty) : Z := 2 ^ ft_ebits f - 1 - ft_bias f.
Definition ft_ity (f : fty) : ity := match f with F32 => I32 | F64 => I64 end.
(** compose 399-401, 450-452; decompose 403-405, 454-456. *)
Definition ft_compose (f : fty) : Z -> Z -> bool -> outcome Z := match f with F32 => setF | F64 => setD end.
Definition ft_decompose (f : fty) : Z -> Z * Z * bool := match f with F32 => getF | F64 => getD end.
(** dividePow2 416-426, 467-477: the shift count must lie in [0, BIT_NUM). *)
Definition ft_dividePow2 (f : fty) (x exp2 : Z) : outcome Z :=
  let '(m, e, s) := ft_decompose f x in
  if e <? exp2 then Ret 0
  else
    let c := ft_mbits f - e + exp2 in
    if (c <? 0) || (ft_bits f <=? c) then UB
    else ft_compose f (Z.land m (Z.shiftr (ft_mmask f) c)) e s.
