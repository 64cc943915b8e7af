(** * ParamMap with int and unsigned parameters: common/include/rofl/common/param_map.h 95-131 with Value = int and Value = unsigned.

    setParam writes the value with operator<< of a fresh std::stringstream (98-99), getParam reads it back with boost::lexical_cast (114).
    Both belong to other libraries; they are written here from their specification, for the "C" locale (no digit grouping), int and
    unsigned of 32 bits.  Everything else is ParamModel.v. *)
From Coq Require Import List ZArith Bool.
From Verif Require Import Base ParamModel.
Import ListNotations.
Open Scope Z_scope.

(** operator<< of an integer, h 99: base ten, no leading zeros.  [fuel] bounds the number of digits; 32-bit values have at most ten. *)
Fixpoint dec_loop (fuel : nat) (n : Z) (acc : str) : str :=
  match fuel with
  | O => acc
  | S f => let acc' := (48 + n mod 10) :: acc in if n / 10 =? 0 then acc' else dec_loop f (n / 10) acc'
  end.
Definition put_unsigned (n : Z) : str := dec_loop 10 n [].
Definition put_int (n : Z) : str := if n <? 0 then 45 :: put_unsigned (- n) else put_unsigned n.

(** numeric_limits<unsigned>::max(). *)
Definition UMAX : Z := 2 ^ 32 - 1.
(** boost::detail::lcast_ret_unsigned, used at h 114: the digits from the last to the first, with the running multiplier (wrapping) and
    its overflow flag; a digit that does not fit ends the conversion, zeros always fit. *)
Fixpoint lcast_loop (mult : Z) (ovf : bool) (value : Z) (l : str) : option Z :=
  match l with
  | [] => Some value
  | c :: r =>
    let ovf' := ovf || (UMAX / 10 <? mult) in
    let mult' := (mult * 10) mod (UMAX + 1) in
    let d := c - 48 in
    let sub := (mult' * d) mod (UMAX + 1) in
    if (c <? 48) || (58 <=? c) || (negb (d =? 0) && (ovf' || (UMAX / d <? mult') || (UMAX - sub <? value))) then None
    else lcast_loop mult' ovf' (value + sub) r
  end.
Definition lcast_unsigned (s : str) : option Z :=
  match rev s with
  | [] => None
  | c :: r => if (c <? 48) || (58 <=? c) then None else lcast_loop 1 false (c - 48) r
  end.
(** lexical_cast<int>, h 114: an optional sign, digits, then the range check. *)
Definition cast_int (s : str) : option Z :=
  match s with
  | [] => None
  | c :: r =>
    if c =? 45 then match lcast_unsigned r with Some u => if u <=? 2 ^ 31 then Some (- u) else None | None => None end
    else match lcast_unsigned (if c =? 43 then r else s) with Some u => if u <=? 2 ^ 31 - 1 then Some u else None | None => None end
  end.
(** lexical_cast<unsigned>, h 114: a minus sign is accepted and negates the value modulo 2^32. *)
Definition cast_unsigned (s : str) : option Z :=
  match s with
  | [] => None
  | c :: r =>
    if c =? 45 then match lcast_unsigned r with Some u => Some ((0 - u) mod (UMAX + 1)) | None => None end
    else lcast_unsigned (if c =? 43 then r else s)
  end.

(** setParam and getParam, h 95-131, for the two types. *)
Definition setInt := setParam put_int.
Definition getInt := getParam put_int cast_int.
Definition setUnsigned := setParam put_unsigned.
Definition getUnsigned := getParam put_unsigned cast_unsigned.
