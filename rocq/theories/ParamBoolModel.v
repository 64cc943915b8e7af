(** * ParamMap with bool parameters: common/include/rofl/common/param_map.h 95-131 with Value = bool.

    As in ParamIntModel.v the conversions belong to other libraries and are written from their specification: operator<< of bool on a
    fresh std::stringstream (98-99, boolalpha not set) and boost::lexical_cast<bool> (114).  Everything else is ParamModel.v. *)
From Coq Require Import List ZArith Bool.
From Verif Require Import Base ParamModel.
Import ListNotations.
Open Scope Z_scope.

(** operator<< h 99. *)
Definition put_bool (b : bool) : str := [if b then 49 else 48].
(** lexical_cast<bool> h 114: the last character is 0 or 1; before it an optional sign (a minus only before zero) and zeros. *)
Definition skip_sign (b : bool) (s : str) : str :=
  match s with
  | [] => []
  | c :: r => if (c =? 43) || ((c =? 45) && negb b) then r else s
  end.
Definition cast_bool (s : str) : option bool :=
  match rev s with
  | [] => None
  | c :: r =>
    if (c =? 48) || (c =? 49) then
      let b := c =? 49 in
      if forallb (Z.eqb 48) (skip_sign b (rev r)) then Some b else None
    else None
  end.

(** setParam and getParam h 95-131. *)
Definition setBool := setParam put_bool.
Definition getBool := getParam put_bool cast_bool.
