(** * Lists of integers in ParamMap: getParamContainer and getParamContainerInserter (common/include/rofl/common/param_map.h 135-190) with
    Value = int and the default delimiters "[],".  The conversion is that of ParamIntModel.v. *)
From Coq Require Import List ZArith Bool.
From Verif Require Import Base ParamModel ParamIntModel.
Import ListNotations.
Open Scope Z_scope.

(** Default argument delim = "[]," h 136, 169. *)
Definition DELIM : str := [91; 93; 44].
(** getParamContainer h 168-190: the elements of [beg, end) are [dest]. *)
Definition getIntContainer (t : table) (k : str) (dest : list Z) (dfltString : str) (dflt : Z) : table * list Z * bool :=
  getParamContainer cast_int t k dest dfltString dflt DELIM.
(** getParamContainerInserter h 135-166. *)
Definition getIntInserter (t : table) (k : str) : table * list Z * bool := getParamContainerInserter cast_int t k DELIM.
