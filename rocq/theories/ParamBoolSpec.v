(** * What bool parameters should do. *)
From Coq Require Import List ZArith Bool.
From Verif Require Import Base ParamModel ParamIntSpec.
Import ListNotations.
Open Scope Z_scope.

(** The text denotes the truth value: a numeral of 0 or 1. *)
Definition denotes_bool (s : str) (b : bool) : Prop := denotes_signed s (if b then 1 else 0).
(** The words true and false. *)
Definition word_true : str := [116; 114; 117; 101].
Definition word_false : str := [102; 97; 108; 115; 101].
