(** * Reading back a set of integers written as {1, 2, 3}. *)
From Coq Require Import List ZArith String Ascii DecimalString.
Import ListNotations.
Open Scope string_scope.

(** The integer written by a decimal numeral. *)
Definition read_int (t : string) : option Z := option_map Z.of_int (NilZero.int_of_string t).
(** Items separated by a comma and a space, up to the closing brace; [cur] is what has been read of the current item. *)
Fixpoint read_items (cur t : string) : option (list Z) :=
  match t with
  | "}" => match read_int cur with Some z => Some [z] | None => None end
  | String "," (String " " r) => match read_int cur, read_items "" r with Some z, Some l => Some (z :: l) | _, _ => None end
  | String c r => read_items (cur ++ String c "") r
  | "" => None
  end.
Definition read_set (t : string) : option (list Z) :=
  match t with
  | "{}" => Some []
  | String "{" r => read_items "" r
  | _ => None
  end.
