(** * What integer parameters should do. *)
From Coq Require Import List ZArith Bool.
From Verif Require Import Base ParamModel ParamSpec.
Import ListNotations.
Open Scope Z_scope.

Definition is_int (n : Z) : Prop := - 2 ^ 31 <= n < 2 ^ 31.
Definition is_unsigned (n : Z) : Prop := 0 <= n < 2 ^ 32.
(** A text of decimal digits and the number it denotes. *)
Inductive denotes : str -> Z -> Prop :=
| dn_one d : 0 <= d <= 9 -> denotes [48 + d] d
| dn_more s n d : denotes s n -> 0 <= d <= 9 -> denotes (s ++ [48 + d]) (10 * n + d).
(** ... with an optional sign. *)
Definition denotes_signed (s : str) (n : Z) : Prop :=
  denotes s n \/ (exists r, s = 43 :: r /\ denotes r n) \/ (exists r m, s = 45 :: r /\ denotes r m /\ n = - m).
(** The canonical text: no plus sign, no leading zero, no minus zero. *)
Definition canonical (s : str) : Prop :=
  s = [48] \/ (exists c r, s = c :: r /\ 49 <= c <= 57) \/ (exists c r, s = 45 :: c :: r /\ 49 <= c <= 57).
