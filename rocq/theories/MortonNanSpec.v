(** * NaN among the IEEE singles. *)
From Coq Require Import ZArith.
From Verif Require Import MortonFloatSpec.
Open Scope Z_scope.

Definition s_nan (x : Z) : Prop := single x /\ s_exp x = 255 /\ s_man x <> 0.
