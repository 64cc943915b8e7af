(** * Lists of integers as text. *)
From Coq Require Import List ZArith Bool.
From Verif Require Import Base ParamModel ParamSpec ParamIntSpec.
Import ListNotations.
Open Scope Z_scope.

Fixpoint commas (l : list str) : str := match l with [] => [] | [w] => w | w :: r => w ++ 44 :: commas r end.
(** [w1,w2,...] *)
Definition list_text (l : list str) : str := 91 :: commas l ++ [93].
(** An element: not empty, no bracket, no comma. *)
Definition element (w : str) : Prop := w <> [] /\ Forall (fun c => c <> 91 /\ c <> 93 /\ c <> 44) w.
(** The element w is the numeral of the int n. *)
Definition int_element (w : str) (n : Z) : Prop := denotes_signed w n /\ is_int n.
(** No int. *)
Definition no_int (w : str) : Prop := forall n, ~ int_element w n.
