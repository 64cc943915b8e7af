(** * What the console macros should write: every argument evaluated once, in order, its value after its own name. *)
From Coq Require Import List String.
From Verif Require Import MacroModel.
Import ListNotations.
Open Scope string_scope.

(** The arguments evaluated once each, from the first to the last: pairs of name and value, and the state afterwards. *)
Fixpoint evaluated {W} (args : list (arg W)) (w : W) : list (string * string) * W :=
  match args with
  | [] => ([], w)
  | a :: t => let '(v, w1) := eval a w in let '(r, w2) := evaluated t w1 in ((text a, v) :: r, w2)
  end.
(** "name value, name value, ..." *)
Definition report (l : list (string * string)) : string := concat ", " (map (fun p => fst p ++ " " ++ snd p) l).
Definition header (pl : place) : string := filename pl ++ "," ++ put_nat (line pl) ++ ": ".
(** An argument whose evaluation leaves the state alone. *)
Definition pure {W} (a : arg W) : Prop := forall w, snd (eval a w) = w.
