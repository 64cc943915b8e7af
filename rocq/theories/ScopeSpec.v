(** * Durations of programs and what is to be measured. *)
From Coq Require Import List ZArith QArith.
From Verif Require Import Base ParamModel ProfilerModel ScopeModel.
Import ListNotations.
Open Scope Z_scope.

(** Nanoseconds of all the work of a program. *)
Fixpoint duration (p : prog) : Z :=
  match p with
  | Done => 0
  | Work ns rest => ns + duration rest
  | Scope _ body rest => duration body + duration rest
  | Here _ rest => duration rest
  end.
Definition ms (ns : Z) : Q := (inject_Z ns / 1000000)%Q.
(** The measurements in the order in which they end, when the macro measures [here rest] milliseconds, [rest] being the statements
    that follow it in its block. *)
Fixpoint measures (here : prog -> Q) (p : prog) : list (str * Q) :=
  match p with
  | Done => []
  | Work _ rest => measures here rest
  | Scope l body rest => measures here body ++ (l, ms (duration body)) :: measures here rest
  | Here l rest => (l, here rest) :: measures here rest
  end.
Fixpoint uses_here (p : prog) : Prop :=
  match p with Done => False | Work _ r => uses_here r | Scope _ b r => uses_here b \/ uses_here r | Here _ _ => True end.
