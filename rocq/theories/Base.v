(** * Base: outcomes of C++ computations shared by the models.

    [Ret a]  - the call returns normally with [a];
    [UB]     - the C++ standard gives the execution no meaning
               (out-of-range access, dereferencing an end iterator, ...);
    [Exit]   - the program stops, as done by ROFL_ASSERT
               (common/include/rofl/common/macros.h 57-76: [exit(-1)]);
    [Stuck]  - the model's loop fuel ran out (non-termination of the modelled loop). *)
From Coq Require Import List ZArith.

Inductive outcome (A : Type) : Type :=
| Ret (a : A)
| UB
| Exit
| Stuck.
Arguments Ret {A} a.
Arguments UB {A}.
Arguments Exit {A}.
Arguments Stuck {A}.

Definition obind {A B} (x : outcome A) (f : A -> outcome B) : outcome B :=
  match x with
  | Ret a => f a
  | UB => UB
  | Exit => Exit
  | Stuck => Stuck
  end.

Declare Scope outcome_scope.
Delimit Scope outcome_scope with outcome.
Notation "'let!' x ':=' e 'in' k" := (obind e (fun x => k))
  (at level 200, x pattern, e at level 100, k at level 200, right associativity) : outcome_scope.

(** Unchecked C++ subscript [v[i]]: out of range is undefined behaviour. *)
Definition vread {A} (v : list A) (i : nat) : outcome A :=
  match nth_error v i with
  | Some a => Ret a
  | None => UB
  end.

(** Overwrite position [i] of a vector; no effect out of range (callers read first). *)
Fixpoint lset {A} (v : list A) (i : nat) (a : A) : list A :=
  match v, i with
  | nil, _ => nil
  | _ :: t, O => a :: t
  | x :: t, S j => x :: lset t j a
  end.

(** Unchecked C++ subscript assignment [v[i] = a]. *)
Definition vwrite {A} (v : list A) (i : nat) (a : A) : outcome (list A) :=
  match nth_error v i with
  | Some _ => Ret (lset v i a)
  | None => UB
  end.
