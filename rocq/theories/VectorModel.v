(** * common/include/rofl/common/vector_array.h.

    VectorArray<T, Dim> as the list of its Dim entries.  T is any type with a zero, an addition and a multiplication (for a signed
    integer type: as long as nothing overflows).  The binary operators + - * / (41-79) assign a scalar to a vector and do not compile
    when they are used: not modelled. *)
From Coq Require Import List Arith.
From Verif Require Import Base.
Import ListNotations.
Open Scope outcome_scope.

(** The operations of T. *)
Record scalar_ops (A : Type) := mkOps { zero : A; add : A -> A -> A; mul : A -> A -> A }.
Arguments zero {A}. Arguments add {A}. Arguments mul {A}. Arguments mkOps {A}.

Section Vector.
Context {A : Type} (T : scalar_ops A).

(** Default constructor 22-23: BaseType() zeroes the entries. *)
Definition va_new (Dim : nat) : list A := repeat (zero T) Dim.
(** operator() 33-39. *)
Definition va_get (v : list A) (d : nat) : outcome A := vread v d.
Definition va_set (v : list A) (d : nat) (x : A) : outcome (list A) := vwrite v d x.

(** A reference to a vector: another one, or the object itself; a reference to a scalar: elsewhere, or an entry of the object. *)
Inductive vref := VOther (w : list A) | VSelf.
Inductive sref := SOther (x : A) | SEntry (i : nat).
Definition vderef (v : list A) (r : vref) : list A := match r with VOther w => w | VSelf => v end.
Definition sderef (v : list A) (r : sref) : outcome A := match r with SOther x => Ret x | SEntry i => vread v i end.

(** for (size_t d = 0; d < Dim; ++d) *)
Fixpoint each (k d : nat) (body : nat -> list A -> outcome (list A)) (v : list A) : outcome (list A) :=
  match k with O => Ret v | S k' => let! v1 := body d v in each k' (S d) body v1 end.

(** operator+= 81-86. *)
Definition plus_assign (v : list A) (other : vref) : outcome (list A) :=
  each (length v) 0 (fun d v => let! a := vread v d in let! b := vread (vderef v other) d in vwrite v d (add T a b)) v.
(** operator*=(const Value&) 88-93: the scalar is read again in every turn. *)
Definition times_assign_scalar (v : list A) (scalar : sref) : outcome (list A) :=
  each (length v) 0 (fun d v => let! a := vread v d in let! s := sderef v scalar in vwrite v d (mul T a s)) v.
(** operator*=(const Type&) 95-100. *)
Definition times_assign (v : list A) (other : vref) : outcome (list A) :=
  each (length v) 0 (fun d v => let! a := vread v d in let! b := vread (vderef v other) d in vwrite v d (mul T a b)) v.
End Vector.
