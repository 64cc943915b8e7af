(** * Order-theoretic vocabulary for the double-ended priority queue. *)
From Coq Require Import List Bool Permutation.
From Verif Require Import Base MinMaxHeapModel.
Import ListNotations.

(** The C++ requirement on comparators: strict weak order. *)
Record StrictWeak {A} (cmp : A -> A -> bool) : Prop := {
  sw_irrefl : forall a, cmp a a = false;
  sw_trans : forall a b c, cmp a b = true -> cmp b c = true -> cmp a c = true;
  sw_incomp : forall a b c, cmp a b = false -> cmp b a = false -> cmp b c = false -> cmp c b = false ->
              cmp a c = false /\ cmp c a = false
}.

Section Spec.
Context {A : Type}.
Variable cmp : A -> A -> bool.

(** [v] is one of [d] and nothing in [d] precedes it / it precedes nothing. *)
Definition is_min (d : list A) (v : A) : Prop := In v d /\ forall w, In w d -> cmp w v = false.
Definition is_max (d : list A) (v : A) : Prop := In v d /\ forall w, In w d -> cmp v w = false.

(** [v] is second in order: take a minimum away and [v] is a minimum of the rest. *)
Definition is_second_min (d : list A) (v : A) : Prop :=
  exists m rest, Permutation d (m :: rest) /\ is_min d m /\ is_min rest v.
Definition is_second_max (d : list A) (v : A) : Prop :=
  exists m rest, Permutation d (m :: rest) /\ is_max d m /\ is_max rest v.

(** Elements equivalent to [v] (neither precedes the other) stored in [d]. *)
Definition copies (v : A) (d : list A) : nat :=
  length (filter (fun w => negb (cmp v w) && negb (cmp w v)) d).

(** What went in and what came out, according to the observed events. *)
Fixpoint pushed (es : list (hev A)) : list A :=
  match es with
  | [] => []
  | EvPush x :: t => x :: pushed t
  | _ :: t => pushed t
  end.
Fixpoint popped (es : list (hev A)) : list A :=
  match es with
  | [] => []
  | EvPush _ :: t => popped t
  | EvPopTop x :: t => x :: popped t
  | EvPopBottom x :: t => x :: popped t
  end.

(** The client never pops from an empty heap. *)
Fixpoint pops_ok (n : nat) (h : list (hop A)) : bool :=
  match h, n with
  | [], _ => true
  | HPush _ :: t, _ => pops_ok (S n) t
  | _ :: t, S m => pops_ok m t
  | _ :: _, O => false
  end.

(** Before every popTop in the history no element has more than [k] copies (itself included) in the heap. *)
Fixpoint few_copies (k : nat) (d : list A) (h : list (hop A)) : Prop :=
  match h with
  | [] => True
  | o :: t =>
    (match o with HPopTop => forall v, copies v d <= k | _ => True end) /\
    match hstep cmp d o with
    | Ret (d', _) => few_copies k d' t
    | _ => True
    end
  end.

(** Before every popTop in the history every element has at most two copies in the heap, or no stored element comes after it. *)
Fixpoint tame_pops (d : list A) (h : list (hop A)) : Prop :=
  match h with
  | [] => True
  | o :: t =>
    (match o with HPopTop => forall v, copies v d <= 2 \/ (forall x, In x d -> cmp v x = false) | _ => True end) /\
    match hstep cmp d o with
    | Ret (d', _) => tame_pops d' t
    | _ => True
    end
  end.

(** The history has no popBottom. *)
Fixpoint no_popBottom (h : list (hop A)) : bool :=
  match h with
  | [] => true
  | HPopBottom :: _ => false
  | _ :: t => no_popBottom t
  end.

(** The events are those of the calls made. *)
Definition ev_of (o : hop A) (e : hev A) : Prop :=
  match o, e with
  | HPush x, EvPush y => x = y
  | HPopTop, EvPopTop _ => True
  | HPopBottom, EvPopBottom _ => True
  | _, _ => False
  end.

(** The history has no popTop. *)
Fixpoint no_popTop (h : list (hop A)) : bool :=
  match h with
  | [] => true
  | HPopTop :: _ => false
  | _ :: t => no_popTop t
  end.
End Spec.
