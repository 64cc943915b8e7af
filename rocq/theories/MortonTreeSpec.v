(** * What the Morton tree should do. *)
From Coq Require Import List ZArith Bool Permutation.
From Verif Require Import Base BitsModel MortonSpec MortonFloatModel MortonFloatSpec MortonTreeModel.
Import ListNotations.
Open Scope Z_scope.

(** A comparison that is defined and a strict weak order on the elements of a list. *)
Definition weak_order (cmp : item -> item -> outcome bool) (P : item -> Prop) : Prop :=
  (forall a b, P a -> P b -> exists r, cmp a b = Ret r) /\
  (forall a, P a -> cmp a a = Ret false) /\
  (forall a b c, P a -> P b -> P c -> cmp a b = Ret true -> cmp b c = Ret true -> cmp a c = Ret true) /\
  (forall a b c, P a -> P b -> P c -> cmp a b = Ret false -> cmp b c = Ret false -> cmp a c = Ret false).
(** No element precedes an earlier one. *)
Definition in_order (cmp : item -> item -> outcome bool) (l : list item) : Prop :=
  forall i j a b, (i < j)%nat -> nth_error l i = Some a -> nth_error l j = Some b -> cmp b a = Ret false.
(** What the C++ standard promises of std::sort. *)
Definition conforming (sorter : (item -> item -> outcome bool) -> list item -> outcome (list item)) : Prop :=
  forall cmp l, weak_order cmp (fun x => In x l) -> exists l', sorter cmp l = Ret l' /\ Permutation l l' /\ in_order cmp l'.

(** Domains on which the comparisons are total orders: integer points and, for singles, the plain points. *)
Inductive domain := DInt (t : ity) (n : nat) | DFloat (n : nat).
Definition dom_traits (d : domain) : traits := match d with DInt t _ => int_traits t | DFloat _ => float_traits F32 end.
Definition dom_ok (d : domain) : Prop :=
  match d with DInt t n => (0 < n)%nat /\ Z.of_nat n <= 2 ^ bit_num t | DFloat n => (0 < n)%nat end.
Definition in_dom (d : domain) (v : list Z) : Prop := match d with DInt t n => point t n v | DFloat n => plain_point n v end.
Definition vals (d : domain) (l : list item) : Prop := Forall (fun x => in_dom d (values x)) l.
(** Z-order of two points of a domain. *)
Definition dom_lt (d : domain) (a b : list Z) : Prop :=
  match d with
  | DInt t _ => lex_lt (zkey t a) (zkey t b)
  | DFloat _ => lex_lt (ikey 277 (map s_mag a)) (ikey 277 (map s_mag b))
  end.

(** The items an operation sequence puts in the tree, in insertion order; k is the number of items already there. *)
Definition op_items (k : nat) (o : op) : list item :=
  match o with
  | OInsert x b => [mkItem (values x) (if b then Z.of_nat k else -1)]
  | ORange l b => map (fun p => mkItem (values (snd p)) (if b then Z.of_nat (fst p) else -1)) (combine (seq k (length l)) l)
  | OConv l b => map (fun p => mkItem (values (snd p)) (if b then Z.of_nat (fst p) else id (snd p))) (combine (seq k (length l)) l)
  | _ => []
  end.
Fixpoint inserted (k : nat) (l : list op) : list item :=
  match l with
  | [] => []
  | o :: r => op_items k o ++ inserted (k + length (op_items k o)) r
  end.
(** The source items of an insertion and whether ids are reset; arguments of the queries. *)
Definition op_args (o : op) : list item :=
  match o with OInsert x _ => [x] | ORange l _ | OConv l _ => l | OFind q => [q] | OBox a b => [a; b] | _ => [] end.
Definition op_query (o : op) : bool := match o with OLevel _ _ | OBox _ _ => true | _ => false end.

(** The values passed to an insertion, and whether it resets ids. *)
Definition op_values (o : op) : list (list Z) :=
  match o with OInsert x _ => [values x] | ORange l _ | OConv l _ => map values l | _ => [] end.
Definition op_reset (o : op) : bool := match o with OInsert _ b | ORange _ b | OConv _ b => b | _ => true end.
(** q lies in the box, coordinate by coordinate. *)
Definition in_box (lo hi q : list Z) : Prop := forall i, (i < length q)%nat -> nth i lo 0 <= nth i q 0 <= nth i hi 0.

(** A sorting function: insertion sort, last equivalent element first. *)
Fixpoint ins (cmp : item -> item -> outcome bool) (x : item) (l : list item) : outcome (list item) :=
  match l with
  | [] => Ret [x]
  | y :: r => match cmp y x with
    | Ret true => match ins cmp x r with Ret r' => Ret (y :: r') | o => o end
    | Ret false => Ret (x :: y :: r)
    | UB => UB | Exit => Exit | Stuck => Stuck
    end
  end.
Fixpoint isort (cmp : item -> item -> outcome bool) (l : list item) : outcome (list item) :=
  match l with [] => Ret [] | x :: r => match isort cmp r with Ret r' => ins cmp x r' | o => o end end.

(** The int a size_t is converted to: the one that differs by a multiple of 2^32. *)
Definition as_int (n z : Z) : Prop := - 2 ^ 31 <= z < 2 ^ 31 /\ exists k, n = z + k * 2 ^ 32.
