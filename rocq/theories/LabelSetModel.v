(** * Model of rofl::LabelSet (common/include/rofl/common/label_set.h, common/src/label_set.cpp).

    [std::set<int>] is modelled by the strictly increasing list of its elements (iteration order).
    Simplification: labels are [Z] (no operation does arithmetic on them). *)
From Coq Require Import List ZArith Bool.
From Verif Require Import Base.
Import ListNotations.
Open Scope Z_scope.

Definition lset := list Z.

(** std::set::find / inside, label_set.cpp 52-54. *)
Definition inside (s : lset) (x : Z) : bool := existsb (Z.eqb x) s.

(** std::set::insert of one key. *)
Fixpoint set_insert (x : Z) (s : lset) : lset :=
  match s with
  | [] => [x]
  | y :: t => if x <? y then x :: s else if x =? y then s else y :: set_insert x t
  end.

(** std::set::erase(key). *)
Fixpoint set_erase (x : Z) (s : lset) : lset :=
  match s with
  | [] => []
  | y :: t => if x =? y then t else y :: set_erase x t
  end.

(** LabelSet(), label_set.cpp 23-24, and clear(), 32-34. *)
Definition ls_empty : lset := [].

(** LabelSet(It beg, It end), label_set.h 47-49: std::set range constructor. *)
Definition ls_range (l : list Z) : lset := fold_left (fun s x => set_insert x s) l [].

(** insert, label_set.cpp 64-70: the new set and the returned flag. *)
Definition ls_insert (s : lset) (x : Z) : lset * bool :=
  let itemIn := inside s x in
  (if negb itemIn then set_insert x s else s, itemIn).

(** remove, label_set.cpp 72-74. *)
Definition ls_remove (s : lset) (x : Z) : lset := set_erase x s.

(** unionSet(Label), label_set.cpp 76-80. *)
Definition unionLabel (s : lset) (x : Z) : lset := fst (ls_insert s x).

(** std::set_union on two sorted ranges. *)
Fixpoint std_set_union (l1 : lset) : lset -> lset :=
  fix aux (l2 : lset) : lset :=
  match l1, l2 with
  | [], _ => l2
  | _, [] => l1
  | a :: t1, b :: t2 =>
    if b <? a then b :: aux t2
    else if a <? b then a :: std_set_union t1 l2
    else a :: std_set_union t1 t2
  end.

(** std::set_intersection on two sorted ranges. *)
Fixpoint std_set_intersection (l1 : lset) : lset -> lset :=
  fix aux (l2 : lset) : lset :=
  match l1, l2 with
  | [], _ => []
  | _, [] => []
  | a :: t1, b :: t2 =>
    if a <? b then std_set_intersection t1 l2
    else if b <? a then aux t2
    else a :: std_set_intersection t1 t2
  end.

(** std::set_difference on two sorted ranges. *)
Fixpoint std_set_difference (l1 : lset) : lset -> lset :=
  fix aux (l2 : lset) : lset :=
  match l1, l2 with
  | [], _ => []
  | _, [] => l1
  | a :: t1, b :: t2 =>
    if a <? b then a :: std_set_difference t1 l2
    else if b <? a then aux t2
    else std_set_difference t1 t2
  end.

(** unionSet(LabelSet), label_set.cpp 82-89: inserts the merged range into a copy of this set. *)
Definition unionSet (s ls : lset) : lset :=
  fold_left (fun acc x => set_insert x acc) (std_set_union s ls) s.

(** intersectionSet, label_set.cpp 91-105. *)
Definition intersectionSet (s ls : lset) : lset := ls_range (std_set_intersection s ls).

(** differenceSet(Label), label_set.cpp 107-111. *)
Definition differenceLabel (s : lset) (x : Z) : lset := set_erase x s.

(** differenceSet(LabelSet), label_set.cpp 113-123. *)
Definition differenceSet (s ls : lset) : lset := ls_range (std_set_difference s ls).

(** size and empty, label_set.cpp 36-42. *)
Definition ls_size (s : lset) : nat := length s.
Definition ls_is_empty (s : lset) : bool := match s with [] => true | _ => false end.

(** std::equal(first1, last1, first2): dereferencing the end of the second range is undefined. *)
Fixpoint std_equal (l1 l2 : list Z) : outcome bool :=
  match l1, l2 with
  | [], _ => Ret true
  | _ :: _, [] => UB
  | a :: t1, b :: t2 => if a =? b then std_equal t1 t2 else Ret false
  end.

(** operator==, label_set.cpp 56-58, and operator!=, 60-62. *)
Definition ls_eq (s ls : lset) : outcome bool := std_equal s ls.
Definition ls_neq (s ls : lset) : outcome bool := obind (std_equal s ls) (fun b => Ret (negb b)).

(** Programs building label sets through the public interface. *)
Inductive expr :=
| EEmpty
| ERange (l : list Z)
| EInsert (e : expr) (x : Z)
| ERemove (e : expr) (x : Z)
| EUnionLabel (e : expr) (x : Z)
| EUnion (e1 e2 : expr)
| EInter (e1 e2 : expr)
| EDiffLabel (e : expr) (x : Z)
| EDiff (e1 e2 : expr).

Fixpoint eval (e : expr) : lset :=
  match e with
  | EEmpty => ls_empty
  | ERange l => ls_range l
  | EInsert e x => fst (ls_insert (eval e) x)
  | ERemove e x => ls_remove (eval e) x
  | EUnionLabel e x => unionLabel (eval e) x
  | EUnion a b => unionSet (eval a) (eval b)
  | EInter a b => intersectionSet (eval a) (eval b)
  | EDiffLabel e x => differenceLabel (eval e) x
  | EDiff a b => differenceSet (eval a) (eval b)
  end.
