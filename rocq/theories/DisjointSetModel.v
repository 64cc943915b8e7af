(** * Model of rofl::DisjointSet
    (common/include/rofl/common/disjoint_set.h, common/src/disjoint_set.cpp).

    Simplifications: [id_type] is C++ [int]; the model uses [Z] for ids received
    from the caller and [nat] for stored ids, so overflow of [int] beyond 2^31-1 nodes is not modelled;
    the diagnostic printed on std::cerr is not modelled. *)
From Coq Require Import List ZArith Arith Bool.
From Verif Require Import Base.
Import ListNotations.
Open Scope outcome_scope.

(** struct Node, disjoint_set.h 30-34. *)
Record node := mkNode { parent : nat; rank : nat; nsize : nat }.

(** private members, disjoint_set.h 107-109. *)
Record dset := mkDset { nodes : list node; set_num : Z }.

(** Default constructor, disjoint_set.cpp 22-23. *)
Definition ds_empty : dset := mkDset [] 0%Z.

(** Loop body of the constructor and of initSets, disjoint_set.cpp 26-32 and 42-47. *)
Definition fresh_nodes (num : Z) : list node :=
  map (fun i => mkNode i 0 1) (seq 0 (Z.to_nat num)).

(** DisjointSet(id_type) disjoint_set.cpp 25-33 and initSets 38-48 leave the same state. *)
Definition initSets (num : Z) : dset := mkDset (fresh_nodes num) num.

(** makeSet, disjoint_set.cpp 50-57 (setNum_ is left alone). *)
Definition makeSet (s : dset) : dset * Z :=
  let id := length (nodes s) in
  (mkDset (nodes s ++ [mkNode id 0 1]) (set_num s), Z.of_nat id).

(** while loop of find, disjoint_set.cpp 65-68; [fuel] bounds the iterations. *)
Fixpoint walk (fuel : nat) (ns : list node) (tmp : nat) : outcome nat :=
  match fuel with
  | O => Stuck
  | S f =>
    let! nd := vread ns tmp in
    if Nat.eqb tmp (parent nd) then Ret tmp else walk f ns (parent nd)
  end.

(** nodes_[n].parent = p, disjoint_set.cpp 69, 83, 87, 91. *)
Definition set_parent (ns : list node) (i p : nat) : outcome (list node) :=
  let! nd := vread ns i in
  vwrite ns i (mkNode p (rank nd) (nsize nd)).

(** nodes_[i].size += k, disjoint_set.cpp 84, 88, 92. *)
Definition add_size (ns : list node) (i k : nat) : outcome (list node) :=
  let! nd := vread ns i in
  vwrite ns i (mkNode (parent nd) (rank nd) (nsize nd + k)).

(** nodes_[i].rank++, disjoint_set.cpp 93. *)
Definition incr_rank (ns : list node) (i : nat) : outcome (list node) :=
  let! nd := vread ns i in
  vwrite ns i (mkNode (parent nd) (S (rank nd)) (nsize nd)).

(** Range check of find, disjoint_set.cpp 60. *)
Definition valid_id (ns : list node) (n : Z) : bool :=
  (0 <=? n)%Z && (n <? Z.of_nat (length ns))%Z.

(** find, disjoint_set.cpp 59-71.  The loop gets one unit of fuel per node plus one. *)
Definition find (s : dset) (n : Z) : outcome (dset * nat) :=
  let ns := nodes s in
  if valid_id ns n then
    let! r := walk (S (length ns)) ns (Z.to_nat n) in
    let! ns' := set_parent ns (Z.to_nat n) r in
    Ret (mkDset ns' (set_num s), r)
  else Ret (s, length ns).

(** join, disjoint_set.cpp 75-96. *)
Definition join (s : dset) (n1 n2 : Z) : outcome (dset * nat) :=
  let! (s1, root1) := find s n1 in
  let! (s2, root2) := find s1 n2 in
  if Nat.eqb root1 root2 then Ret (s2, length (nodes s2))
  else
    let num := (set_num s2 - 1)%Z in
    let ns := nodes s2 in
    let! nd1 := vread ns root1 in
    let! nd2 := vread ns root2 in
    if Nat.ltb (rank nd1) (rank nd2) then
      let! ns1 := set_parent ns root1 root2 in
      let! ns2 := add_size ns1 root2 (nsize nd1) in
      Ret (mkDset ns2 num, root2)
    else if Nat.ltb (rank nd2) (rank nd1) then
      let! ns1 := set_parent ns root2 root1 in
      let! ns2 := add_size ns1 root1 (nsize nd2) in
      Ret (mkDset ns2 num, root1)
    else
      let! ns1 := set_parent ns root2 root1 in
      let! ns2 := add_size ns1 root1 (nsize nd2) in
      let! ns3 := incr_rank ns2 root1 in
      Ret (mkDset ns3 num, root1).

(** nodeNum() and size(), disjoint_set.h 70-79. *)
Definition nodeNum (s : dset) : nat := length (nodes s).

(** size(int), disjoint_set.h 83-86. *)
Definition set_size (s : dset) (n : Z) : outcome (dset * nat) :=
  let! (s1, root) := find s n in
  let! nd := vread (nodes s1) root in
  Ret (s1, nsize nd).

(** setNum(), disjoint_set.h 90-92. *)
Definition setNum (s : dset) : Z := set_num s.

(** parents(it), disjoint_set.h 96-105; the inserter's output is the returned list. *)
Fixpoint parents_from (ns : list node) (id : nat) : list nat :=
  match ns with
  | [] => []
  | nd :: t => if Nat.eqb (parent nd) id then id :: parents_from t (S id) else parents_from t (S id)
  end.
Definition parents (s : dset) : list nat := parents_from (nodes s) 0.

(** A client's sequence of calls. *)
Inductive op :=
| OFind (n : Z)
| OJoin (n1 n2 : Z)
| OMake
| OSize (n : Z)
| OSetNum
| ONodeNum
| OParents.

(** What the client sees. *)
Inductive out :=
| VId (r : Z)
| VNum (k : Z)
| VIds (l : list nat).

Definition step (s : dset) (o : op) : outcome (dset * out) :=
  match o with
  | OFind n => let! (s', r) := find s n in Ret (s', VId (Z.of_nat r))
  | OJoin a b => let! (s', r) := join s a b in Ret (s', VId (Z.of_nat r))
  | OMake => let (s', r) := makeSet s in Ret (s', VId r)
  | OSize n => let! (s', k) := set_size s n in Ret (s', VNum (Z.of_nat k))
  | OSetNum => Ret (s, VNum (setNum s))
  | ONodeNum => Ret (s, VNum (Z.of_nat (nodeNum s)))
  | OParents => Ret (s, VIds (parents s))
  end.

Fixpoint run (s : dset) (h : list op) : outcome (dset * list out) :=
  match h with
  | [] => Ret (s, [])
  | o :: t =>
    let! (s1, v) := step s o in
    let! (s2, vs) := run s1 t in
    Ret (s2, v :: vs)
  end.
