(** * rofl::DisjointSet with ids of type int (common/include/rofl/common/disjoint_set.h, common/src/disjoint_set.cpp).

    DisjointSetModel.v numbers the nodes with unbounded integers.  Here id_type = int: nodes_.size() is converted to int (modulo 2^32, as gcc
    does) where the code converts it, a signed operation out of range is [UB], sizes are size_t (modulo 2^64), and a negative subscript is
    out of range.  Simplification: the diagnostic on std::cerr is dropped. *)
From Coq Require Import List ZArith Bool.
From Verif Require Import Base DisjointSetModel.
From Verif Require IntervalModel.
Import ListNotations.
Open Scope outcome_scope.
Open Scope Z_scope.

Notation chk := IntervalModel.chk.
Notation to_int := IntervalModel.to_int.

(** struct Node, disjoint_set.h 30-34; members 107-109. *)
Record inode := mkINode { iparent : Z; irank : Z; isize : Z }.
Record iset := mkISet { inodes : list inode; inum : Z }.

(** (id_type) nodes_.size(). *)
Definition int_size (s : iset) : Z := to_int (Z.of_nat (length (inodes s))).
(** nodes_[i] with an int subscript. *)
Definition iread (ns : list inode) (i : Z) : outcome inode := if i <? 0 then UB else vread ns (Z.to_nat i).
Definition iwrite (ns : list inode) (i : Z) (nd : inode) : outcome (list inode) := if i <? 0 then UB else vwrite ns (Z.to_nat i) nd.

(** Constructor 25-33, initSets 38-48: the counter goes from 0 to num - 1. *)
Definition initSets_int (num : Z) : iset := mkISet (map (fun i => mkINode (Z.of_nat i) 0 1) (seq 0 (Z.to_nat num))) num.
(** makeSet 50-57. *)
Definition makeSet_int (s : iset) : iset * Z :=
  let id := int_size s in (mkISet (inodes s ++ [mkINode id 0 1]) (inum s), id).
(** while loop of find 65-68. *)
Fixpoint walk_int (fuel : nat) (ns : list inode) (tmp : Z) : outcome Z :=
  match fuel with
  | O => Stuck
  | S f => let! nd := iread ns tmp in if tmp =? iparent nd then Ret tmp else walk_int f ns (iparent nd)
  end.
(** nodes_[n].parent = p, 69, 83, 87, 91. *)
Definition set_parent_int (ns : list inode) (i p : Z) : outcome (list inode) :=
  let! nd := iread ns i in iwrite ns i (mkINode p (irank nd) (isize nd)).
(** nodes_[i].size += k, 84, 88, 92. *)
Definition add_size_int (ns : list inode) (i k : Z) : outcome (list inode) :=
  let! nd := iread ns i in iwrite ns i (mkINode (iparent nd) (irank nd) ((isize nd + k) mod 2 ^ 64)).
(** nodes_[i].rank++, 93. *)
Definition incr_rank_int (ns : list inode) (i : Z) : outcome (list inode) :=
  let! nd := iread ns i in let! r := chk (irank nd + 1) in iwrite ns i (mkINode (iparent nd) r (isize nd)).
(** find 59-71. *)
Definition find_int (s : iset) (n : Z) : outcome (iset * Z) :=
  if (n <? 0) || (int_size s <=? n) then Ret (s, int_size s)
  else
    let! r := walk_int (S (length (inodes s))) (inodes s) n in
    let! ns := set_parent_int (inodes s) n r in
    Ret (mkISet ns (inum s), r).
(** join 75-96. *)
Definition join_int (s : iset) (n1 n2 : Z) : outcome (iset * Z) :=
  let! (s1, root1) := find_int s n1 in
  let! (s2, root2) := find_int s1 n2 in
  if root1 =? root2 then Ret (s2, int_size s2)
  else
    let! num := chk (inum s2 - 1) in
    let ns := inodes s2 in
    let! nd1 := iread ns root1 in
    let! nd2 := iread ns root2 in
    if irank nd1 <? irank nd2 then
      let! ns1 := set_parent_int ns root1 root2 in
      let! ns2 := add_size_int ns1 root2 (isize nd1) in
      Ret (mkISet ns2 num, root2)
    else if irank nd2 <? irank nd1 then
      let! ns1 := set_parent_int ns root2 root1 in
      let! ns2 := add_size_int ns1 root1 (isize nd2) in
      Ret (mkISet ns2 num, root1)
    else
      let! ns1 := set_parent_int ns root2 root1 in
      let! ns2 := add_size_int ns1 root1 (isize nd2) in
      let! ns3 := incr_rank_int ns2 root1 in
      Ret (mkISet ns3 num, root1).
(** size(int), disjoint_set.h 83-86. *)
Definition set_size_int (s : iset) (n : Z) : outcome (iset * Z) :=
  let! (s1, root) := find_int s n in
  let! nd := iread (inodes s1) root in
  Ret (s1, isize nd).
(** parents 96-105: id is incremented after every node. *)
Fixpoint parents_int (ns : list inode) (id : Z) : outcome (list nat) :=
  match ns with
  | [] => Ret []
  | nd :: t =>
    let! id1 := chk (id + 1) in
    let! r := parents_int t id1 in
    Ret (if iparent nd =? id then Z.to_nat id :: r else r)
  end.

(** A client's calls, as in DisjointSetModel.v. *)
Definition step_int (s : iset) (o : op) : outcome (iset * out) :=
  match o with
  | OFind n => let! (s', r) := find_int s n in Ret (s', VId r)
  | OJoin a b => let! (s', r) := join_int s a b in Ret (s', VId r)
  | OMake => let (s', r) := makeSet_int s in Ret (s', VId r)
  | OSize n => let! (s', k) := set_size_int s n in Ret (s', VNum k)
  | OSetNum => Ret (s, VNum (inum s))
  | ONodeNum => Ret (s, VNum (Z.of_nat (length (inodes s))))
  | OParents => let! l := parents_int (inodes s) 0 in Ret (s, VIds l)
  end.
Fixpoint run_int (s : iset) (h : list op) : outcome (iset * list out) :=
  match h with
  | [] => Ret (s, [])
  | o :: t => let! (s1, v) := step_int s o in let! (s2, vs) := run_int s1 t in Ret (s2, v :: vs)
  end.
