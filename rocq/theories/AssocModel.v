(** * CorrespondenceGraphAssociation (geometry/src/correspondence_graph_association.cpp and its header).

    Distances are exact reals (no NaN).  std::sort is a function [sort] given to the model, assumed by the theorems to return a sorted
    permutation.  std::upper_bound on a sorted vector is the first position whose distance exceeds the bound.  Sizes are small enough for
    int.  Console output is dropped. *)
From Coq Require Import List ZArith Bool Reals.
From Verif Require Import Base LabelSetModel.
Import ListNotations.
Open Scope Z_scope.
Open Scope outcome_scope.

(** PairDistance, header 60-70. *)
Record pdist := mkPD { pd0 : Z; pd1 : Z; pdd : R }.
(** CorrespondenceNode, header 73-81; index and color are never read. *)
Record node := mkN { isrc : Z; idst : Z; adjacents : lset }.
(** Members, header 174-180. *)
Record cga := mkC { nodes : list node; dsrc : list pdist; ddst : list pdist; nsrc : Z; ndst : Z; tol : R; dmin : R }.

(** Constructor, cpp 27-30. *)
Definition cga_new : cga := mkC [] [] [] 0 0 (1 / 10) 0.
(** setTolerance 34-36, setDistanceMin 38-40. *)
Definition setTolerance (c : cga) (t : R) : cga := mkC (nodes c) (dsrc c) (ddst c) (nsrc c) (ndst c) t (dmin c).
Definition setDistanceMin (c : cga) (m : R) : cga := mkC (nodes c) (dsrc c) (ddst c) (nsrc c) (ndst c) (tol c) m.

(** insertPairDistances, header 182-194. *)
Fixpoint pairs_with {A} (dist : A -> A -> R) (i0 i1 : Z) (a : A) (l : list A) : list pdist :=
  match l with [] => [] | b :: r => mkPD i0 i1 (dist a b) :: pairs_with dist i0 (i1 + 1) a r end.
Fixpoint pairs_from {A} (dist : A -> A -> R) (i0 : Z) (l : list A) : list pdist :=
  match l with [] => [] | a :: r => pairs_with dist i0 (i0 + 1) a r ++ pairs_from dist (i0 + 1) r end.

(** insertSrc, header 122-137: appends to the distances already present. *)
Definition insertSrc {A} (sort : list pdist -> list pdist) (c : cga) (items : list A) (dist : A -> A -> R) : cga :=
  mkC (nodes c) (sort (dsrc c ++ pairs_from dist 0 items)) (ddst c) (Z.of_nat (length items)) (ndst c) (tol c) (dmin c).
(** insertDst, header 151-166. *)
Definition insertDst {A} (sort : list pdist -> list pdist) (c : cga) (items : list A) (dist : A -> A -> R) : cga :=
  mkC (nodes c) (dsrc c) (sort (ddst c ++ pairs_from dist 0 items)) (nsrc c) (Z.of_nat (length items)) (tol c) (dmin c).

(** The node loop of associate, cpp 55-64. *)
Definition iota (n : Z) : list Z := map Z.of_nat (seq 0 (Z.to_nat n)).
Definition new_nodes (ns nd : Z) : list node :=
  flat_map (fun is => map (fun id => mkN is id ls_empty) (iota nd)) (iota ns).

(** One adjacents.insert after the two assertions, cpp 84-95. *)
Definition add_adj (l : list node) (i j : Z) : outcome (list node) :=
  let! n := vread l (Z.to_nat i) in
  vwrite l (Z.to_nat i) (mkN (isrc n) (idst n) (fst (ls_insert (adjacents n) j))).
Definition below (i : Z) (l : list node) : bool := (0 <=? i) && (i <? Z.of_nat (length l)).
Definition link (l : list node) (i j : Z) : outcome (list node) :=
  if below i l && below j l then let! l1 := add_adj l i j in add_adj l1 j i else Exit.

(** std::upper_bound by distance, cpp 67-70 and 74-77; the end of the inner loop, 80. *)
Fixpoint upper_from (bound : R) (l : list pdist) : list pdist :=
  match l with [] => [] | p :: r => if Rlt_dec bound (pdd p) then l else upper_from bound r end.
Fixpoint take_below (bound : R) (l : list pdist) : list pdist :=
  match l with [] => [] | p :: r => if Rlt_dec (pdd p) bound then p :: take_below bound r else [] end.

(** Inner loop, cpp 80-96. *)
Fixpoint link_dst (nd : Z) (s : pdist) (ds : list pdist) (l : list node) : outcome (list node) :=
  match ds with
  | [] => Ret l
  | d :: r =>
    let! l1 := link l (pd0 s * nd + pd0 d) (pd1 s * nd + pd1 d) in
    let! l2 := link l1 (pd0 s * nd + pd1 d) (pd1 s * nd + pd0 d) in
    link_dst nd s r l2
  end.
(** Outer loop, cpp 71-97. *)
Fixpoint link_src (nd : Z) (t : R) (ds : list pdist) (ss : list pdist) (l : list node) : outcome (list node) :=
  match ss with
  | [] => Ret l
  | s :: r =>
    let! l1 := link_dst nd s (take_below (pdd s + t) (upper_from (pdd s - t) ds)) l in
    link_src nd t ds r l1
  end.
(** The graph built by associate, cpp 52-97: nodes are appended to those of earlier calls. *)
Definition build (c : cga) : outcome (list node) :=
  link_src (ndst c) (tol c) (ddst c) (upper_from (dmin c) (dsrc c)) (nodes c ++ new_nodes (nsrc c) (ndst c)).

(** executeBronKerbosch, cpp 180-204; [cnt] is the static iterCount, the result its final value.  After the recursive call
    candidateNodes.remove(n) erases the element the loop variable n refers to; reading n for excludedNodes.insert(n) is undefined. *)
Fixpoint bronKerbosch (fuel : nat) (l : list node) (cnt : Z) (clique cand excl : lset) : outcome Z :=
  match fuel with
  | O => Stuck
  | S f =>
    let cnt := cnt + 1 in
    if 200 <=? cnt then Ret cnt
    else if ls_is_empty cand && ls_is_empty excl then Ret cnt
    else
      match cand with
      | [] => Ret cnt
      | n :: _ =>
        let! nd := vread l (Z.to_nat n) in
        let! _ := bronKerbosch f l cnt (unionLabel clique n) (intersectionSet cand (adjacents nd)) (intersectionSet excl (adjacents nd)) in
        UB
      end
  end.

Definition with_nodes (c : cga) (l : list node) : cga := mkC l (dsrc c) (ddst c) (nsrc c) (ndst c) (tol c) (dmin c).

(** associate(std::vector<LabelSet>&), cpp 42-148; returns the object, the static counter and the vector, which is never written. *)
Definition associate (c : cga) (cnt : Z) (cliquesMax : list lset) : outcome (cga * Z * list lset) :=
  let! l := build c in
  let cand := fold_left (fun s i => fst (ls_insert s i)) (iota (Z.of_nat (length l))) ls_empty in
  let! cnt1 := bronKerbosch (S (Z.to_nat (200 - cnt))) l cnt ls_empty cand ls_empty in
  Ret (with_nodes c l, cnt1, cliquesMax).

(** convertToAssociation, cpp 163-168. *)
Fixpoint convert (l : list node) (s : lset) : outcome (list (Z * Z)) :=
  match s with
  | [] => Ret []
  | k :: r => let! n := vread l (Z.to_nat k) in let! t := convert l r in Ret ((isrc n, idst n) :: t)
  end.
Fixpoint convert_all (l : list node) (cs : list lset) : outcome (list (list (Z * Z))) :=
  match cs with [] => Ret [] | s :: r => let! a := convert l s in let! t := convert_all l r in Ret (a :: t) end.
(** associate(std::vector<AssociationHypothesis>&), cpp 150-161: the content of the argument is replaced. *)
Definition associate_hyp (c : cga) (cnt : Z) : outcome (cga * Z * list (list (Z * Z))) :=
  let! r := associate c cnt [] in
  let '(c1, cnt1, cs) := r in
  let! out := convert_all (nodes c1) cs in
  Ret (c1, cnt1, out).
