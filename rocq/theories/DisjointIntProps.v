(** * Property theorems: rofl::DisjointSet with ids of type int (C218-C219). *)
From Coq Require Import List ZArith Bool.
From Verif Require Import Base DisjointSetModel DisjointSetSpec DisjointIntModel DisjointIntProofs.
Import ListNotations.
Open Scope Z_scope.

(** C218 *)
Theorem C218_same_answers : forall n h, 0 <= n -> legal n h = true -> elements n h < 2 ^ 31 ->
  exists s t vs, run (initSets n) h = Ret (s, vs) /\ run_int (initSets_int n) h = Ret (t, vs) /\ inum t = setNum s /\ length (inodes t) = nodeNum s.
Proof. exact int_exact_lemma. Qed.
Print Assumptions C218_same_answers.
Theorem C218_connectivity : forall n h, 0 <= n -> legal n h = true -> elements n h < 2 ^ 31 ->
  exists t vs, run_int (initSets_int n) h = Ret (t, vs) /\
  forall a b, 0 <= a < elements n h -> 0 <= b < elements n h -> exists t1 t2 ra rb,
    find_int t a = Ret (t1, ra) /\ find_int t1 b = Ret (t2, rb) /\ (ra = rb <-> connected n h a b) /\ 0 <= ra < elements n h /\ connected n h a ra.
Proof. exact int_connectivity_lemma. Qed.
Print Assumptions C218_connectivity.
Example C218_case : let h := [OJoin 0 1; OFind 9; OMake; OJoin 2 3; OJoin 4 5; OJoin 1 3; OFind 3; OJoin 7 (-9); OSize 2; OJoin 0 2; OParents; OSetNum] in
  0 <= 5 /\ legal 5 h = true /\ elements 5 h < 2 ^ 31 /\
  exists t, run_int (initSets_int 5) h = Ret (t, [VId 0; VId 5; VId 5; VId 2; VId 4; VId 0; VId 0; VId 6; VNum 4; VId 6; VIds [0; 4]%nat; VNum 1]).
Proof. cbv zeta. split; [discriminate|]. split; [reflexivity|]. split; [reflexivity|]. eexists. vm_compute. reflexivity. Qed.

(** C219: false of the code at 2^31 elements: every find is refused, no join joins, size() and parents() are undefined. *)
Theorem C219_any_number_refuted : exists n h t vs, 0 <= n < 2 ^ 31 /\ legal n h = true /\ run_int (initSets_int n) h = Ret (t, vs) /\
  (forall a, 0 <= a < 2 ^ 31 -> 0 <= a < elements n h /\ find_int t a = Ret (t, - 2 ^ 31) /\ set_size_int t a = UB) /\
  (forall a b, 0 <= a < 2 ^ 31 -> 0 <= b < 2 ^ 31 -> join_int t a b = Ret (t, - 2 ^ 31)) /\ step_int t OParents = UB.
Proof. exact full_refuted_lemma. Qed.
Print Assumptions C219_any_number_refuted.
(** Whatever the state, once there are exactly 2^31 nodes. *)
Theorem C219_full_partial : forall t, Z.of_nat (length (inodes t)) = 2 ^ 31 ->
  (forall a, - 2 ^ 31 <= a < 2 ^ 31 -> find_int t a = Ret (t, - 2 ^ 31)) /\
  (forall a b, - 2 ^ 31 <= a < 2 ^ 31 -> - 2 ^ 31 <= b < 2 ^ 31 -> join_int t a b = Ret (t, - 2 ^ 31)) /\
  (forall a, - 2 ^ 31 <= a < 2 ^ 31 -> set_size_int t a = UB) /\ step_int t OParents = UB.
Proof. exact full_lemma. Qed.
Print Assumptions C219_full_partial.
Example C219_case : forall n, n = 2 ^ 31 - 1 -> exists t, run_int (initSets_int n) [OMake] = Ret (t, [VId n]) /\ Z.of_nat (length (inodes t)) = 2 ^ 31.
Proof. exact full_reached. Qed.
