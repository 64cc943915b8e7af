(** * Property theorems for rofl::DisjointSet (C01-C07). *)
From Coq Require Import List ZArith Relations Sorted.
From Verif Require Import Base DisjointSetModel DisjointSetSpec DisjointSetProofs.
Import ListNotations.
Open Scope Z_scope.

(** A history used to show that the hypotheses below are met by a non-trivial case. *)
Definition demo : list op :=
  [OJoin 0 1; OFind 9; OMake; OJoin 2 3; OJoin 4 5; OJoin 1 3; OFind 3; OJoin 7 9; OSize 2; OJoin 0 2; OParents; OSetNum].
Example demo_legal : 0 <= 5 /\ legal 5 demo = true /\ elements 5 demo = 6 /\ links 5 demo = [(0,1); (2,3); (4,5); (1,3); (0,2)].
Proof. repeat split; vm_compute; congruence. Qed.
Example demo_run : exists s, run (initSets 5) demo =
  Ret (s, [VId 0; VId 5; VId 5; VId 2; VId 4; VId 0; VId 0; VId 6; VNum 4; VId 6; VIds [0; 4]%nat; VNum 1]).
Proof. eexists. vm_compute. reflexivity. Qed.

(** C01 *)
Theorem C01_find_decides_connectivity : forall n h, 0 <= n -> legal n h = true ->
  exists s vs, run (initSets n) h = Ret (s, vs) /\
  forall a b, 0 <= a < elements n h -> 0 <= b < elements n h ->
  exists s1 s2 s3 ra rb,
    find s a = Ret (s1, ra) /\ find s1 b = Ret (s2, rb) /\
    (ra = rb <-> connected n h a b) /\
    Z.of_nat ra < elements n h /\ connected n h a (Z.of_nat ra) /\
    find s2 (Z.of_nat ra) = Ret (s3, ra).
Proof. exact find_connected_lemma. Qed.
Print Assumptions C01_find_decides_connectivity.

(** A default-constructed structure is one of zero elements: all theorems with [n] = 0 apply to it. *)
Theorem C01_default_constructor : ds_empty = initSets 0.
Proof. reflexivity. Qed.
Print Assumptions C01_default_constructor.

(** C02 *)
Theorem C02_size_counts_class : forall n h, 0 <= n -> legal n h = true ->
  exists s vs, run (initSets n) h = Ret (s, vs) /\
  forall a, 0 <= a < elements n h ->
  exists s' k l, set_size s a = Ret (s', k) /\ class_of (elements n h) (connected n h) a l /\ k = length l.
Proof. exact size_lemma. Qed.
Print Assumptions C02_size_counts_class.

Theorem C02_setNum_counts_classes : forall n h, 0 <= n -> legal n h = true -> no_make h = true ->
  exists s vs l, run (initSets n) h = Ret (s, vs) /\
  transversal (elements n h) (connected n h) l /\ setNum s = Z.of_nat (length l).
Proof. exact setNum_lemma. Qed.
Print Assumptions C02_setNum_counts_classes.
Example C02_case : legal 4 [OJoin 0 1; OJoin 2 1] = true /\ no_make [OJoin 0 1; OJoin 2 1] = true.
Proof. split; reflexivity. Qed.

(** C03: false of the code; and exactly by how much. *)
Theorem C03_setNum_makeSet_refuted : exists n h s vs l, 0 <= n /\ legal n h = true /\
  run (initSets n) h = Ret (s, vs) /\ transversal (elements n h) (connected n h) l /\
  setNum s <> Z.of_nat (length l).
Proof. exact setNum_make_refuted_lemma. Qed.
Print Assumptions C03_setNum_makeSet_refuted.

Theorem C03_setNum_makeSet_partial : forall n h, 0 <= n -> legal n h = true ->
  exists s vs l, run (initSets n) h = Ret (s, vs) /\
  transversal (elements n h) (connected n h) l /\ setNum s = Z.of_nat (length l) - makes h.
Proof. exact setNum_gen_lemma. Qed.
Print Assumptions C03_setNum_makeSet_partial.
Example C03_case : makes demo = 1. Proof. reflexivity. Qed.

(** C04: inserting a find anywhere changes no later answer. *)
Theorem C04_find_observably_pure : forall n h a h', 0 <= n -> legal n (h ++ h') = true ->
  exists s vs s1 r s2 s2' vs', run (initSets n) h = Ret (s, vs) /\ find s a = Ret (s1, r) /\
    run s h' = Ret (s2, vs') /\ run s1 h' = Ret (s2', vs').
Proof. exact find_pure_lemma. Qed.
Print Assumptions C04_find_observably_pure.
(** ... although the internal links do change. *)
Example C04_case : exists s1 s2, run (initSets 5) [OJoin 0 1; OJoin 2 3; OJoin 0 2] = Ret s1 /\
  find (fst s1) 3 = Ret s2 /\ nodes (fst s1) <> nodes (fst s2) /\ legal 5 ([OJoin 0 1; OJoin 2 3; OJoin 0 2] ++ demo) = true.
Proof. do 2 eexists. split; [vm_compute; reflexivity|]. split; [vm_compute; reflexivity|]. split; [discriminate|reflexivity]. Qed.

(** C05 *)
Theorem C05_find_out_of_range : forall s a, in_range (Z.of_nat (nodeNum s)) a = false -> find s a = Ret (s, nodeNum s).
Proof. exact find_out_of_range. Qed.
Print Assumptions C05_find_out_of_range.

Theorem C05_join_same_set : forall n h a b, 0 <= n -> legal n h = true ->
  0 <= a < elements n h -> 0 <= b < elements n h -> connected n h a b ->
  exists s vs s', run (initSets n) h = Ret (s, vs) /\ join s a b = Ret (s', nodeNum s) /\
    setNum s' = setNum s /\ parents s' = parents s /\
    (forall x y, connected n (h ++ [OJoin a b]) x y <-> connected n h x y).
Proof. exact same_set_join_lemma. Qed.
Print Assumptions C05_join_same_set.
Example C05_case : connected 3 [OJoin 0 1] 0 1.
Proof. apply rst_step. simpl. auto. Qed.

(** Every legal history runs without undefined behaviour and terminates. *)
Theorem C05_legal_histories_safe : forall n h, 0 <= n -> legal n h = true ->
  exists s vs, run (initSets n) h = Ret (s, vs).
Proof. exact legal_safe_lemma. Qed.
Print Assumptions C05_legal_histories_safe.

(** Outside that precondition the code has no defined behaviour. *)
Theorem C05_join_one_invalid_id_undefined : forall n h a b, 0 <= n -> legal n h = true ->
  in_range (elements n h) a <> in_range (elements n h) b ->
  exists s vs, run (initSets n) h = Ret (s, vs) /\ join s a b = UB.
Proof. exact join_one_invalid_lemma. Qed.
Print Assumptions C05_join_one_invalid_id_undefined.

Theorem C05_size_invalid_id_undefined : forall s a, in_range (Z.of_nat (nodeNum s)) a = false -> set_size s a = UB.
Proof. exact size_invalid_lemma. Qed.
Print Assumptions C05_size_invalid_id_undefined.

(** C06 *)
Theorem C06_parents_one_per_set : forall n h, 0 <= n -> legal n h = true ->
  exists s vs, run (initSets n) h = Ret (s, vs) /\
  StronglySorted lt (parents s) /\
  transversal (elements n h) (connected n h) (map Z.of_nat (parents s)) /\
  (forall r, In r (parents s) <-> exists a s', 0 <= a < elements n h /\ find s a = Ret (s', r)).
Proof. exact parents_lemma. Qed.
Print Assumptions C06_parents_one_per_set.

(** C07 *)
Theorem C07_trees_shallow : forall n h, 0 <= n -> legal n h = true ->
  exists s vs, run (initSets n) h = Ret (s, vs) /\
  forall a, 0 <= a < elements n h ->
  exists k r l, walk (S k) (nodes s) (Z.to_nat a) = Ret r /\
    class_of (elements n h) (connected n h) a l /\ (2 ^ k <= length l)%nat.
Proof. exact shallow_lemma. Qed.
Print Assumptions C07_trees_shallow.
