(** * Property theorems for rofl::LabelSet (C08, C09). *)
From Coq Require Import List ZArith Sorted.
From Verif Require Import Base LabelSetModel LabelSetSpec LabelSetProofs.
Import ListNotations.
Open Scope Z_scope.

(** C08 *)
Theorem C08_set_algebra : forall e, StronglySorted Z.lt (eval e) /\
  (forall x, In x (eval e) <-> denote e x) /\
  (forall x, inside (eval e) x = true <-> denote e x) /\
  (forall x, snd (ls_insert (eval e) x) = true <-> denote e x) /\
  (ls_is_empty (eval e) = true <-> forall x, ~ denote e x) /\
  (exists l, NoDup l /\ (forall x, In x l <-> denote e x) /\ ls_size (eval e) = length l).
Proof. exact set_algebra_lemma. Qed.
Print Assumptions C08_set_algebra.
Example C08_case : eval (EDiff (EUnion (ERange [5; 1; 5; -2]) (EInsert (ERange [7]) 1)) (EInter (ERange [1; 9]) (ERange [9; 1; 4]))) = [-2; 5; 7].
Proof. vm_compute. reflexivity. Qed.

(** C09: false of the code; holds for sets of equal size; exact behaviour in all cases. *)
Theorem C09_equality_refuted : exists e1 e2 x,
  ls_eq (eval e1) (eval e2) = Ret true /\ denote e2 x /\ ~ denote e1 x /\
  ls_eq (eval e2) (eval e1) = UB.
Proof. exact ls_eq_refuted_lemma. Qed.
Print Assumptions C09_equality_refuted.

Theorem C09_equality_same_size_partial : forall e1 e2, ls_size (eval e1) = ls_size (eval e2) ->
  exists b, ls_eq (eval e1) (eval e2) = Ret b /\ ls_neq (eval e1) (eval e2) = Ret (negb b) /\
    (b = true <-> forall x, denote e1 x <-> denote e2 x).
Proof. exact ls_eq_same_size_lemma. Qed.
Print Assumptions C09_equality_same_size_partial.
Example C09_case : ls_size (eval (ERange [3; 4; 3])) = ls_size (eval (EInsert (ERange [4]) 9)).
Proof. reflexivity. Qed.

(** == is true exactly when the left labels form an initial segment of the right ones, and
    reads past the end exactly when the right labels form a proper initial segment of the left ones. *)
Theorem C09_equality_exact : forall e1 e2,
  (ls_eq (eval e1) (eval e2) = Ret true <-> exists t, eval e2 = eval e1 ++ t) /\
  (ls_eq (eval e1) (eval e2) = UB <-> exists a t, eval e1 = eval e2 ++ a :: t).
Proof. exact ls_eq_exact_lemma. Qed.
Print Assumptions C09_equality_exact.
