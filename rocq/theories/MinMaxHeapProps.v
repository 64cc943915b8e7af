(** * Property theorems for rofl::MinMaxHeap (C10 - C15). *)
From Coq Require Import List ZArith Permutation.
From Verif Require Import Base MinMaxHeapModel MinMaxHeapSpec MinMaxHeapRun MinMaxHeapWitness.
Import ListNotations.

(** C10 *)
Theorem C10_multiset : forall (A : Type) (cmp : A -> A -> bool),
  (forall h d es, hrun cmp [] h = Ret (d, es) -> Permutation (pushed es) (popped es ++ d) /\ Forall2 ev_of h es) /\
  (forall d x d', push cmp d x = Ret d' -> Permutation (x :: d) d') /\
  (forall d d', popTop cmp d = Ret d' -> exists x, top d = Ret x /\ Permutation d (x :: d')) /\
  (forall d d', popBottom cmp d = Ret d' -> exists x, bottom cmp d = Ret x /\ Permutation d (x :: d')).
Proof. exact @multiset_lemma. Qed.
Print Assumptions C10_multiset.
Example C10_case : hrun Z.ltb [] [HPush 3; HPush 3; HPush 1; HPush 8; HPopTop; HPopBottom; HPush 5]%Z =
  Ret ([3; 3; 5], [EvPush 3; EvPush 3; EvPush 1; EvPush 8; EvPopTop 1; EvPopBottom 8; EvPush 5])%Z.
Proof. vm_compute. reflexivity. Qed.

(** C11: pushes, duplicates allowed (popBottom may be interleaved as well). *)
Theorem C11_extremes_push : forall (A : Type) (cmp : A -> A -> bool), StrictWeak cmp ->
  forall h d es, no_popTop h = true -> hrun cmp [] h = Ret (d, es) -> d <> [] ->
  (exists x, top d = Ret x /\ is_min cmp d x) /\ (exists y, bottom cmp d = Ret y /\ is_max cmp d y).
Proof. exact @extremes_push_lemma. Qed.
Print Assumptions C11_extremes_push.
Example C11_case : StrictWeak Z.ltb /\ hrun Z.ltb [] (map HPush [3; 3; 1; 8; 1; 8; 4; 3])%Z =
  Ret ([1; 8; 8; 3; 1; 3; 4; 3], map EvPush [3; 3; 1; 8; 1; 8; 4; 3])%Z.
Proof. split; [exact Zltb_StrictWeak|vm_compute; reflexivity]. Qed.

(** C12: whenever popTop is called the stored elements are pairwise inequivalent. *)
Theorem C12_extremes_distinct : forall (A : Type) (cmp : A -> A -> bool), StrictWeak cmp ->
  forall h d es, few_copies cmp 1 [] h -> hrun cmp [] h = Ret (d, es) -> d <> [] ->
  (exists x, top d = Ret x /\ is_min cmp d x) /\ (exists y, bottom cmp d = Ret y /\ is_max cmp d y).
Proof. exact @extremes1_lemma. Qed.
Print Assumptions C12_extremes_distinct.
Example C12_case : let h := ([HPush 9; HPush 3; HPush 7; HPush 1; HPush 8; HPush 2; HPopTop; HPush 5; HPopBottom; HPopTop])%Z in
  few_copies Z.ltb 1 [] h /\ exists es, hrun Z.ltb [] h = Ret ([3; 8; 7; 5], es)%Z.
Proof. exact C12_case_lemma. Qed.

(** C13: false for arbitrary duplicates: three equivalent elements suffice to lose the maximum and the minimum... *)
Theorem C13_extremes_duplicates_refuted : StrictWeak Z.ltb /\
  (exists h d es y, few_copies Z.ltb 3 [] h /\ hrun Z.ltb [] h = Ret (d, es) /\
     bottom Z.ltb d = Ret y /\ exists w, In w d /\ (y < w)%Z) /\
  (exists h d es x, few_copies Z.ltb 3 [] h /\ hrun Z.ltb [] h = Ret (d, es) /\
     top d = Ret x /\ exists w, In w d /\ (w < x)%Z).
Proof. exact duplicates_refuted_lemma. Qed.
Print Assumptions C13_extremes_duplicates_refuted.

(** ... and true as long as no element has more than two equivalent copies when popTop is called. *)
Theorem C13_extremes_two_copies_partial : forall (A : Type) (cmp : A -> A -> bool), StrictWeak cmp ->
  forall h d es, few_copies cmp 2 [] h -> hrun cmp [] h = Ret (d, es) -> d <> [] ->
  (exists x, top d = Ret x /\ is_min cmp d x) /\ (exists y, bottom cmp d = Ret y /\ is_max cmp d y).
Proof. exact @extremes2_lemma. Qed.
Print Assumptions C13_extremes_two_copies_partial.
Example C13_case : let h := ([HPush 3; HPush 3; HPush 1; HPush 1; HPush 8; HPush 8; HPopTop; HPush 1; HPopBottom; HPopTop])%Z in
  few_copies Z.ltb 2 [] h /\ exists es, hrun Z.ltb [] h = Ret ([1; 3; 8; 3], es)%Z.
Proof. exact C13_case_lemma. Qed.

(** More generally, when every element with more than two copies is last in order at each popTop. *)
Theorem C13_extremes_tame_partial : forall (A : Type) (cmp : A -> A -> bool), StrictWeak cmp ->
  forall h d es, tame_pops cmp [] h -> hrun cmp [] h = Ret (d, es) -> d <> [] ->
  (exists x, top d = Ret x /\ is_min cmp d x) /\ (exists y, bottom cmp d = Ret y /\ is_max cmp d y).
Proof. exact @extremes_tame_lemma. Qed.
Print Assumptions C13_extremes_tame_partial.
Example C13_case_tame : let h := (map HPush [9; 9; 9; 1; 9; 9; 1; 9] ++ [HPopTop; HPush 0; HPopTop; HPopBottom])%Z in
  tame_pops Z.ltb [] h /\ copies Z.ltb 9%Z [1; 9; 9; 9; 9; 9]%Z = 5 /\ exists es, hrun Z.ltb [] h = Ret ([1; 9; 9; 9; 9; 9], es)%Z.
Proof. exact tame_case_lemma. Qed.

(** C146: false; fourteen calls on two values suffice to lose the minimum, without popBottom. *)
Theorem C146_queue_refuted : exists h d es x w, no_popBottom h = true /\ hrun Z.ltb [] h = Ret (d, es) /\ top d = Ret x /\ In w d /\ (w < x)%Z.
Proof. exact queue_refuted_lemma. Qed.
Print Assumptions C146_queue_refuted.
(** What holds: at most two copies at each popTop of every element but the last in order (missing: more copies). *)
Theorem C146_queue_partial : forall (A : Type) (cmp : A -> A -> bool), StrictWeak cmp ->
  forall h d es, no_popBottom h = true -> tame_pops cmp [] h -> hrun cmp [] h = Ret (d, es) -> d <> [] -> exists x, top d = Ret x /\ is_min cmp d x.
Proof. intros A cmp SW h d es _ Ht E Hne. apply (extremes_tame_lemma cmp SW h d es Ht E Hne). Qed.
Print Assumptions C146_queue_partial.
Example C146_case : no_popBottom (map HPush [4; 4; 4; 1; 1; 4] ++ [HPopTop; HPush 1; HPopTop])%Z = true /\
  tame_pops Z.ltb [] (map HPush [4; 4; 4; 1; 1; 4] ++ [HPopTop; HPush 1; HPopTop])%Z.
Proof. split; [reflexivity|]. apply tameb_spec. vm_compute. reflexivity. Qed.

(** C14: false for nextTop with four or five elements and for nextBottom with four or more. *)
Theorem C14_next_refuted :
  (exists h d es v, no_popTop h = true /\ hrun Z.ltb [] h = Ret (d, es) /\ 2 <= length d /\
     nextTop Z.ltb d = Ret v /\ ~ is_second_min Z.ltb d v) /\
  (exists h d es v, no_popTop h = true /\ hrun Z.ltb [] h = Ret (d, es) /\ 2 <= length d /\
     nextBottom Z.ltb d = Ret v /\ ~ is_second_max Z.ltb d v).
Proof. exact next_refuted_lemma. Qed.
Print Assumptions C14_next_refuted.

Theorem C14_next_sizes_partial : forall (A : Type) (cmp : A -> A -> bool), StrictWeak cmp ->
  forall h d es, few_copies cmp 2 [] h -> hrun cmp [] h = Ret (d, es) ->
  ((2 <= length d <= 3 \/ 6 <= length d) -> exists v, nextTop cmp d = Ret v /\ is_second_min cmp d v) /\
  (2 <= length d <= 3 -> exists v, nextBottom cmp d = Ret v /\ is_second_max cmp d v).
Proof. exact @next_lemma. Qed.
Print Assumptions C14_next_sizes_partial.
Example C14_case : exists d es, few_copies Z.ltb 2 [] (map HPush [3; 9; 1; 8; 2; 8; 4; 3])%Z /\
  hrun Z.ltb [] (map HPush [3; 9; 1; 8; 2; 8; 4; 3])%Z = Ret (d, es) /\ 6 <= length d /\ nextTop Z.ltb d = Ret 2%Z.
Proof. exact C14_case_lemma. Qed.

(** C15: any comparator, any contents. *)
Theorem C15_memory_safety : forall (A : Type) (cmp : A -> A -> bool),
  (forall h, (pops_ok 0 h = true -> exists r, hrun cmp [] h = Ret r) /\ (pops_ok 0 h = false -> hrun cmp [] h = Exit)) /\
  (forall d x, exists d', push cmp d x = Ret d') /\
  (forall d, d <> [] -> exists d1 d2 t b nt nb, popTop cmp d = Ret d1 /\ popBottom cmp d = Ret d2 /\
     top d = Ret t /\ bottom cmp d = Ret b /\ nextTop cmp d = Ret nt /\ nextBottom cmp d = Ret nb /\
     In t d /\ In b d /\ In nt d /\ In nb d) /\
  popTop cmp [] = Exit /\ popBottom cmp [] = Exit /\ @top A [] = Exit /\ bottom cmp [] = Exit /\
  nextTop cmp [] = Exit /\ nextBottom cmp [] = Exit.
Proof. exact @memory_lemma. Qed.
Print Assumptions C15_memory_safety.
Example C15_case : pops_ok 0 [HPush 1; HPush 2; HPopTop; HPopBottom]%Z = true /\ pops_ok 0 [HPush 1; HPopTop; HPopBottom]%Z = false.
Proof. split; reflexivity. Qed.
