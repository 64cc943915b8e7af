(** * Property theorems for directory listings (C63, C111, C112). *)
From Coq Require Import List NArith Permutation.
From Verif Require Import IoModel IoSpec IoProofs.
Import ListNotations.

(** C63 *)
Theorem C63_listing : forall dir d v, readable d ->
  exists w l, getDirectoryFiles dir (Some d) v = Done w /\ regular_files dir d l /\ Permutation w (v ++ l) /\ ascending w.
Proof.
  intros dir d v R. destruct (getDirectoryFiles_ok dir d v R) as (w & H). exists w, (listed dir d). split; [apply H|]. split; [apply listed_ok|apply H].
Qed.
Print Assumptions C63_listing.
Definition ex_dir : directory := [([98%N], Regular); ([99%N], Other); ([97%N], Regular)].
Example C63_case : readable ex_dir /\ getDirectoryFiles [100%N] (Some ex_dir) [[101%N]] = Done [[100%N; 47%N; 97%N]; [100%N; 47%N; 98%N]; [101%N]].
Proof. split; [intros e [<-|[<-|[<-|[]]]]; discriminate|reflexivity]. Qed.

(** C111 *)
Theorem C111_order : forall dir d d' v v', readable d -> Permutation d d' -> Permutation v v' ->
  getDirectoryFiles dir (Some d) v = getDirectoryFiles dir (Some d') v'.
Proof. exact order_irrelevant. Qed.
Print Assumptions C111_order.
Example C111_case : readable ex_dir /\ Permutation ex_dir (rev ex_dir).
Proof. split; [apply C63_case|apply Permutation_rev]. Qed.

(** C112: files met before the failing entry stay appended, unsorted; a missing directory leaves the vector alone. *)
Theorem C112_throw_refuted : exists dir d v w, getDirectoryFiles dir d v = Thrown w /\ w <> v.
Proof. exists [], (Some [([97%N], Regular); ([98%N], Failing)]), [], [[97%N]]. split; [reflexivity|discriminate]. Qed.
Print Assumptions C112_throw_refuted.
Theorem C112_throw_partial : forall dir v,
  getDirectoryFiles dir None v = Thrown v /\
  (forall d w, getDirectoryFiles dir (Some d) v = Thrown w ->
    exists d1 name d2 l, d = d1 ++ (name, Failing) :: d2 /\ readable d1 /\ regular_files dir d1 l /\ w = v ++ l).
Proof.
  intros dir v. split; [reflexivity|]. intros d w H. destruct (thrown_prefix _ _ _ _ H) as (d1 & n & d2 & H1 & H2 & H3).
  exists d1, n, d2, (listed dir d1). split; [exact H1|]. split; [exact H2|]. split; [apply listed_ok|exact H3].
Qed.
Print Assumptions C112_throw_partial.
Example C112_case : getDirectoryFiles [] (Some [([97%N], Regular); ([98%N], Failing)]) [] = Thrown [[97%N]].
Proof. reflexivity. Qed.
