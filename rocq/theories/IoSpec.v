(** * Directory listings, said independently. *)
From Coq Require Import List NArith Bool Permutation.
From Verif Require Import IoModel.
Import ListNotations.
(** Order of the bytes of two strings: equal, or the first is a proper prefix, or smaller at the first difference. *)
Definition not_after (a b : bytes) : Prop :=
  a = b \/ (exists y t, b = a ++ y :: t) \/ (exists p x s y t, a = p ++ x :: s /\ b = p ++ y :: t /\ (x < y)%N).
(** Every element stands before the later ones. *)
Definition ascending (v : list bytes) : Prop := forall i j a b, (i < j)%nat -> nth_error v i = Some a -> nth_error v j = Some b -> not_after a b.
(** [p] is the path of [name] inside [dir]: one separator (47) between them, none after an empty directory. *)
Definition path_in (dir name p : bytes) : Prop :=
  (dir = [] /\ p = name) \/ (exists d, dir = d ++ [47%N] /\ p = d ++ [47%N] ++ name) \/
  (dir <> [] /\ (forall d, dir <> d ++ [47%N]) /\ p = dir ++ [47%N] ++ name).
(** [l] lists the full paths of the regular files of the directory. *)
Definition regular_files (dir : bytes) (d : directory) (l : list bytes) : Prop :=
  Forall2 (path_in dir) (map fst (filter (fun e => match snd e with Regular => true | _ => false end) d)) l.
Definition readable (d : directory) : Prop := forall e, In e d -> snd e <> Failing.
