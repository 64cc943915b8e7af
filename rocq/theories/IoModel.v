(** * common/src/io.cpp: getDirectoryFiles 49-59.

    A string is its list of bytes.  A directory is what std::filesystem::directory_iterator enumerates: names with the kind of
    the entry, in an unspecified order; [None] is a path that is not a readable directory.  Exceptions end the call with
    [Thrown v], [v] being the content of the vector at that moment; errors while advancing the iterator are not modelled.
    std::sort on strings is modelled by insertion sort: the order of strings is total, so the sorted sequence is unique.
    generateStampedString (61-73) is in StampModel.v. *)
From Coq Require Import List NArith Bool.
Import ListNotations.

Definition bytes : Type := list N.

(** operator< of std::string: lexicographic on unsigned bytes. *)
Fixpoint slt (a b : bytes) : bool :=
  match a, b with
  | _, [] => false
  | [], _ :: _ => true
  | x :: s, y :: t => if N.ltb x y then true else if N.ltb y x then false else slt s t
  end.

(** Kind of an entry as seen by is_regular_file() (54): yes, no, or the status query throws. *)
Inductive kind : Type := Regular | Other | Failing.
Definition directory : Type := list (bytes * kind).

(** i.path(): the directory's path / name (separator added unless the path is empty or ends with one). *)
Definition join (dir name : bytes) : bytes :=
  match dir with [] => name | _ => if N.eqb (last dir 0%N) 47 then dir ++ name else dir ++ 47%N :: name end.

Inductive result : Type := Done (v : list bytes) | Thrown (v : list bytes).

(** 53-57. *)
Fixpoint list_loop (dir : bytes) (entries : directory) (v : list bytes) : result :=
  match entries with
  | [] => Done v
  | (name, Regular) :: t => list_loop dir t (v ++ [join dir name])
  | (name, Other) :: t => list_loop dir t v
  | (name, Failing) :: t => Thrown v
  end.

Fixpoint insert (x : bytes) (l : list bytes) : list bytes :=
  match l with [] => [x] | y :: t => if slt y x then y :: insert x t else x :: y :: t end.
Definition sort (l : list bytes) : list bytes := fold_right insert [] l.

Definition getDirectoryFiles (dirPath : bytes) (d : option directory) (matchingFiles : list bytes) : result :=
  match d with
  | None => Thrown matchingFiles
  | Some entries => match list_loop dirPath entries matchingFiles with Done v => Done (sort v) | Thrown v => Thrown v end
  end.
