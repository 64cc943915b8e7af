(** * Console and assertion macros: common/include/rofl/common/macros.h 24-77.

    A use of a macro is given by its arguments: the source text of each (the operator # of the preprocessor) and what evaluating the
    expression does: the text that operator<< writes for its value and its side effect on the state [W] of the program.  The operands
    of << are evaluated from left to right (C++17, CMakeLists.txt 5-7).  Texts of std::cout and std::cerr are kept apart.  Stream
    failures, exceptions of the arguments, formatting flags changed by the arguments and the syntax of the surrounding statement are
    not modelled. *)
From Coq Require Import List ZArith String Decimal DecimalString.
From Verif Require Import Base.
Import ListNotations.
Open Scope string_scope.

Record arg (W : Type) : Type := Arg { text : string; eval : W -> string * W }.
Arguments Arg {W} text eval.
Arguments text {W}.
Arguments eval {W}.

(** Where the macro is used: __FILE__ as written, its last component (ROFL_FILENAME 28) and __LINE__. *)
Record place : Type := Place { path : string; filename : string; line : nat }.
Definition put_nat (n : nat) : string := NilZero.string_of_uint (Nat.to_uint n).
Definition newline : string := String (Ascii.ascii_of_nat 10) EmptyString.

(** The operands of <<: [Loc] is ROFL_FILENAME(__FILE__) << "," << __LINE__ << ": "; [Nm i] is #X(i+1), [Vl i] is (X(i+1)). *)
Inductive item : Type := Loc | Lit (s : string) | Nm (i : nat) | Vl (i : nat) | Endl.
(** 34. *)
Definition ROFL_VAR1 : list item := [Loc; Nm 0; Lit " "; Vl 0; Endl].
(** 36-37. *)
Definition ROFL_VAR2 : list item := [Loc; Nm 0; Lit " "; Vl 0; Lit ", "; Nm 1; Lit " "; Vl 1; Endl].
(** 39-40. *)
Definition ROFL_VAR3 : list item := [Loc; Nm 0; Lit " "; Vl 0; Lit ", "; Nm 1; Lit " "; Vl 1; Lit ", "; Nm 2; Lit " "; Vl 2; Endl].
(** 42-43. *)
Definition ROFL_VAR4 : list item := [Loc; Nm 0; Lit " "; Vl 0; Lit ", "; Nm 1; Lit " "; Vl 1; Lit ", "; Nm 2; Lit " "; Vl 2; Lit ", "; Nm 3; Lit " "; Vl 3; Endl].
(** 45-47. *)
Definition ROFL_VAR5 : list item := [Loc; Nm 0; Lit " "; Vl 0; Lit ", "; Nm 1; Lit " "; Vl 1; Lit ", "; Nm 2; Lit " "; Vl 2; Lit ", "; Nm 3; Lit " "; Vl 3; Lit ", "; Nm 4; Lit " "; Vl 4; Endl].
(** 49-51. *)
Definition ROFL_VAR6 : list item := [Loc; Nm 0; Lit " "; Vl 0; Lit ", "; Nm 1; Lit " "; Vl 1; Lit ", "; Nm 2; Lit " "; Vl 2; Lit ", "; Nm 3; Lit " "; Vl 3; Lit ", "; Nm 4; Lit " "; Vl 4; Lit ", "; Nm 5; Lit " "; Vl 5; Endl].
(** 53-55. *)
Definition ROFL_VAR7 : list item := [Loc; Nm 0; Lit " "; Vl 0; Lit ", "; Nm 1; Lit " "; Vl 1; Lit ", "; Nm 2; Lit " "; Vl 2; Lit ", "; Nm 3; Lit " "; Vl 3; Lit ", "; Nm 4; Lit " "; Vl 4; Lit ", "; Nm 5; Lit " "; Vl 6; Lit ", "; Nm 6; Lit " "; Vl 6; Endl].

(** std::cout << item << ... : the text written and the state afterwards; [None] when the macro has too few arguments (it does not
    compile). *)
Fixpoint run {W} (pl : place) (args : list (arg W)) (l : list item) (w : W) : option (string * W) :=
  match l with
  | [] => Some ("", w)
  | i :: t =>
    match (match i with
           | Loc => Some (filename pl ++ "," ++ put_nat (line pl) ++ ": ", w)
           | Lit s => Some (s, w)
           | Nm k => option_map (fun a => (text a, w)) (nth_error args k)
           | Vl k => option_map (fun a => eval a w) (nth_error args k)
           | Endl => Some (newline, w)
           end) with
    | None => None
    | Some (s, w1) => match run pl args t w1 with None => None | Some (r, w2) => Some (s ++ r, w2) end
    end
  end.

(** What a statement does: goes on with a state, or stops by exit with the given argument; with the texts of std::cout and std::cerr. *)
Inductive fate (W : Type) : Type := Goes (w : W) | Stops (w : W) (status : Z).
Arguments Goes {W} w.
Arguments Stops {W} w status.
Definition effect (W : Type) : Type := string * string * fate W.

(** ROFL_ASSERT 57 ([None]) and ROFL_ASSERT_VAR1 ... 5 59-77: the condition is evaluated once; [cond] is its source text. *)
Definition rofl_assert {W} (pl : place) (condText : string) (cond : W -> bool * W) (print : option (list item)) (args : list (arg W)) (w : W) : option (effect W) :=
  let '(b, w1) := cond w in
  if negb b then
    let err := path pl ++ "," ++ put_nat (line pl) ++ ": assertion failed on " ++ condText ++ newline in
    match print with
    | None => Some ("", err, Stops w1 (-1))
    | Some l => match run pl args l w1 with None => None | Some (out, w2) => Some (out, err, Stops w2 (-1)) end
    end
  else Some ("", "", Goes w1).
(** The list printed by ROFL_ASSERT_VARn. *)
Definition assert_var (n : nat) : option (list item) :=
  match n with
  | 0%nat => None | 1%nat => Some ROFL_VAR1 | 2%nat => Some ROFL_VAR2 | 3%nat => Some ROFL_VAR3 | 4%nat => Some ROFL_VAR4 | _ => Some ROFL_VAR5
  end.
Definition rofl_var (n : nat) : list item :=
  match n with
  | 1%nat => ROFL_VAR1 | 2%nat => ROFL_VAR2 | 3%nat => ROFL_VAR3 | 4%nat => ROFL_VAR4 | 5%nat => ROFL_VAR5 | 6%nat => ROFL_VAR6 | _ => ROFL_VAR7
  end.
