(** * ScopedTimer and ROFL_COMMON_PROFILER_SCOPED_TIMER_HERE: common/src/profiler.cpp 62-83, common/include/rofl/common/profiler.h 26, 113-140.

    Programs are sequences of work that takes a whole number of nanoseconds, blocks that begin with a ScopedTimer variable, and uses of
    the macro, which expands to the construction of an unnamed ScopedTimer: a temporary, destroyed at the end of its statement.  The
    clock is steady and advances during work only; times are exact rationals as in ProfilerModel.v. *)
From Coq Require Import List ZArith QArith.
From Verif Require Import Base ParamModel ProfilerModel.
Import ListNotations.
Open Scope Z_scope.

Inductive prog : Type :=
| Done
| Work (ns : Z) (rest : prog)
| Scope (label : str) (body rest : prog)
| Here (label : str) (rest : prog).

(** The clock in nanoseconds and the statistics of the only Profiler. *)
Definition world : Type := Z * stats.
(** Constructor 62-64: the label and the time of the clock. *)
Definition timer : Type := str * Z.
Definition construct (w : world) (label : str) : timer := (label, fst w).
(** elapsedTimeMs 70-75. *)
Definition elapsedTimeMs (t : timer) (w : world) : Q := (inject_Z (fst w - snd t) / 1000000)%Q.
(** Destructor 66-68. *)
Definition destruct_ (t : timer) (w : world) : world := (fst w, updateStat (snd w) (fst t) (elapsedTimeMs t w)).

Fixpoint exec (p : prog) (w : world) : world :=
  match p with
  | Done => w
  | Work ns rest => exec rest (fst w + ns, snd w)
  | Scope label body rest => let t := construct w label in exec rest (destruct_ t (exec body w))
  | Here label rest => let t := construct w label in exec rest (destruct_ t w)
  end.
