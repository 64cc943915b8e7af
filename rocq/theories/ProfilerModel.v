(** * Profiler: common/include/rofl/common/profiler.h and common/src/profiler.cpp.

    Times are exact rationals (rounding, NaN and infinities are outside the model), labels are strings as in ParamModel.  The
    counter is unbounded.  Clock reading (ScopedTimer cpp 68-83) is not modelled: a destructor call is one updateStat. *)
From Coq Require Import List ZArith QArith Bool.
From Verif Require Import Base ParamModel.
Import ListNotations.
Open Scope Q_scope.

(** MeasureStatistic h 44-61. *)
Record stat := mkstat { timeAvg : Q; timeVar : Q; timeMin : Q; timeMax : Q; count : Z }.
Definition newStat (time : Q) : stat := mkstat time 0 time time 1.
(** getVariance h 54-60. *)
Definition getVariance (s : stat) : Q := if (1 <? count s)%Z then timeAvg s / inject_Z (count s - 1) else 0.

Definition qltb (a b : Q) : bool := negb (Qle_bool b a).
(** Else-branch of updateStat cpp 31-43. *)
Definition update (s : stat) (time : Q) : stat :=
  let timeAvgOld := timeAvg s in
  let avg := timeAvg s + (time - timeAvgOld) / inject_Z (count s) in
  mkstat avg
         (timeVar s + (time - avg) * (time - timeAvgOld))
         (if qltb time (timeMin s) then time else timeMin s)
         (if qltb (timeMax s) time then time else timeMax s)
         (count s + 1).

(** stats_ h 89: std::map from label to statistic, in key order; find and in-place update, or insert (cpp 26-44). *)
Definition stats := list (str * stat).
Fixpoint sfind (k : str) (m : stats) : option stat :=
  match m with
  | [] => None
  | (k', s) :: r => if str_eqb k k' then Some s else sfind k r
  end.
Fixpoint updateStat (m : stats) (k : str) (time : Q) : stats :=
  match m with
  | [] => [(k, newStat time)]
  | (k', s) :: r =>
    if str_eqb k k' then (k', update s time) :: r
    else if str_ltb k k' then (k, newStat time) :: m
    else (k', s) :: updateStat r k time
  end.

(** printStats cpp 46-56: one line per label; label, average, variance, minimum, maximum, count. *)
Definition printStats (m : stats) : list (str * Q * Q * Q * Q * Z) :=
  map (fun p => (fst p, timeAvg (snd p), getVariance (snd p), timeMin (snd p), timeMax (snd p), count (snd p))) m.

(** A sequence of updateStat calls. *)
Definition runStats (m : stats) (h : list (str * Q)) : stats := fold_left (fun m p => updateStat m (fst p) (snd p)) h m.
