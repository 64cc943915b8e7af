(** * The statistics of one label of the profiler in double arithmetic (common/include/rofl/common/profiler.h 44-61, common/src/profiler.cpp 26-44).

    The operations of DoubleModel.v: exact operation, then rounding to nearest; overflow, infinities, NaN and the sign of zero are not
    modelled (none occurs for times from 0 to 2^1000).  The conversion of the counter to double is rounded.  Which samples belong to a
    label is the matter of ProfilerModel.v. *)
From Coq Require Import Reals ZArith List.
From Verif Require Import DoubleModel.
Import ListNotations.
Open Scope R_scope.

(** MeasureStatistic h 44-52. *)
Record fstat := mkFstat { favg : R; fvar : R; fmin : R; fmax : R; fcount : Z }.
Definition fnew (time : R) : fstat := mkFstat time 0 time time 1.
(** getVariance h 54-60. *)
Definition fvariance (s : fstat) : R := if (1 <? fcount s)%Z then fdiv (favg s) (rnd (IZR (fcount s - 1))) else 0.
(** Else-branch of updateStat cpp 31-43. *)
Definition fupdate (s : fstat) (time : R) : fstat :=
  let old := favg s in
  let avg := fadd (favg s) (fdiv (fsub time old) (rnd (IZR (fcount s)))) in
  mkFstat avg
          (fadd (fvar s) (fmul (fsub time avg) (fsub time old)))
          (if Rlt_dec time (fmin s) then time else fmin s)
          (if Rlt_dec (fmax s) time then time else fmax s)
          (fcount s + 1).
(** The statistic after the samples [x], then [l]. *)
Definition fstats (x : R) (l : list R) : fstat := fold_left fupdate l (fnew x).
