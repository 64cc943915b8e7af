(** * evaluateFourier in double arithmetic (common/src/functions.cpp 114-137).

    The operations of DoubleModel.v: exact operation, then rounding to nearest; overflow, infinities and NaN are not modelled (none occurs
    when the magnitudes of the coefficients sum up to at most 2^1000).  The values of cos and sin of the C library at theta are arguments:
    the theorems assume of them only how near to the cosine and the sine they are.  The message 119 is dropped. *)
From Coq Require Import Reals List.
From Verif Require Import Base DoubleModel.
Open Scope R_scope.
Open Scope outcome_scope.

(** Loop 129-135 for [fuel] values of k. *)
Fixpoint fourierf_loop (fuel k : nat) (coeffs : list R) (cth2 sth2 cth sth val : R) : outcome R :=
  match fuel with
  | O => Ret val
  | S f =>
    let! a := vread coeffs (2 * k) in
    let! b := vread coeffs (2 * k + 1) in
    fourierf_loop f (S k) coeffs cth2 sth2
      (fsub (fmul cth2 cth) (fmul sth2 sth)) (fadd (fmul sth2 cth) (fmul cth2 sth)) (fadd val (fadd (fmul a cth) (fmul b sth)))
  end.
(** 114-137; [cth2] and [sth2] are the results of cos(theta) and sin(theta), 123-124. *)
Definition evaluateFourierf (coeffs : list R) (cth2 sth2 : R) : outcome R :=
  fourierf_loop (Nat.div (length coeffs) 2) 0 coeffs cth2 sth2 1 0 0.
