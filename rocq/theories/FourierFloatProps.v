(** * Properties of evaluateFourier in double arithmetic. *)
From Coq Require Import Reals ZArith List Lra Lia.
From Verif Require Import Base FunctionsSpec DoubleModel FourierFloatModel FourierFloatSpec FourierFloatProofs.
Import ListNotations.
Open Scope R_scope.

(** C228: the rounding error of the whole series grows linearly with the number of harmonics. *)
Theorem C228_error : forall c t c2 s2, (Z.of_nat (length c) <= 2 ^ 32)%Z -> Rabs (c2 - cos t) <= powerRZ 2 (-52) -> Rabs (s2 - sin t) <= powerRZ 2 (-52) ->
  exists r, evaluateFourierf c c2 s2 = Ret r /\
    Rabs (r - fourier c (length c / 2) t) <= 14 * INR (length c / 2) * powerRZ 2 (-53) * sum_abs c + 8 * INR (length c / 2) * powerRZ 2 (-106).
Proof. exact evaluateFourierf_lemma. Qed.
Print Assumptions C228_error.

Example C228_example : (Z.of_nat (length [1; 5; 2; 3]) <= 2 ^ 32)%Z /\ Rabs (-1 - cos PI) <= powerRZ 2 (-52) /\ Rabs (0 - sin PI) <= powerRZ 2 (-52) /\
  fourier [1; 5; 2; 3] 2 PI = -1 /\ sum_abs [1; 5; 2; 3] = 11.
Proof.
  split; [cbn; lia|]. rewrite cos_PI, sin_PI. replace (-1 - -1) with 0 by lra. rewrite Rminus_0_r, Rabs_R0.
  pose proof (powerRZ_lt 2 (-52) ltac:(lra)). split; [lra|]. split; [lra|]. split.
  - unfold fourier, co. cbn [rsum nth Nat.mul Nat.add INR]. replace (0 * PI) with 0 by lra. replace (1 * PI) with PI by lra. rewrite cos_0, sin_0, cos_PI, sin_PI. lra.
  - cbn. rewrite !Rabs_pos_eq by lra. lra.
Qed.
