(** * Property theorems for estimateTranslationTls (C51-C52, C82-C84). *)
From Coq Require Import List ZArith QArith Qabs Lia Lqa.
From Verif Require Import Base IntervalModel TlsModel TlsSpec TlsProofs.
Import ListNotations.
Open Scope Q_scope.

Definition demo_v : list Q := [1; 3 # 2; 7; 2].
Definition same_v : list Q := [3; 6 # 2].
Definition demo_r : list Q := [1; 1 # 2; 2; 1 # 10000000].

(** C51 *)
Theorem C51_running_sums : forall values ranges sort, sorts sort -> positive_ranges values ranges -> (Z.of_nat (length values) < 2 ^ 31)%Z ->
  exists t, sweep values ranges (sums0 ranges) (sort (endpoints 0 values ranges)) = Ret t /\ length t = (2 * length values)%nat /\
  forall j, (j < 2 * length values)%nat -> exists x e S s c,
    nth_error (sort (endpoints 0 values ranges)) j = Some (x, e) /\ covering values ranges x S /\ nth_error t j = Some (s, c) /\
    (cw s == total (wt ranges) S /\ card s = Z.of_nat (length S) /\ sumXi s == total (val values) S /\
     sumXiSquare s == total (fun i => val values i * val values i) S /\ vw s == total (fun i => wt ranges i * val values i) S /\
     ris s == total (rng ranges) (seq 0 (length values)) - total (rng ranges) S) /\
    (S = [] -> c = (None, None)) /\
    (S <> [] -> exists h k, c = (Some h, Some k) /\ h == wmean values ranges S /\ k == cost values ranges S h) /\
    (forall y f, nth_error (sort (endpoints 0 values ranges)) (j + 1) = Some (y, f) -> x < y ->
       forall i, (i < length values)%nat -> (In i S <-> val values i - rng ranges i <= x /\ x < val values i + rng ranges i)).
Proof. exact trace_lemma. Qed.
Print Assumptions C51_running_sums.
Example C51_case : sorts isort /\ positive_ranges demo_v demo_r /\ (Z.of_nat (length demo_v) < 2 ^ 31)%Z.
Proof.
  split; [exact isort_sorts|]. split; [split; [reflexivity|]|reflexivity]. intros [|[|[|[|i]]]] Hi; cbn in *; try reflexivity. lia.
Qed.

(** C52 *)
Theorem C52_result : forall values ranges sort, sorts sort -> positive_ranges values ranges -> (Z.of_nat (length values) < 2 ^ 31)%Z ->
  (0 < length values)%nat -> exists est flags t j x S,
  estimate sort values ranges = Ret (Some est, flags) /\
  sweep values ranges (sums0 ranges) (sort (endpoints 0 values ranges)) = Ret t /\
  nth_error (map fst (sort (endpoints 0 values ranges))) j = Some x /\ covering values ranges x S /\ S <> [] /\
  (exists s k, nth_error t j = Some (s, (Some est, Some k)) /\ k == cost values ranges S est /\
     forall j' s' h' k', nth_error t j' = Some (s', (h', Some k')) -> k <= k') /\
  est == wmean values ranges S /\
  (forall y T, covers_exactly values ranges y T -> T <> [] -> cost values ranges S est <= cost values ranges T (wmean values ranges T)) /\
  length flags = length values /\
  (forall i, (i < length values)%nat -> (nth i flags false = true <-> Qabs (val values i - est) < rng ranges i)).
Proof. exact estimate_lemma. Qed.
Print Assumptions C52_result.
Example C52_case : covers_exactly demo_v demo_r (8 # 5) [0; 1]%nat.
Proof.
  split; [split; [repeat constructor; cbn; lia|intros i [<-|[<-|[]]]; cbn; lia]|]. split; intros [|[|[|[|i]]]] Hi; cbn in *; try lia;
  try (split; intros E; vm_compute in E; discriminate E); split; intros H; try tauto; try (vm_compute; reflexivity); try (vm_compute in H; discriminate H); lia.
Qed.

(** C82: false: no measurements is undefined, and with measurements the last step divides zero by zero. *)
Theorem C82_empty_refuted : exists values ranges, forall sort, sorts sort -> length values = length ranges /\ estimate sort values ranges = UB.
Proof. exists [], []. intros sort H. split; [reflexivity|]. now apply empty_lemma. Qed.
Print Assumptions C82_empty_refuted.
Theorem C82_divides_by_zero : forall values ranges sort, sorts sort -> positive_ranges values ranges -> (Z.of_nat (length values) < 2 ^ 31)%Z ->
  (0 < length values)%nat -> exists t s, sweep values ranges (sums0 ranges) (sort (endpoints 0 values ranges)) = Ret t /\
  nth_error t (2 * length values - 1) = Some (s, (None, None)) /\ cw s == 0 /\ vw s == 0.
Proof. exact last_lemma. Qed.
Print Assumptions C82_divides_by_zero.
Theorem C82_size_mismatch : forall sort values ranges, length values <> length ranges -> estimate sort values ranges = Exit.
Proof. exact mismatch_lemma. Qed.
Print Assumptions C82_size_mismatch.
Example C82_case : length demo_v <> length [1; 2 # 3] /\ (0 < length demo_v)%nat.
Proof. split; cbn; lia. Qed.

(** C83: false. *)
Theorem C83_maximum_consensus_refuted : exists values ranges est flags y, positive_ranges values ranges /\
  estimate isort values ranges = Ret (Some est, flags) /\
  (length (filter (fun b => b) flags) < length (filter (fun i => if Qlt_le_dec (Qabs (val values i - y)) (rng ranges i) then true else false) (seq 0 (length values))))%nat.
Proof. exact consensus_refuted. Qed.
Print Assumptions C83_maximum_consensus_refuted.

(** C84 *)
Theorem C84_between_extremes : forall values ranges sort, sorts sort -> positive_ranges values ranges -> (Z.of_nat (length values) < 2 ^ 31)%Z ->
  forall lo hi, (0 < length values)%nat -> (forall i, (i < length values)%nat -> lo <= val values i /\ val values i <= hi) ->
  exists est flags, estimate sort values ranges = Ret (Some est, flags) /\ lo <= est /\ est <= hi.
Proof. exact range_lemma. Qed.
Print Assumptions C84_between_extremes.
Theorem C84_unanimous : forall values ranges sort, sorts sort -> positive_ranges values ranges -> (Z.of_nat (length values) < 2 ^ 31)%Z ->
  forall v, (0 < length values)%nat -> (forall i, (i < length values)%nat -> val values i == v) ->
  exists est flags, estimate sort values ranges = Ret (Some est, flags) /\ est == v /\ forall i, (i < length values)%nat -> nth i flags false = true.
Proof. exact unanimous_lemma. Qed.
Print Assumptions C84_unanimous.
Example C84_case : (forall i, (i < length demo_v)%nat -> 1 <= val demo_v i /\ val demo_v i <= 7) /\
  (forall i, (i < length same_v)%nat -> val same_v i == 3) /\ estimate isort demo_v demo_r <> UB.
Proof.
  split; [|split; [|vm_compute; discriminate]]; [intros [|[|[|[|i]]]] Hi; cbn in *; try lia; split; vm_compute; discriminate|].
  intros [|[|i]] Hi; cbn in *; try lia; reflexivity.
Qed.
