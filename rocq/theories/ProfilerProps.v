(** * Property theorems for rofl::Profiler (C43-C44, C78). *)
From Coq Require Import List ZArith QArith.
From Verif Require Import Base ParamModel ParamSpec ProfilerModel ProfilerSpec ProfilerProofs.
Import ListNotations.
Open Scope Q_scope.

(** Two interleaved labels. *)
Definition demo : list (str * Q) := [([97%Z], 5); ([98%Z], 1); ([97%Z], 3); ([97%Z], 8 # 2)].

(** C43 *)
Theorem C43_count_min_max : forall h k, let m := runStats [] h in
  keys_sorted m /\ (samples k h = [] -> sfind k m = None) /\
  (samples k h <> [] -> exists s, sfind k m = Some s /\ count s = Z.of_nat (length (samples k h)) /\
     is_minimum (timeMin s) (samples k h) /\ is_maximum (timeMax s) (samples k h)).
Proof. exact counts_lemma. Qed.
Print Assumptions C43_count_min_max.
Theorem C43_other_labels_untouched : forall h k1 x k, k1 <> k -> sfind k (runStats [] (h ++ [(k1, x)])) = sfind k (runStats [] h).
Proof. exact frame_lemma. Qed.
Print Assumptions C43_other_labels_untouched.
(** The statistic of a label depends on its own samples only. *)
Theorem C43_own_samples_only : forall h1 h2 k, samples k h1 = samples k h2 -> sfind k (runStats [] h1) = sfind k (runStats [] h2).
Proof. exact only_samples_lemma. Qed.
Print Assumptions C43_own_samples_only.
(** printStats prints one line per label with these numbers. *)
Theorem C43_printed_lines : forall h k a v mi ma c, In (k, a, v, mi, ma, c) (printStats (runStats [] h)) <->
  exists s, sfind k (runStats [] h) = Some s /\ a = timeAvg s /\ v = getVariance s /\ mi = timeMin s /\ ma = timeMax s /\ c = count s.
Proof. exact print_lemma. Qed.
Print Assumptions C43_printed_lines.
Example C43_case : samples [97%Z] demo = [5; 3; 8 # 2] /\ samples [97%Z] demo <> [] /\ samples [99%Z] demo = [] /\ [98%Z] <> [97%Z].
Proof. repeat split; discriminate. Qed.

(** C44: false; the average and variance actually reported are C78. *)
Theorem C44_mean_variance_refuted : exists h k s,
  sfind k (runStats [] h) = Some s /\ ~ timeAvg s == mean (samples k h) /\ ~ getVariance s == variance (samples k h).
Proof. exact mean_refuted_lemma. Qed.
Print Assumptions C44_mean_variance_refuted.

(** C78 *)
Theorem C78_what_is_reported : forall h k x l, samples k h = x :: l -> exists s, sfind k (runStats [] h) = Some s /\
  (l = [] -> timeAvg s == x /\ getVariance s == 0 /\ timeVar s == 0) /\
  (l <> [] -> timeAvg s == mean l /\ getVariance s == mean l / qlen l /\ timeVar s == sqdev l).
Proof. exact mean_exact_lemma. Qed.
Print Assumptions C78_what_is_reported.
Example C78_case : samples [97%Z] demo = 5 :: [3; 8 # 2] /\ mean [3; 8 # 2] == 7 # 2 /\ sqdev [3; 8 # 2] == 1 # 2.
Proof. repeat split. Qed.
