(** * Properties of scoped timers. *)
From Coq Require Import List ZArith QArith Lia.
From Verif Require Import Base ParamModel ParamSpec ProfilerModel ProfilerSpec ProfilerProofs ScopeModel ScopeSpec ScopeProofs.
Import ListNotations.
Open Scope Z_scope.

(** C246 *)
Theorem C246_scopes : forall p now here, ~ uses_here p -> exists m, exec p (now, []) = (now + duration p, m) /\
  forall k, let l := samples k (measures here p) in
    (l = [] -> sfind k m = None) /\
    (l <> [] -> exists s, sfind k m = Some s /\ count s = Z.of_nat (length l) /\ is_minimum (timeMin s) l /\ is_maximum (timeMax s) l).
Proof.
  intros p now here N. exists (runStats [] (measures here p)). split; [apply scopes_lemma, N|]. intros k. exact (proj2 (counts_lemma (measures here p) k)).
Qed.
Print Assumptions C246_scopes.
Theorem C246_statistics : forall p now m here, ~ uses_here p -> exec p (now, m) = (now + duration p, runStats m (measures here p)).
Proof. intros p now m here. apply scopes_lemma. Qed.
Print Assumptions C246_statistics.
Example C246_case : let p := Scope [97] (Work 2000000 (Scope [98] (Work 1000000 Done) Done)) (Work 7 Done) in
  ~ uses_here p /\ duration p = 3000007 /\ measures (fun _ => ms 0) p = [([98], ms 1000000); ([97], ms 3000000)].
Proof. cbn. intuition. Qed.

(** C247: the macro makes a temporary, which is destroyed before the rest of the block runs. *)
Theorem C247_here_refuted : exists p now m, 0 < duration p /\ p = Here [104] (Work 5000000 Done) /\ m = [] /\
  snd (exec p (now, m)) <> runStats m (measures (fun rest => ms (duration rest)) p) /\ forall s, sfind [104] (snd (exec p (now, m))) = Some s -> (timeMax s == 0)%Q.
Proof. exact here_wrong. Qed.
Print Assumptions C247_here_refuted.
(** Every measurement of the macro is zero, whatever follows it; scopes are still measured. *)
Theorem C247_here_partial : forall p now, exists m, exec p (now, []) = (now + duration p, m) /\
  forall k, let l := samples k (measures (fun _ => ms 0) p) in
    (l = [] -> sfind k m = None) /\
    (l <> [] -> exists s, sfind k m = Some s /\ count s = Z.of_nat (length l) /\ is_minimum (timeMin s) l /\ is_maximum (timeMax s) l).
Proof.
  intros p now. exists (runStats [] (measures (fun _ => ms 0) p)). split; [apply exec_lemma|]. intros k. exact (proj2 (counts_lemma (measures (fun _ => ms 0) p) k)).
Qed.
Print Assumptions C247_here_partial.
Example C247_case : samples [104] (measures (fun _ => ms 0) (Here [104] (Work 5000000 (Here [104] Done)))) = [ms 0; ms 0] /\ (ms 0 == 0)%Q.
Proof. split; reflexivity. Qed.
