(** * Proofs about scoped timers. *)
From Coq Require Import List ZArith QArith Lia.
From Verif Require Import Base ParamModel ProfilerModel ScopeModel ScopeSpec.
Import ListNotations.
Open Scope Z_scope.

Lemma exec_lemma p : forall now m, exec p (now, m) = (now + duration p, runStats m (measures (fun _ => ms 0) p)).
Proof.
  induction p as [|ns p IH|l b IHb p IH|l p IH]; intros now m; cbn [exec duration measures fst snd].
  - rewrite Z.add_0_r. reflexivity.
  - rewrite IH. rewrite Z.add_assoc. reflexivity.
  - rewrite IHb. unfold destruct_, construct, elapsedTimeMs. cbn [fst snd]. rewrite IH. unfold runStats. rewrite fold_left_app. cbn [fold_left fst snd].
    replace (now + duration b - now) with (duration b) by lia. rewrite Z.add_assoc. reflexivity.
  - unfold destruct_, construct, elapsedTimeMs. cbn [fst snd]. rewrite IH. unfold runStats. cbn [fold_left fst snd]. rewrite Z.sub_diag. reflexivity.
Qed.
Lemma no_here p h h' : ~ uses_here p -> measures h p = measures h' p.
Proof. induction p; cbn; intros N; auto; [rewrite IHp1, IHp2 by tauto; reflexivity|tauto]. Qed.
Lemma scopes_lemma p now m h : ~ uses_here p -> exec p (now, m) = (now + duration p, runStats m (measures h p)).
Proof. intros N. rewrite exec_lemma. f_equal. f_equal. apply no_here, N. Qed.
Lemma here_wrong : exists p now m, 0 < duration p /\ p = Here [104] (Work 5000000 Done) /\ m = [] /\
  snd (exec p (now, m)) <> runStats m (measures (fun rest => ms (duration rest)) p) /\ forall s, sfind [104] (snd (exec p (now, m))) = Some s -> (timeMax s == 0)%Q.
Proof.
  exists (Here [104] (Work 5000000 Done)), 0, []. split; [cbn; lia|]. split; [reflexivity|]. split; [reflexivity|]. split; [cbn; discriminate|]. cbn. intros s E. injection E as <-. reflexivity.
Qed.
