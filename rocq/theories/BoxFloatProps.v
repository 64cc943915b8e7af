(** * Properties of the nearest point of a box in floating point. *)
From Coq Require Import List Reals ZArith Arith Lra Lia.
From Verif Require Import Base BoxModel BoxSpec DoubleSpec AssocFloatSpec BoxFloatModel BoxFloatProofs.
Import ListNotations.
Open Scope R_scope.

(** C242 *)
Theorem C242_double : forall dims q, (0 < length dims)%nat -> Forall (fun h => 0 <= h /\ is_double (h / 2)) dims -> length q = length dims -> Forall is_double q ->
  exists p, associate64 dims q = Ret p /\ on_surface dims p /\ (forall s, on_surface dims s -> sqd p q <= (1 + 5 * powerRZ 2 (-53)) * sqd s q) /\
    (~ in_box dims q -> forall s, on_surface dims s -> sqd p q <= sqd s q).
Proof. exact box64. Qed.
Print Assumptions C242_double.
Theorem C242_float : forall dims q, (0 < length dims)%nat -> Forall (fun h => 0 <= h /\ is_float (h / 2)) dims -> length q = length dims -> Forall is_float q ->
  exists p, associate32 dims q = Ret p /\ on_surface dims p /\ (forall s, on_surface dims s -> sqd p q <= (1 + 5 * powerRZ 2 (-24)) * sqd s q) /\
    (~ in_box dims q -> forall s, on_surface dims s -> sqd p q <= sqd s q).
Proof. exact box32. Qed.
Print Assumptions C242_float.
Example C242_case : Forall (fun h => 0 <= h /\ is_double (h / 2)) [2; 6] /\ Forall is_double [5; 0] /\ ~ in_box [2; 6] [5; 0] /\ on_surface [2; 6] [1; 0] /\
  Forall (fun h => 0 <= h /\ is_float (h / 2)) [2; 6] /\ Forall is_float [5; 0].
Proof.
  assert (D : forall n, (0 <= n < 10)%Z -> is_double (IZR n)) by (intros n H; exists n, 0%Z; cbn; split; [lra|lia]).
  assert (S : forall n, (0 <= n < 10)%Z -> is_float (IZR n)) by (intros n H; exists n, 0%Z; cbn; split; [lra|lia]).
  assert (E1 : 2 / 2 = IZR 1) by lra. assert (E2 : 6 / 2 = IZR 3) by lra.
  refine (conj _ (conj _ (conj _ (conj _ (conj _ _))))).
  - constructor; [split; [lra|rewrite E1; apply D; lia]|]. constructor; [split; [lra|rewrite E2; apply D; lia]|constructor].
  - constructor; [apply (D 5%Z); lia|]. constructor; [apply (D 0%Z); lia|constructor].
  - intros [_ H]. specialize (H 0%nat ltac:(cbn; lia)). cbn in H. lra.
  - split; [split; [reflexivity|]|exists 0%nat; cbn; split; [lia|lra]]. intros [|[|i]] Hi; cbn in *; try lra. lia.
  - constructor; [split; [lra|rewrite E1; apply S; lia]|]. constructor; [split; [lra|rewrite E2; apply S; lia]|constructor].
  - constructor; [apply (S 5%Z); lia|]. constructor; [apply (S 0%Z); lia|constructor].
Qed.

(** C243: inside the box two distances may round to the same number, and the first side is kept. *)
Theorem C243_nearest_refuted : exists dims q p s, Forall (fun h => 0 <= h /\ is_double (h / 2)) dims /\ Forall is_double q /\ length q = length dims /\
  associate64 dims q = Ret p /\ on_surface dims s /\ sqd s q < sqd p q.
Proof. exact wrong_lemma. Qed.
Print Assumptions C243_nearest_refuted.
(** Outside it is exact; inside see C242. *)
Theorem C243_nearest_partial : forall dims q, (0 < length dims)%nat -> Forall (fun h => 0 <= h /\ is_double (h / 2)) dims -> length q = length dims -> Forall is_double q ->
  ~ in_box dims q -> exists p, associate64 dims q = Ret p /\ nearest dims q p.
Proof.
  intros dims q HD HF HQ FQ NB. destruct (box64 dims q HD HF HQ FQ) as (p & E & S & _ & X). exists p. split; [exact E|]. split; [exact S|exact (X NB)].
Qed.
Print Assumptions C243_nearest_partial.
Example C243_case : Forall (fun h => 0 <= h /\ is_double (h / 2)) [2; 6] /\ Forall is_double [5; 0] /\ ~ in_box [2; 6] [5; 0].
Proof. destruct C242_case as (A & B & C & _). auto. Qed.
