(** * Properties of generateStampedString. *)
From Coq Require Import List NArith ZArith Lia.
From Verif Require Import IoModel StampModel StampSpec StampProofs.
Import ListNotations.
Open Scope N_scope.

(** C250 *)
Theorem C250_order : forall localtime prefix postfix t1 t2,
  let a := localtime (t1 / 1000000000)%Z in let b := localtime (t2 / 1000000000)%Z in valid a -> valid b ->
  (slt (generateStampedString localtime prefix postfix t1) (generateStampedString localtime prefix postfix t2) = true <-> earlier a b).
Proof. intros localtime prefix postfix t1 t2 a b A B. apply order_lemma; assumption. Qed.
Print Assumptions C250_order.
Example C250_case : let a := Tm 2026 9 30 23 59 60 in let b := Tm 2026 10 1 0 0 0 in valid a /\ valid b /\ earlier a b /\
  stamped [120] [46] b = [120; 50;48;50;54; 49;48; 48;49; 95; 48;48; 48;48; 95; 48;48; 46].
Proof. unfold valid, earlier, earlier_day. cbn. repeat split; try lia. Qed.

(** C251: two calls within the same second. *)
Theorem C251_distinct_refuted : exists localtime t1 t2, (t1 < t2)%Z /\ (forall t, valid (localtime t)) /\ (forall s t, (0 <= s < t)%Z -> (t <= 59)%Z -> earlier (localtime s) (localtime t)) /\
  forall prefix postfix, generateStampedString localtime prefix postfix t1 = generateStampedString localtime prefix postfix t2.
Proof.
  exists (fun t => Tm 1970 1 1 0 0 (Z.to_N (t mod 60))), 0%Z, 1%Z.
  split; [lia|]. split; [intros t; unfold valid; cbn [year mon mday hour min sec]; pose proof (Z.mod_pos_bound t 60 ltac:(lia)); lia|].
  split; [|intros; reflexivity].
  intros s t S T. right. split; [repeat split|]. right. split; [reflexivity|]. right. split; [reflexivity|].
  cbn [sec]. rewrite !Z.mod_small by lia. lia.
Qed.
Print Assumptions C251_distinct_refuted.
(** The strings are equal exactly when the local times shown are. *)
Theorem C251_distinct_partial : forall localtime prefix postfix t1 t2,
  let a := localtime (t1 / 1000000000)%Z in let b := localtime (t2 / 1000000000)%Z in valid a -> valid b ->
  (generateStampedString localtime prefix postfix t1 = generateStampedString localtime prefix postfix t2 <-> a = b).
Proof.
  intros localtime prefix postfix t1 t2 a b A B. split; intros E; [exact (equal_lemma prefix postfix a b A B E)|].
  unfold generateStampedString. fold a b. rewrite E. reflexivity.
Qed.
Print Assumptions C251_distinct_partial.
Example C251_case : stamped [] [] (Tm 2026 1 2 3 4 5) <> stamped [] [] (Tm 2026 1 2 3 4 6).
Proof. vm_compute. discriminate. Qed.
