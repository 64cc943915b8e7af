(** * Proofs about VectorArray. *)
From Coq Require Import List Arith Lia.
From Verif Require Import Base VectorModel VectorSpec.
Import ListNotations.

Section Proofs.
Context {A : Type}.
Lemma lset_length (v : list A) i x : length (lset v i x) = length v.
Proof. revert i. induction v as [|a v IH]; intros [|i]; cbn; auto. Qed.
Lemma lset_same (v : list A) i x : i < length v -> nth_error (lset v i x) i = Some x.
Proof. revert i. induction v as [|a v IH]; intros [|i] H; cbn in *; try lia; auto. apply IH. lia. Qed.
Lemma lset_other (v : list A) i j x : i <> j -> nth_error (lset v i x) j = nth_error v j.
Proof. revert i j. induction v as [|a v IH]; intros [|i] [|j] H; cbn; auto; try lia. Qed.

(** After [d] turns the first [d] entries are new, the others old. *)
Definition mixed (f : nat -> A -> A) (d : nat) (v r : list A) : Prop :=
  length r = length v /\ forall i x, nth_error v i = Some x -> nth_error r i = Some (if i <? d then f i x else x).
Lemma each_mixed (f : nat -> A -> A) v body : (forall d r, d < length v -> mixed f d v r -> exists x, nth_error v d = Some x /\ body d r = Ret (lset r d (f d x))) ->
  forall k d r, d + k = length v -> mixed f d v r -> exists r', each k d body r = Ret r' /\ entrywise f v r'.
Proof.
  intros H. induction k as [|k IH]; intros d r E M.
  - exists r. split; [reflexivity|]. destruct M as [L M]. split; [exact L|]. intros i x Hi. rewrite (M i x Hi). destruct (Nat.ltb_spec i d); [reflexivity|].
    assert (i < length v) by (apply nth_error_Some; congruence). lia.
  - cbn [each]. destruct (H d r) as (x & Hx & B); [lia|exact M|]. rewrite B. cbn [obind]. apply IH; [lia|]. destruct M as [L M]. split; [rewrite lset_length; exact L|].
    intros i y Hi. assert (I : i < length v) by (apply nth_error_Some; congruence). destruct (Nat.eq_dec i d) as [->|N].
    + rewrite lset_same by lia. destruct (Nat.ltb_spec d (S d)); [|lia]. congruence.
    + rewrite lset_other by lia. rewrite (M i y Hi). destruct (Nat.ltb_spec i d), (Nat.ltb_spec i (S d)); auto; lia.
Qed.
Lemma mixed_start f v : mixed f 0 v v. Proof. split; auto. Qed.
Lemma vread_nth (v : list A) i x : nth_error v i = Some x -> vread v i = Ret x. Proof. unfold vread. now intros ->. Qed.
Lemma vwrite_nth (v : list A) i x y : nth_error v i = Some x -> vwrite v i y = Ret (lset v i y). Proof. unfold vwrite. now intros ->. Qed.
Lemma entry (v : list A) d : d < length v -> exists x, nth_error v d = Some x.
Proof. intros H. destruct (nth_error v d) eqn:E; eauto. apply nth_error_None in E. lia. Qed.
Lemma mixed_current f d v r x : mixed f d v r -> nth_error v d = Some x -> nth_error r d = Some x.
Proof. intros [_ M] H. rewrite (M d x H), Nat.ltb_irrefl. reflexivity. Qed.

Definition binary (op : A -> A -> A) (v : list A) (other : vref) : outcome (list A) :=
  each (length v) 0 (fun d v => obind (vread v d) (fun a => obind (vread (vderef v other) d) (fun b => vwrite v d (op a b)))) v.
Lemma binary_other op v w : length w = length v -> exists r, binary op v (VOther w) = Ret r /\ entrywise (fun i x => match nth_error w i with Some y => op x y | None => x end) v r.
Proof.
  intros L. apply each_mixed with (d := 0) (k := length v); [|lia|apply mixed_start]. intros d r D M. destruct (entry v d D) as [x X]. destruct (entry w d) as [y Y]; [lia|]. exists x. split; [exact X|].
  pose proof (mixed_current _ _ _ _ _ M X) as R. rewrite (vread_nth _ _ _ R). cbn [obind vderef]. rewrite (vread_nth _ _ _ Y). cbn [obind]. rewrite (vwrite_nth _ _ _ _ R), Y. reflexivity.
Qed.
Lemma binary_self op v : exists r, binary op v VSelf = Ret r /\ entrywise (fun i x => op x x) v r.
Proof.
  apply each_mixed with (d := 0) (k := length v); [|lia|apply mixed_start]. intros d r D M. destruct (entry v d D) as [x X]. exists x. split; [exact X|].
  pose proof (mixed_current _ _ _ _ _ M X) as R. rewrite (vread_nth _ _ _ R). cbn [obind vderef]. rewrite (vread_nth _ _ _ R). cbn [obind]. rewrite (vwrite_nth _ _ _ _ R). reflexivity.
Qed.
Context (T : scalar_ops A).
Lemma scalar_other v s : exists r, times_assign_scalar T v (SOther s) = Ret r /\ entrywise (fun _ x => mul T x s) v r.
Proof.
  apply each_mixed with (d := 0) (k := length v); [|lia|apply mixed_start]. intros d r D M. destruct (entry v d D) as [x X]. exists x. split; [exact X|].
  pose proof (mixed_current _ _ _ _ _ M X) as R. rewrite (vread_nth _ _ _ R). cbn [obind sderef]. rewrite (vwrite_nth _ _ _ _ R). reflexivity.
Qed.
Lemma scalar_entry v j s : nth_error v j = Some s -> exists r, times_assign_scalar T v (SEntry j) = Ret r /\
  entrywise (fun i x => mul T x (if i <=? j then s else mul T s s)) v r.
Proof.
  intros S. apply each_mixed with (d := 0) (k := length v); [|lia|apply mixed_start]. intros d r D M. destruct (entry v d D) as [x X]. exists x. split; [exact X|].
  pose proof (mixed_current _ _ _ _ _ M X) as R. rewrite (vread_nth _ _ _ R). cbn [obind sderef]. destruct M as [L M]. pose proof (M j s S) as RJ. rewrite (vread_nth _ _ _ RJ). cbn [obind]. rewrite (vwrite_nth _ _ _ _ R).
  f_equal. f_equal. f_equal. rewrite Nat.leb_refl. destruct (Nat.ltb_spec j d), (Nat.leb_spec d j); auto; lia.
Qed.
End Proofs.
