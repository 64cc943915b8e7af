From Coq Require Import List Arith Lia.
From Verif Require Import Base.
Import ListNotations.

Lemma length_lset {A} (v : list A) i a : length (lset v i a) = length v.
Proof. revert i; induction v as [|x t IH]; intros [|i]; simpl; auto. Qed.

Lemma nth_error_lset_eq {A} (v : list A) i a :
  i < length v -> nth_error (lset v i a) i = Some a.
Proof.
  revert i; induction v as [|x t IH]; intros [|i]; simpl; intros H; try lia; auto.
  apply IH; lia.
Qed.

Lemma nth_error_lset_neq {A} (v : list A) i j a :
  i <> j -> nth_error (lset v i a) j = nth_error v j.
Proof.
  revert i j; induction v as [|x t IH]; intros [|i] [|j] H; simpl; auto; try lia.
Qed.

Lemma nth_error_lset {A} (v : list A) i j a :
  nth_error (lset v i a) j =
  if Nat.eqb i j then (if Nat.ltb i (length v) then Some a else None) else nth_error v j.
Proof.
  destruct (Nat.eqb_spec i j) as [->|H].
  - destruct (Nat.ltb_spec j (length v)) as [Hl|Hl].
    + now apply nth_error_lset_eq.
    + apply nth_error_None. rewrite length_lset. lia.
  - now apply nth_error_lset_neq.
Qed.

Lemma nth_error_lt {A} (v : list A) i a : nth_error v i = Some a -> i < length v.
Proof. intros H. apply nth_error_Some. congruence. Qed.

Lemma nth_error_ex {A} (v : list A) i : i < length v -> exists a, nth_error v i = Some a.
Proof.
  intros H. destruct (nth_error v i) eqn:E; eauto.
  apply nth_error_None in E. lia.
Qed.

Lemma vread_Ret {A} (v : list A) i a : vread v i = Ret a <-> nth_error v i = Some a.
Proof. unfold vread. destruct (nth_error v i); split; congruence. Qed.

Lemma nth_error_ext {A} (l1 l2 : list A) :
  (forall i, nth_error l1 i = nth_error l2 i) -> l1 = l2.
Proof.
  revert l2; induction l1 as [|x l1 IH]; intros [|y l2] H.
  - reflexivity.
  - specialize (H 0); discriminate.
  - specialize (H 0); discriminate.
  - f_equal; [specialize (H 0); simpl in H; congruence|].
    apply IH. intros i. exact (H (S i)).
Qed.
