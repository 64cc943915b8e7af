(** * Properties of VectorArray. *)
From Coq Require Import List Arith ZArith Lia.
From Verif Require Import Base VectorModel VectorSpec VectorProofs.
Import ListNotations.

(** C188: a new vector is zero; operator() reads and writes one entry. *)
Theorem C188_entries {A : Type} : forall (T : scalar_ops A) Dim,
  (length (va_new T Dim) = Dim /\ forall d, d < Dim -> va_get (va_new T Dim) d = Ret (zero T)) /\
  (forall (v : list A) d x, d < length v -> exists v', va_set v d x = Ret v' /\ length v' = length v /\ va_get v' d = Ret x /\
     forall e, e <> d -> va_get v' e = va_get v e).
Proof.
  intros T Dim. unfold va_get, va_set. split.
  - split; [apply repeat_length|]. intros d H. apply vread_nth. unfold va_new. now apply nth_error_repeat.
  - intros v d x H. destruct (entry v d H) as [y Y]. exists (lset v d x). split; [now apply (vwrite_nth v d y)|]. split; [apply lset_length|].
    split; [apply vread_nth; now apply lset_same|]. intros e E. unfold vread. rewrite lset_other by lia. reflexivity.
Qed.
Print Assumptions C188_entries.

(** C189: += and *= with a vector, entry by entry, also for v += v and v *= v. *)
Theorem C189_plus_assign {A : Type} : forall (T : scalar_ops A) v w, length w = length v ->
  exists r, plus_assign T v (VOther w) = Ret r /\ length r = length v /\ forall i x y, nth_error v i = Some x -> nth_error w i = Some y -> nth_error r i = Some (add T x y).
Proof. intros T v w L. destruct (binary_other (add T) v w L) as (r & E & N & H). exists r. split; [exact E|]. split; [exact N|]. intros i x y X Y. rewrite (H i x X), Y. reflexivity. Qed.
Print Assumptions C189_plus_assign.
Theorem C189_plus_self {A : Type} : forall (T : scalar_ops A) v, exists r, plus_assign T v VSelf = Ret r /\ entrywise (fun _ x => add T x x) v r.
Proof. intros T. exact (binary_self (add T)). Qed.
Print Assumptions C189_plus_self.
Theorem C189_times_assign {A : Type} : forall (T : scalar_ops A) v w, length w = length v ->
  exists r, times_assign T v (VOther w) = Ret r /\ length r = length v /\ forall i x y, nth_error v i = Some x -> nth_error w i = Some y -> nth_error r i = Some (mul T x y).
Proof. intros T v w L. destruct (binary_other (mul T) v w L) as (r & E & N & H). exists r. split; [exact E|]. split; [exact N|]. intros i x y X Y. rewrite (H i x X), Y. reflexivity. Qed.
Print Assumptions C189_times_assign.
Theorem C189_times_self {A : Type} : forall (T : scalar_ops A) v, exists r, times_assign T v VSelf = Ret r /\ entrywise (fun _ x => mul T x x) v r.
Proof. intros T. exact (binary_self (mul T)). Qed.
Print Assumptions C189_times_self.
Example C189_lengths : length [3; 4; 5]%Z = length [7; 0; 1]%Z. Proof. reflexivity. Qed.

(** C190: v *= s multiplies every entry by the value s had.  False when s is an entry of v, unless it is the last one. *)
Theorem C190_scale_refuted : exists (v : list Z) i s, nth_error v i = Some s /\ forall r, times_assign_scalar (mkOps 0 Z.add Z.mul)%Z v (SEntry i) = Ret r -> ~ entrywise (fun _ x => (x * s)%Z) v r.
Proof.
  exists [2; 5]%Z, 0, 2%Z. split; [reflexivity|]. intros r E [_ H]. injection E as <-. specialize (H 1 5%Z eq_refl). discriminate H.
Qed.
Print Assumptions C190_scale_refuted.
(** What is missing: the entries behind the one that is the scalar are multiplied by its square. *)
Theorem C190_scale_partial {A : Type} : forall (T : scalar_ops A) v,
  (forall s, exists r, times_assign_scalar T v (SOther s) = Ret r /\ entrywise (fun _ x => mul T x s) v r) /\
  (forall j s, nth_error v j = Some s -> exists r, times_assign_scalar T v (SEntry j) = Ret r /\ length r = length v /\
     (forall i x, nth_error v i = Some x -> i <= j -> nth_error r i = Some (mul T x s)) /\
     (forall i x, nth_error v i = Some x -> j < i -> nth_error r i = Some (mul T x (mul T s s)))).
Proof.
  intros T v. split; [exact (scalar_other T v)|]. intros j s S. destruct (scalar_entry T v j s S) as (r & E & N & H). exists r. split; [exact E|]. split; [exact N|].
  split; intros i x X L; rewrite (H i x X); destruct (Nat.leb_spec i j); auto; lia.
Qed.
Print Assumptions C190_scale_partial.
Example C190_entry : nth_error [2; 5; 7]%Z 1 = Some 5%Z. Proof. reflexivity. Qed.
