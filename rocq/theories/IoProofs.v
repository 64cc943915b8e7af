(** * Proofs about directory listings. *)
From Coq Require Import List NArith Bool Permutation Lia Sorting.Sorted Arith.
From Verif Require Import IoModel IoSpec.
Import ListNotations.

(** The paths the model lists are those of the specification. *)
Definition listed (dir : bytes) (d : directory) : list bytes :=
  flat_map (fun e => match snd e with Regular => [join dir (fst e)] | _ => [] end) d.
Lemma join_path dir name : path_in dir name (join dir name).
Proof.
  unfold path_in, join. destruct dir as [|x t]; [left; auto|]. right. set (dir := x :: t). assert (NE : dir <> []) by discriminate. clearbody dir.
  destruct (N.eqb (last dir 0%N) 47) eqn:E; [apply N.eqb_eq in E|apply N.eqb_neq in E].
  - left. exists (removelast dir). pose proof (app_removelast_last 0%N NE) as L. rewrite E in L. split; [exact L|]. rewrite L at 1. rewrite <- app_assoc. reflexivity.
  - right. split; [exact NE|]. split; [|reflexivity]. intros d ->. apply E, last_last.
Qed.
Lemma listed_ok dir d : regular_files dir d (listed dir d).
Proof. unfold regular_files, listed. induction d as [|[n k] t IH]; cbn; [constructor|]. destruct k; cbn; auto. constructor; [apply join_path|exact IH]. Qed.

Lemma slt_irrefl a : slt a a = false.
Proof. induction a; cbn; [reflexivity|]. rewrite N.ltb_irrefl. assumption. Qed.
Lemma slt_cases a b : if slt a b then ((exists y t, b = a ++ y :: t) \/ (exists p x s y t, a = p ++ x :: s /\ b = p ++ y :: t /\ (x < y)%N))
  else not_after b a.
Proof.
  revert b. induction a as [|x s IH]; intros [|y t]; cbn [slt].
  - left. reflexivity.
  - left. exists y, t. reflexivity.
  - right. left. exists x, s. reflexivity.
  - destruct (N.ltb x y) eqn:L; [apply N.ltb_lt in L; right; exists [], x, s, y, t; auto|].
    destruct (N.ltb y x) eqn:M; [apply N.ltb_lt in M; right; right; exists [], y, t, x, s; auto|].
    apply N.ltb_ge in L, M. assert (x = y) as <- by lia. specialize (IH t). destruct (slt s t).
    + destruct IH as [(z & u & ->)|(p & x' & s' & y' & t' & -> & -> & H)]; [left; exists z, u; reflexivity|].
      right. exists (x :: p), x', s', y', t'. auto.
    + destruct IH as [->|[(z & u & ->)|(p & x' & s' & y' & t' & -> & -> & H)]]; [left; reflexivity|right; left; exists z, u; reflexivity|].
      right. right. exists (x :: p), x', s', y', t'. auto.
Qed.
Lemma not_after_slt a b : not_after a b -> slt b a = false.
Proof.
  intros [->|[(y & t & ->)|(p & x & s & y & t & -> & -> & H)]].
  - apply slt_irrefl.
  - induction a; cbn; [reflexivity|]. rewrite N.ltb_irrefl. assumption.
  - induction p as [|z p IH]; cbn.
    + destruct (N.ltb y x) eqn:L; [apply N.ltb_lt in L; lia|]. destruct (N.ltb x y) eqn:M; [reflexivity|]. apply N.ltb_ge in M. lia.
    + rewrite N.ltb_irrefl. assumption.
Qed.
Lemma slt_not_after a b : slt b a = false -> not_after a b.
Proof. intros H. pose proof (slt_cases b a) as C. rewrite H in C. exact C. Qed.
Lemma slt_weak a b : slt a b = true -> slt b a = false.
Proof.
  intros H. apply not_after_slt. pose proof (slt_cases a b) as C. rewrite H in C. right. exact C.
Qed.
Lemma slt_trans a b c : slt a b = true -> slt b c = true -> slt a c = true.
Proof.
  revert b c. induction a as [|x s IH]; intros [|y t] [|z u]; cbn; try discriminate; auto.
  destruct (N.ltb x y) eqn:L1; [|destruct (N.ltb y x) eqn:L2; [discriminate|]]; (destruct (N.ltb y z) eqn:L3; [|destruct (N.ltb z y) eqn:L4; [discriminate|]]);
  intros H1 H2; rewrite ?N.ltb_lt, ?N.ltb_ge in *.
  - replace (N.ltb x z) with true; [reflexivity|]. symmetry. apply N.ltb_lt. lia.
  - replace (N.ltb x z) with true; [reflexivity|]. symmetry. apply N.ltb_lt. lia.
  - replace (N.ltb x z) with true; [reflexivity|]. symmetry. apply N.ltb_lt. lia.
  - assert (x = y) as <- by lia. assert (x = z) as <- by lia. rewrite N.ltb_irrefl. eapply IH; eassumption.
Qed.
Lemma slt_total a b : slt a b = false -> slt b a = false -> a = b.
Proof.
  revert b. induction a as [|x s IH]; intros [|y t]; cbn; try discriminate; auto.
  destruct (N.ltb x y) eqn:L; [discriminate|]. destruct (N.ltb y x) eqn:M; [discriminate|]. rewrite ?N.ltb_ge in *. intros. f_equal; [lia|auto].
Qed.
Lemma slt_false_trans a b c : slt b a = false -> slt c b = false -> slt c a = false.
Proof.
  intros H1 H2. destruct (slt c a) eqn:E; [|reflexivity]. exfalso.
  destruct (slt a b) eqn:E2. { pose proof (slt_trans _ _ _ E E2). congruence. }
  assert (a = b) as -> by (apply slt_total; assumption). congruence.
Qed.

Definition le (a b : bytes) : Prop := slt b a = false.
Lemma insert_perm x l : Permutation (x :: l) (insert x l).
Proof. induction l; cbn; [reflexivity|]. destruct (slt a x); [|reflexivity]. rewrite perm_swap. constructor. assumption. Qed.
Lemma sort_perm l : Permutation l (sort l).
Proof. induction l; cbn; [constructor|]. rewrite <- insert_perm. constructor. assumption. Qed.
Lemma insert_sorted x l : StronglySorted le l -> StronglySorted le (insert x l).
Proof.
  induction 1 as [|y t H IH F]; cbn; [repeat constructor|]. destruct (slt y x) eqn:E.
  - constructor; [assumption|]. rewrite <- insert_perm. constructor; [apply slt_weak; exact E|assumption].
  - constructor; [constructor; assumption|]. constructor; [exact E|]. eapply Forall_impl; [|exact F]. intros z Hz. exact (slt_false_trans _ _ _ E Hz).
Qed.
Lemma sort_sorted l : StronglySorted le (sort l).
Proof. induction l; cbn; [constructor|]. apply insert_sorted. assumption. Qed.
Lemma sorted_ascending l : StronglySorted le l -> ascending l.
Proof.
  induction 1 as [|y t H IH F]; intros i j a b Hij Hi Hj; [destruct i; discriminate|]. destruct j as [|j]; [lia|]. destruct i as [|i]; cbn in *.
  - injection Hi as <-. apply slt_not_after. rewrite Forall_forall in F. apply F. eapply nth_error_In. exact Hj.
  - apply (IH i j); auto; lia.
Qed.
Lemma sorted_unique l : forall l', StronglySorted le l -> StronglySorted le l' -> Permutation l l' -> l = l'.
Proof.
  induction l as [|x t IH]; intros l' H H' P; [apply Permutation_nil in P; subst; reflexivity|].
  destruct l' as [|y u]; [symmetry in P; apply Permutation_nil in P; discriminate|].
  inversion H as [|? ? S F]; subst. inversion H' as [|? ? S' F']; subst. rewrite Forall_forall in F, F'.
  assert (x = y) as <-.
  { assert (Ix : In x (y :: u)) by (eapply Permutation_in; [exact P|left; reflexivity]).
    assert (Iy : In y (x :: t)) by (eapply Permutation_in; [symmetry; exact P|left; reflexivity]).
    destruct Ix as [E|Ix]; [symmetry; exact E|]. destruct Iy as [E|Iy]; [exact E|]. apply slt_total; [apply F', Ix|apply F, Iy]. }
  f_equal. apply IH; auto. eapply Permutation_cons_inv. exact P.
Qed.
Lemma list_loop_ok dir d : readable d -> forall v, list_loop dir d v = Done (v ++ listed dir d).
Proof.
  induction d as [|[name k] t IH]; intros R v; cbn; [rewrite app_nil_r; reflexivity|].
  assert (R' : readable t) by (intros e He; apply R; right; exact He).
  pose proof (R (name, k) (or_introl eq_refl)) as K. cbn in K. destruct k; cbn; [|apply IH; exact R'|contradiction].
  rewrite IH by exact R'. rewrite <- app_assoc. reflexivity.
Qed.
Lemma getDirectoryFiles_ok dir d v : readable d -> exists w, getDirectoryFiles dir (Some d) v = Done w /\ Permutation w (v ++ listed dir d) /\ ascending w.
Proof.
  intros R. cbn. rewrite list_loop_ok by exact R. eexists. split; [reflexivity|]. split; [symmetry; apply sort_perm|apply sorted_ascending, sort_sorted].
Qed.
Lemma listed_perm dir d d' : Permutation d d' -> Permutation (listed dir d) (listed dir d').
Proof. intros P. unfold listed. induction P; cbn; [constructor|apply Permutation_app_head; assumption| |etransitivity; eassumption].
  rewrite !app_assoc. apply Permutation_app_tail, Permutation_app_comm. Qed.
Lemma order_irrelevant dir d d' v v' : readable d -> Permutation d d' -> Permutation v v' -> getDirectoryFiles dir (Some d) v = getDirectoryFiles dir (Some d') v'.
Proof.
  intros R P Pv. assert (R' : readable d') by (intros e He; apply R; eapply Permutation_in; [symmetry; exact P|exact He]).
  cbn. rewrite !list_loop_ok by assumption. f_equal. apply sorted_unique; try apply sort_sorted.
  rewrite <- !sort_perm. apply Permutation_app; [exact Pv|apply listed_perm, P].
Qed.
Lemma thrown_prefix dir d v w : getDirectoryFiles dir (Some d) v = Thrown w -> exists d1 name d2, d = d1 ++ (name, Failing) :: d2 /\ readable d1 /\ w = v ++ listed dir d1.
Proof.
  cbn. destruct (list_loop dir d v) eqn:E; [discriminate|]. intros H. injection H as <-. revert v E.
  induction d as [|[name k] t IH]; intros v E; cbn in E; [discriminate|]. destruct k.
  - destruct (IH _ E) as (d1 & n & d2 & -> & R & ->). exists ((name, Regular) :: d1), n, d2. split; [reflexivity|]. split.
    + intros e [<-|He]; [cbn; discriminate|apply R, He].
    + cbn. rewrite <- app_assoc. reflexivity.
  - destruct (IH _ E) as (d1 & n & d2 & -> & R & ->). exists ((name, Other) :: d1), n, d2. split; [reflexivity|]. split; [|reflexivity].
    intros e [<-|He]; [cbn; discriminate|apply R, He].
  - injection E as <-. exists [], name, t. split; [reflexivity|]. split; [intros e []|]. cbn. rewrite app_nil_r. reflexivity.
Qed.
