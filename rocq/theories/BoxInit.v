(** * Proofs about the initial transformation of a box, and the step in space under a condition. *)
From Coq Require Import List Reals Bool Arith Lra Lia Psatz Permutation.
From Verif Require Import Base AlignerModel BoxModel BoxSpec BoxProofs BoxFit3 BoxSvd.
Import ListNotations.
Open Scope R_scope.

Lemma find_spec s i n : (exists k, (k < n)%nat /\ nth k s 0%nat = i) ->
  exists k, find (fun k => Nat.eqb (nth k s 0%nat) i) (seq 0 n) = Some k /\ (k < n)%nat /\ nth k s 0%nat = i.
Proof.
  intros (k & Hk & E). destruct (find _ (seq 0 n)) as [j|] eqn:F.
  - apply find_some in F. destruct F as [F1 F2]. apply in_seq in F1. apply Nat.eqb_eq in F2. exists j. repeat split; [lia|exact F2].
  - exfalso. pose proof (find_none _ _ F k ltac:(apply in_seq; lia)) as G. cbv beta in G. rewrite E, Nat.eqb_refl in G. discriminate.
Qed.
Lemma inverse_spec s : Permutation s (seq 0 (length s)) -> forall i, (i < length s)%nat ->
  (nth i (inverse_perm s) 0 < length s)%nat /\ nth (nth i (inverse_perm s) 0%nat) s 0%nat = i.
Proof.
  intros HP i Hi. unfold inverse_perm. assert (HN : (i < length (seq 0 (length s)))%nat) by (rewrite seq_length; exact Hi).
  rewrite (nth_indep _ 0%nat (match find (fun k => Nat.eqb (nth k s 0%nat) 0%nat) (seq 0 (length s)) with Some k => k | None => 0%nat end)) by (rewrite map_length; exact HN).
  rewrite (map_nth (fun i => match find (fun k => Nat.eqb (nth k s 0%nat) i) (seq 0 (length s)) with Some k => k | None => 0%nat end)). rewrite seq_nth by exact Hi. cbn [Nat.add].
  destruct (find_spec s i (length s)) as (k & -> & Hk & E); [|split; assumption].
  assert (In i s) by (apply (Permutation_in i (Permutation_sym HP)), in_seq; lia). destruct (In_nth s i 0%nat H) as (k & Hk & E). exists k. split; assumption.
Qed.
Lemma inverse_length s : length (inverse_perm s) = length s.
Proof. unfold inverse_perm. rewrite map_length, seq_length. reflexivity. Qed.
Lemma inverse_permutation s : Permutation s (seq 0 (length s)) -> Permutation (inverse_perm s) (seq 0 (length s)).
Proof.
  intros HP. apply NoDup_Permutation_bis.
  - apply (NoDup_nth _ 0%nat). intros i j Hi Hj E. rewrite inverse_length in Hi, Hj. destruct (inverse_spec s HP i Hi) as [_ E1]. destruct (inverse_spec s HP j Hj) as [_ E2]. rewrite <- E1, <- E2, E. reflexivity.
  - rewrite seq_length, inverse_length. lia.
  - intros x Hx. destruct (In_nth _ _ 0%nat Hx) as (i & Hi & <-). rewrite inverse_length in Hi. apply in_seq. pose proof (proj1 (inverse_spec s HP i Hi)). lia.
Qed.

Lemma init_lemma sorter dims n eigenvectors identity : sorts_indices sorter -> (2 <= n)%nat ->
  exists sigma, initLinear (setDimension sorter dims) n eigenvectors identity = Ret (map (fun k => nth k eigenvectors []) sigma) /\
    Permutation sigma (seq 0 (length dims)) /\
    forall i j, (i < length dims)%nat -> (j < length dims)%nat -> nth i dims 0 < nth j dims 0 -> (nth i sigma 0 < nth j sigma 0)%nat.
Proof.
  intros HS Hn. exists (inverse_perm (sorter dims)). destruct (HS dims) as [HP HO].
  assert (HL : length (sorter dims) = length dims) by (rewrite (Permutation_length HP), seq_length; reflexivity).
  assert (HP' : Permutation (sorter dims) (seq 0 (length (sorter dims)))) by (rewrite HL; exact HP).
  split; [|split].
  - unfold initLinear, setDimension. destruct (Nat.ltb_spec n 2); [lia|]. reflexivity.
  - rewrite <- HL. apply inverse_permutation, HP'.
  - intros i j Hi Hj L. rewrite <- HL in Hi, Hj. destruct (inverse_spec _ HP' i Hi) as [B1 E1]. destruct (inverse_spec _ HP' j Hj) as [B2 E2]. rewrite HL in B1, B2.
    set (a := nth i (inverse_perm (sorter dims)) 0%nat) in *. set (b := nth j (inverse_perm (sorter dims)) 0%nat) in *. clearbody a b.
    destruct (lt_eq_lt_dec a b) as [[Lt|Eq]|Gt]; [exact Lt|subst b; rewrite E1 in E2; subst j; lra|].
    specialize (HO b a ltac:(lia)). rewrite E1, E2 in HO. lra.
Qed.
Lemma map_nth_perm {A} (l : list A) d sigma : Permutation sigma (seq 0 (length l)) -> Permutation (map (fun k => nth k l d) sigma) l.
Proof.
  intros HP. rewrite (Permutation_map _ HP). clear. assert (E : map (fun k => nth k l d) (seq 0 (length l)) = l); [|rewrite E; reflexivity].
  induction l as [|x l IH]; [reflexivity|]. cbn [length seq map nth]. f_equal. rewrite <- seq_shift, map_map. exact IH.
Qed.

Lemma mirror_lemma sorter a b c d identity : sorts_indices sorter -> a * a + c * c = 1 -> b * b + d * d = 1 -> a * b + c * d = 0 ->
  exists x y p q r s, 0 < x /\ 0 < y /\ initLinear (setDimension sorter [x; y]) 2 [[a; c]; [b; d]] identity = Ret [[p; r]; [q; s]] /\ p * s - q * r = - (1).
Proof.
  intros HS A B C. assert (D : (a * d - b * c) * (a * d - b * c) = 1).
  { transitivity ((a * a + c * c) * (b * b + d * d) - (a * b + c * d) * (a * b + c * d)); [ring|]. rewrite A, B, C. ring. }
  assert (I : forall x y, x < y -> initLinear (setDimension sorter [x; y]) 2 [[a; c]; [b; d]] identity = Ret [[a; c]; [b; d]] /\ initLinear (setDimension sorter [y; x]) 2 [[a; c]; [b; d]] identity = Ret [[b; d]; [a; c]]).
  { intros x y L. split.
    - destruct (init_lemma sorter [x; y] 2 [[a; c]; [b; d]] identity HS ltac:(lia)) as (sg & -> & HP & HO). specialize (HO 0%nat 1%nat ltac:(cbn; lia) ltac:(cbn; lia) ltac:(cbn; lra)).
      pose proof (Permutation_length HP) as HL. destruct sg as [|u [|v [|w sg]]]; try discriminate. cbn [nth] in HO.
      assert (u < 2)%nat by (assert (In u (seq 0 2)) as I by (apply (Permutation_in _ HP); left; reflexivity); apply in_seq in I; lia).
      assert (v < 2)%nat by (assert (In v (seq 0 2)) as I by (apply (Permutation_in _ HP); right; left; reflexivity); apply in_seq in I; lia).
      assert (u = 0%nat) as -> by lia. assert (v = 1%nat) as -> by lia. reflexivity.
    - destruct (init_lemma sorter [y; x] 2 [[a; c]; [b; d]] identity HS ltac:(lia)) as (sg & -> & HP & HO). specialize (HO 1%nat 0%nat ltac:(cbn; lia) ltac:(cbn; lia) ltac:(cbn; lra)).
      pose proof (Permutation_length HP) as HL. destruct sg as [|u [|v [|w sg]]]; try discriminate. cbn [nth] in HO.
      assert (u < 2)%nat by (assert (In u (seq 0 2)) as I by (apply (Permutation_in _ HP); left; reflexivity); apply in_seq in I; lia).
      assert (v < 2)%nat by (assert (In v (seq 0 2)) as I by (apply (Permutation_in _ HP); right; left; reflexivity); apply in_seq in I; lia).
      assert (u = 1%nat) as -> by lia. assert (v = 0%nat) as -> by lia. reflexivity. }
  destruct (I 1 2 ltac:(lra)) as [I1 I2]. destruct (Rlt_dec 0 (a * d - b * c)) as [L|L].
  - exists 2, 1, b, a, d, c. split; [lra|]. split; [lra|]. split; [exact I2|]. nra.
  - exists 1, 2, a, b, c, d. split; [lra|]. split; [lra|]. split; [exact I1|]. nra.
Qed.

(** ** The step in space when the cross covariance has a positive determinant *)
Lemma cov_entries l : forall ms md a b c d e f g h i, cross_cov3 l ms md ((a, b, c), (d, e, f), (g, h, i)) =
  let s j k := sum_over (fun mc => (co j (fst mc) - co j ms) * (co k (snd mc) - co k md)) l in
  ((a + s 0%nat 0%nat, b + s 0%nat 1%nat, c + s 0%nat 2%nat), (d + s 1%nat 0%nat, e + s 1%nat 1%nat, f + s 1%nat 2%nat), (g + s 2%nat 0%nat, h + s 2%nat 1%nat, i + s 2%nat 2%nat)).
Proof.
  induction l as [|[m x] l IH]; intros ms md a b c d e f g h i; cbv zeta; cbn [cross_cov3 sum_over].
  - apply AlignerProofs.triple_eq; apply AlignerProofs.triple_eq; ring.
  - destruct m as [[m0 m1] m2], x as [[x0 x1] x2], ms as [[? ?] ?], md as [[? ?] ?]. unfold addm3, outer3. vec. rewrite IH. cbv zeta. cbn [co fst snd].
    apply AlignerProofs.triple_eq; apply AlignerProofs.triple_eq; ring.
Qed.
Lemma cov_det l : det3 (cross_cov3 l (centroid3 (map fst l)) (centroid3 (map snd l)) (diag3 0 0 0)) = spread_det l.
Proof.
  unfold diag3. rewrite cov_entries. cbv zeta. unfold spread_det, spread, det3. cbv zeta.
  set (s00 := sum_over _ l). set (s01 := sum_over _ l). set (s02 := sum_over _ l). set (s10 := sum_over _ l). set (s11 := sum_over _ l). set (s12 := sum_over _ l). set (s20 := sum_over _ l). set (s21 := sum_over _ l). set (s22 := sum_over _ l).
  vec. ring.
Qed.
Lemma svd_det S U s V : svd3_ok S U s V -> let '(p, q, r) := s in det3 S = det3 V * det3 U * (p * q * r).
Proof.
  intros (_ & _ & _ & HS). destruct U as [[[[? ?] ?] [[? ?] ?]] [[? ?] ?]], V as [[[[? ?] ?] [[? ?] ?]] [[? ?] ?]], s as [[? ?] ?]. rewrite HS. unfold det3. vec. ring.
Qed.
Lemma monotone3_lemma svd dims cloud t e : conforming3 svd -> (let '(x, y, z) := dims in 0 <= x /\ 0 <= y /\ 0 <= z) -> rotation3 (fst t) -> cloud <> [] ->
  (forall l, matched3 dims t cloud l -> 0 < spread_det l) -> error3 dims t cloud e ->
  exists t' e', computeTransform3 svd dims cloud t = Ret (Some t') /\ rotation3 (fst t') /\ error3 dims t' cloud e' /\ e' <= e.
Proof.
  intros HS HD HT HC HP (l0 & M0 & ->). destruct (step3_lemma svd dims cloud t HS HD HT HC) as (l & t' & U & s & V & E & M & RT & _ & ES & _ & O).
  destruct (associate_all3_ok dims t' HD RT cloud) as (l' & _ & M'). exists t', (cost3 t' l').
  split; [exact E|]. split; [exact RT|]. split; [exists l'; split; [exact M'|reflexivity]|].
  assert (L : 0 < det3 V * det3 U).
  { pose proof (HS (cross_cov3 l (centroid3 (map fst l)) (centroid3 (map snd l)) (diag3 0 0 0))) as OK. rewrite ES in OK. pose proof (svd_det _ _ _ _ OK) as DD. destruct OK as (HU & HV & Hs & _).
    specialize (HP l M). rewrite cov_det in DD. destruct s as [[p q] r]. rewrite DD in HP. destruct Hs as (H1 & H2 & H3).
    assert (P0 : 0 <= p * q * r) by (apply Rmult_le_pos; [apply Rmult_le_pos; lra|lra]). destruct (Rlt_dec 0 (det3 V * det3 U)); [assumption|]. exfalso. nra. }
  apply Rle_trans with (cost3 t' l); [apply (matched3_cost dims t t' RT cloud); assumption|].
  apply Rle_trans with (cost3 t l); [apply O; [exact L|exact HT]|]. apply (matched3_cost dims t t HT cloud); assumption.
Qed.

(** A conforming sort exists: insertion. *)
Fixpoint ins (dims : list R) (k : nat) (l : list nat) : list nat :=
  match l with [] => [k] | x :: t => if Rle_dec (nth k dims 0) (nth x dims 0) then k :: l else x :: ins dims k t end.
Definition insertion (dims : list R) : list nat := fold_right (ins dims) [] (seq 0 (length dims)).
Lemma ins_perm dims k l : Permutation (ins dims k l) (k :: l).
Proof. induction l as [|x l IH]; cbn; [reflexivity|]. destruct (Rle_dec _ _); [reflexivity|]. rewrite IH. apply perm_swap. Qed.
Definition asc (dims : list R) (l : list nat) : Prop := forall i j, (i < j < length l)%nat -> nth (nth i l 0%nat) dims 0 <= nth (nth j l 0%nat) dims 0.
Lemma asc_cons dims x l : asc dims l -> (forall y, In y l -> nth x dims 0 <= nth y dims 0) -> asc dims (x :: l).
Proof. intros A B [|i] [|j] H; try lia; cbn [nth]. - apply B, nth_In. cbn in H. lia. - apply A. cbn in H. lia. Qed.
Lemma asc_inv dims x l : asc dims (x :: l) -> asc dims l /\ forall y, In y l -> nth x dims 0 <= nth y dims 0.
Proof.
  intros A. split.
  - intros i j H. apply (A (S i) (S j)). cbn. lia.
  - intros y Hy. destruct (In_nth _ _ 0%nat Hy) as (j & Hj & <-). apply (A 0%nat (S j)). cbn. lia.
Qed.
Lemma ins_asc dims k l : asc dims l -> asc dims (ins dims k l).
Proof.
  induction l as [|x l IH]; intros A; cbn; [intros i j H; cbn in H; lia|]. destruct (asc_inv _ _ _ A) as [A1 A2]. destruct (Rle_dec _ _) as [L|L].
  - apply asc_cons; [exact A|]. intros y [<-|Hy]; [exact L|]. specialize (A2 y Hy). lra.
  - apply asc_cons; [apply IH, A1|]. intros y Hy. apply (Permutation_in _ (ins_perm dims k l)) in Hy. destruct Hy as [<-|Hy]; [lra|apply A2, Hy].
Qed.
Lemma insertion_sorts : sorts_indices insertion.
Proof.
  intros dims. unfold insertion. generalize (seq 0 (length dims)) as s, (seq_length (length dims) 0). intros s Es.
  assert (G : Permutation (fold_right (ins dims) [] s) s /\ asc dims (fold_right (ins dims) [] s)).
  { clear Es. induction s as [|x s [P A]]; cbn; [split; [reflexivity|intros i j H; cbn in H; lia]|]. split; [rewrite ins_perm, P; reflexivity|apply ins_asc, A]. }
  destruct G as [P A]. split; [exact P|]. intros i j H. apply A. rewrite (Permutation_length P), Es. exact H.
Qed.

(** Points on the surface are matched to themselves. *)
Lemma matched_self dims cloud l : Forall (fun c => on_surface (l3 dims) (l3 c)) cloud -> matched3 dims identity3 cloud l -> l = map (fun c => (c, c)) cloud.
Proof.
  intros HF [M1 M2]. revert cloud HF M1. induction M2 as [|[m c] l (q & Q1 & [Q2 Q3]) M2 IH]; intros cloud HF <-; [reflexivity|]. cbn [map snd fst] in *.
  inversion HF as [|? ? Hc HF']. subst. f_equal; [|apply IH; [exact HF'|reflexivity]]. f_equal.
  assert (E : act3 identity3 q = q) by (destruct q as [[? ?] ?]; unfold act3, identity3; apply AlignerProofs.triple_eq; ring). rewrite E in Hc. rewrite E in *.
  specialize (Q3 _ Hc). rewrite !sqd_l3, !sq3_dot in Q3. replace (dot (sub q q) (sub q q)) with 0 in Q3 by (vec; ring).
  assert (Z : sub m q = (0, 0, 0)).
  { destruct (vec_dec (sub m q)) as [Z|Z]; [exact Z|]. apply AlignerProofs.dot_self_pos in Z. lra. }
  destruct m as [[a b] c], q as [[x y] z]. vec. injection Z as Z1 Z2 Z3. apply AlignerProofs.triple_eq; lra.
Qed.
Definition star : list vec3 := [(1, 0, 0); (-1, 0, 0); (0, 1, 0); (0, -1, 0); (0, 0, 1); (0, 0, -1)].
Lemma star_spread : forall l, matched3 (2, 2, 2) identity3 star l -> 0 < spread_det l.
Proof.
  intros l M. rewrite (matched_self (2, 2, 2) star l); [|..|exact M].
  - unfold spread_det, spread, star, centroid3. cbn. lra.
  - assert (B : forall p, in_box (l3 (2, 2, 2)) (l3 p) <-> -1 <= fst (fst p) <= 1 /\ -1 <= snd (fst p) <= 1 /\ -1 <= snd p <= 1).
    { intros [[x y] z]. split.
      - intros [_ H]. pose proof (H 0%nat ltac:(cbn; lia)) as H0. pose proof (H 1%nat ltac:(cbn; lia)) as H1. pose proof (H 2%nat ltac:(cbn; lia)) as H2. cbn in *. lra.
      - cbn. intros H. split; [reflexivity|]. intros [|[|[|i]]] Hi; cbn in *; try lra. lia. }
    unfold star. repeat (constructor; [split; [apply B; cbn; lra|first [exists 0%nat; cbn; split; [lia|lra] | exists 1%nat; cbn; split; [lia|lra] | exists 2%nat; cbn; split; [lia|lra]]]|]). constructor.
Qed.
