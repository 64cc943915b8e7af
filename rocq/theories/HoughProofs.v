(** * Proofs about the Hough detectors. *)
From Coq Require Import List ZArith Bool Reals Lra Lia Permutation Sorting.Sorted.
From Verif Require Import Base IntervalModel IntervalSpec GridSpec IntervalProofs PeakModel PeakSpec PeakProofs HoughModel HoughSpec.
Import ListNotations.
Open Scope Z_scope.

(** ** Loops *)
Lemma zrange_S n : zrange (Z.of_nat (S n)) = zrange (Z.of_nat n) ++ [Z.of_nat n].
Proof. unfold zrange. rewrite !Nat2Z.id, seq_S, map_app. reflexivity. Qed.

Lemma in_zrange n i : In i (zrange n) <-> 0 <= i < n.
Proof.
  unfold zrange. rewrite in_map_iff. split.
  - intros (k & <- & Hk). apply in_seq in Hk. lia.
  - intros H. exists (Z.to_nat i). split; [lia|]. apply in_seq. lia.
Qed.

Lemma loop_over_app {A} l1 l2 (f : Z -> A -> outcome A) a :
  loop_over (l1 ++ l2) f a = obind (loop_over l1 f a) (loop_over l2 f).
Proof.
  revert a. induction l1 as [|i r IH]; intros a; cbn; auto. destruct (f i a); cbn; auto.
Qed.

Lemma for_loop_inv {A} (P : Z -> A -> Prop) n (f : Z -> A -> outcome A) a : 0 <= n -> P 0 a ->
  (forall i b, 0 <= i < n -> P i b -> exists b', f i b = Ret b' /\ P (i + 1) b') ->
  exists b, for_loop n f a = Ret b /\ P n b.
Proof.
  intros Hn. rewrite <- (Z2Nat.id n Hn). generalize (Z.to_nat n) as k. clear n Hn. intros k.
  unfold for_loop. induction k as [|k IH]; intros H0 Hs.
  - exists a. split; [reflexivity|exact H0].
  - destruct IH as (b & Hb & Pb); auto. { intros i b Hi. apply Hs. lia. }
    rewrite zrange_S, loop_over_app, Hb. cbn [obind loop_over].
    destruct (Hs (Z.of_nat k) b) as (b' & Hb' & Pb'); [lia|auto|]. exists b'. rewrite Hb'. split; [reflexivity|].
    replace (Z.of_nat (S k)) with (Z.of_nat k + 1) by lia. exact Pb'.
Qed.

(** ** Boxes *)
Lemma in_box2 a b it ip : in_box [0; 0] [a; b] [it; ip] <-> 0 <= it < a /\ 0 <= ip < b.
Proof.
  split.
  - intros H. inversion H; subst. inversion H7; subst. lia.
  - intros H. constructor; [lia|]. constructor; [lia|]. constructor.
Qed.
Lemma in_box3 a b c it ip ir : in_box [0; 0; 0] [a; b; c] [it; ip; ir] <-> 0 <= it < a /\ 0 <= ip < b /\ 0 <= ir < c.
Proof.
  split.
  - intros H. inversion H; subst. apply in_box2 in H7. lia.
  - intros H. constructor; [lia|]. apply in_box2. lia.
Qed.
Lemma in_box1 a i : in_box [0] [a] [i] <-> 0 <= i < a.
Proof.
  split.
  - intros H. inversion H; subst. lia.
  - intros H. constructor; [lia|]. constructor.
Qed.

Lemma grid_get_val (g : grid Z) x v : grid_get g x = Ret v -> gval g x = v.
Proof. unfold gval. now intros ->. Qed.

Section Cells.
Context {V : Type} (v0 : V).
Lemma cell_get (g : grid V) x : greach v0 g -> gcell g x -> exists v, grid_get g x = Ret v.
Proof. intros Hg Hx. destruct (proj1 (grid_cells_lemma v0 g Hg) x Hx) as (v & Hv & _). eauto. Qed.
Lemma cell_set (g : grid V) x w : greach v0 g -> gcell g x -> exists g', grid_set g x w = Ret g' /\ greach v0 g' /\ gdom g' = gdom g /\
  grid_get g' x = Ret w /\ forall y, gcell g y -> y <> x -> grid_get g' y = grid_get g y.
Proof. intros Hg Hx. destruct (proj1 (grid_cells_lemma v0 g Hg) x Hx) as (v & _ & _ & H). apply H. Qed.
Lemma cell_fill (g : grid V) v x : greach v0 g -> gcell g x -> grid_get (grid_fill g v) x = Ret v.
Proof. intros Hg Hx. now apply (proj2 (grid_cells_lemma v0 g Hg)). Qed.
End Cells.

(** A loop nest writing every cell of a two-dimensional grid. *)
Lemma write_all {V} (v0 : V) (g : grid V) a b (F : Z -> Z -> grid V -> outcome (grid V)) (f : Z -> Z -> V) :
  greach v0 g -> gdom g = mkI [0; 0] [a; b] -> 0 <= a -> 0 <= b ->
  (forall i j h, 0 <= i < a -> 0 <= j < b -> greach v0 h -> gdom h = gdom g -> F i j h = grid_set h [i; j] (f i j)) ->
  exists g', for_loop a (fun i h => for_loop b (F i) h) g = Ret g' /\ greach v0 g' /\ gdom g' = gdom g /\
    forall i j, 0 <= i < a -> 0 <= j < b -> grid_get g' [i; j] = Ret (f i j).
Proof.
  intros Hg Hd Ha Hb HF.
  set (P := fun n h => greach v0 h /\ gdom h = gdom g /\ forall i j, 0 <= i < n -> 0 <= j < b -> grid_get h [i; j] = Ret (f i j)).
  destruct (for_loop_inv P a (fun i h => for_loop b (F i) h) g Ha) as (g' & E & H1 & H2 & H3).
  - split; [auto|]. split; [auto|]. intros; lia.
  - intros i h Hi (Hr & Hdh & Hc).
    set (Q := fun m h' => greach v0 h' /\ gdom h' = gdom g /\
      (forall i' j, 0 <= i' < i -> 0 <= j < b -> grid_get h' [i'; j] = Ret (f i' j)) /\
      forall j, 0 <= j < m -> grid_get h' [i; j] = Ret (f i j)).
    destruct (for_loop_inv Q b (F i) h Hb) as (h' & E & Q1 & Q2 & Q3 & Q4).
    + split; [auto|]. split; [auto|]. split; [auto|]. intros; lia.
    + intros j k Hj (R1 & R2 & R3 & R4). rewrite (HF i j k) by auto.
      assert (Hcell : forall x y, 0 <= x < a -> 0 <= y < b -> gcell k [x; y]).
      { intros x y Hx Hy. unfold gcell. rewrite R2, Hd. apply in_box2. auto. }
      destruct (cell_set v0 k [i; j] (f i j)) as (k' & Ek & K1 & K2 & K3 & K4); auto.
      exists k'. split; [auto|]. split; [auto|]. split; [congruence|]. split.
      * intros i' j' Hi' Hj'. rewrite K4; [now apply R3|apply Hcell; lia|]. intros X. injection X. lia.
      * intros j' Hj'. destruct (Z.eq_dec j' j) as [->|Hne]; auto. rewrite K4; [apply R4; lia|apply Hcell; lia|].
        intros X. injection X. lia.
    + exists h'. split; [auto|]. split; [auto|]. split; [auto|]. intros i' j Hi' Hj.
      destruct (Z.eq_dec i' i) as [->|Hne]; [now apply Q4|apply Q3; lia].
  - exists g'. auto.
Qed.

(** ** Invariant of reachable detectors *)
Record wf (d : plane) : Prop := {
  wf_sizes : sizes_ok (tnum d) (pnum d) (rnum d);
  wf_ht : greach 0 (ht d); wf_htd : gdom (ht d) = mkI [0; 0; 0] [tnum d; pnum d; rnum d];
  wf_hs : greach 0 (hs d); wf_hsd : gdom (hs d) = mkI [0; 0] [tnum d; pnum d];
  wf_lut : greach v30 (lut d); wf_lutd : gdom (lut d) = mkI [0; 0] [tnum d; pnum d];
  wf_dir : forall it ip, dir_in d it ip -> grid_get (lut d) [it; ip] = Ret (dir_of d it ip);
  wf_range : forall it ip ir v, cell_in d it ip ir -> grid_get (ht d) [it; ip; ir] = Ret v -> 0 <= v < M64;
  wf_hs0 : Forall (fun v => 0 <= v) (gdata (hs d)) }.

Lemma dom_ok3 nt np nr : sizes_ok nt np nr -> dom_ok [0; 0; 0] [nt; np; nr].
Proof.
  intros (H1 & H2 & H3 & H4 & H5). split; [auto|]. split; [repeat constructor; lia|].
  cbn [vol]. replace (nt * (np * (nr * 1))) with (nt * np * nr) by ring. apply Z.lt_trans with (2 ^ 31); [auto|reflexivity].
Qed.
Lemma dom_ok2 nt np : 0 <= nt -> 0 <= np -> nt * np < 2 ^ 31 -> dom_ok [0; 0] [nt; np].
Proof.
  intros H1 H2 H4. split; [auto|]. split; [repeat constructor; lia|].
  cbn [vol]. replace (nt * (np * 1)) with (nt * np) by ring. apply Z.lt_trans with (2 ^ 31); [auto|reflexivity].
Qed.

Lemma wf_new : wf plane_new.
Proof.
  constructor; cbn [plane_new ht hs lut tnum pnum rnum].
  - repeat split; try lia.
  - constructor.
  - reflexivity.
  - constructor.
  - reflexivity.
  - constructor.
  - reflexivity.
  - intros it ip [H _]. cbn in H. lia.
  - intros it ip ir v [[H _] _]. cbn in H. lia.
  - constructor.
Qed.

Lemma fill_nonneg (g : grid Z) : Forall (fun v => 0 <= v) (gdata (grid_fill g 0)).
Proof. cbn [grid_fill gdata]. apply Forall_forall. intros x Hx. apply repeat_spec in Hx. lia. Qed.

Lemma wf_init d nt np nr mn res : wf d -> sizes_ok nt np nr -> exists d', plane_init d nt np nr mn res = Ret d' /\ wf d' /\
  (tnum d', pnum d', rnum d') = (nt, np, nr) /\ (tmin d', pmin d', rmin d') = mn /\ (tres d', pres d', rres d') = res /\
  (twin d', pwin d', rwin d') = (twin d, pwin d, rwin d) /\
  (forall it ip ir, cell_in d' it ip ir -> grid_get (ht d') [it; ip; ir] = Ret 0) /\
  (forall it ip, dir_in d' it ip -> grid_get (hs d') [it; ip] = Ret 0).
Proof.
  intros [S0 A0 A1 B0 B1 C0 C1 D0 E0 N0] Hs. destruct mn as [[mt mp] mr]. destruct res as [[st sp] sr].
  pose proof (dom_ok3 _ _ _ Hs) as K3. assert (K2 : dom_ok [0; 0] [nt; np]) by (apply dom_ok2; apply Hs).
  unfold plane_init. cbv zeta. unfold fill_lut. cbn [tnum pnum tres tmin pres pmin lut ht hs].
  assert (G : greach v30 (grid_initBounds v30 (lut d) [0; 0] [nt; np])) by (constructor; auto).
  destruct (write_all v30 (grid_initBounds v30 (lut d) [0; 0] [nt; np]) nt np
    (fun it ip g => grid_set g [it; ip]
       (cos (st * IZR it + mt) * cos (sp * IZR ip + mp), cos (st * IZR it + mt) * sin (sp * IZR ip + mp), sin (st * IZR it + mt))%R)
    (fun it ip => direction (mt + st * IZR it) (mp + sp * IZR ip))) as (g' & Eg & G1 & G2 & G3); auto; try apply Hs.
  { intros i j h _ _ _ _. unfold direction. now rewrite (Rplus_comm mt), (Rplus_comm mp). }
  rewrite Eg. cbn [obind].
  assert (GH : greach 0 (grid_initBounds 0 (ht d) [0; 0; 0] [nt; np; nr])) by (constructor; auto).
  assert (GS : greach 0 (grid_initBounds 0 (hs d) [0; 0] [nt; np])) by (constructor; auto).
  assert (Z0 : forall it ip ir, (0 <= it < nt /\ 0 <= ip < np) /\ 0 <= ir < nr ->
    grid_get (grid_fill (grid_initBounds 0 (ht d) [0; 0; 0] [nt; np; nr]) 0) [it; ip; ir] = Ret 0).
  { intros it ip ir H. apply (cell_fill 0); auto. apply in_box3. lia. }
  eexists. split; [reflexivity|]. split; [|repeat split; cbn [ht hs tnum pnum rnum]].
  - constructor; cbn [ht hs lut tnum pnum rnum]; auto; try (now constructor).
    + intros it ip H. apply G3; apply H.
    + intros it ip ir v H Hv. cbn [ht] in Hv. rewrite Z0 in Hv by exact H. injection Hv as <-. unfold M64; lia.
    + apply fill_nonneg.
  - exact Z0.
  - intros it ip H. apply (cell_fill 0); auto. apply in_box2. exact H.
Qed.

Lemma wf_window d a b c : wf d -> wf (plane_setWindow d a b c).
Proof. intros [S0 A0 A1 B0 B1 C0 C1 D0 E0 N0]. constructor; auto. Qed.

Lemma wf_zero d : wf d -> wf (plane_setZero d).
Proof.
  intros [S0 A0 A1 B0 B1 C0 C1 D0 E0 N0]. constructor; auto; try (now constructor).
  - intros it ip ir v H Hv. cbn [plane_setZero set_counters ht] in Hv. rewrite (cell_fill 0) in Hv; auto.
    + injection Hv as <-. unfold M64. lia.
    + unfold gcell. rewrite A1. apply in_box3. unfold cell_in, dir_in in H. cbn in H. lia.
  - apply fill_nonneg.
Qed.

(** ** Conversion to int *)
Lemma Int_part_iff x z : Int_part x = z <-> (IZR z <= x < IZR z + 1)%R.
Proof.
  destruct (base_Int_part x) as [H1 H2]. split.
  - intros <-. lra.
  - intros [H3 H4]. assert (K1 : (IZR (Int_part x) < IZR (z + 1))%R) by (rewrite plus_IZR; lra).
    assert (K2 : (IZR z < IZR (Int_part x + 1))%R) by (rewrite plus_IZR; lra).
    apply lt_IZR in K1. apply lt_IZR in K2. lia.
Qed.

Lemma trunc_pos x z : 0 < z -> truncR x = z <-> in_bin x z.
Proof.
  intros Hz. unfold truncR, in_bin. assert (Hzr : (0 < IZR z)%R) by (apply (IZR_lt 0); lia). destruct (Rle_dec 0 x) as [H|H].
  - apply Int_part_iff.
  - split.
    + intros E. assert (E2 : Int_part (- x) = - z) by lia. apply Int_part_iff in E2. rewrite opp_IZR in E2.
      assert (1 <= IZR z)%R by (apply (IZR_le 1); lia). lra.
    + intros [H1 _]. lra.
Qed.
Lemma trunc_zero x : truncR x = 0 <-> (-1 < x < 1)%R.
Proof.
  unfold truncR. destruct (Rle_dec 0 x) as [H|H].
  - rewrite Int_part_iff. lra.
  - split.
    + intros E. assert (E2 : Int_part (- x) = 0) by lia. apply Int_part_iff in E2. lra.
    + intros H1. assert (E2 : Int_part (- x) = 0) by (apply Int_part_iff; lra). lia.
Qed.
Lemma trunc_code x z : 0 <= z -> truncR x = z <-> code_bin x z.
Proof.
  intros Hz. unfold code_bin. destruct (Z.eq_dec z 0) as [->|Hne].
  - rewrite trunc_zero. split; [auto|]. intros [[_ H]|[H _]]; [auto|lia].
  - rewrite trunc_pos by lia. split; [right; split; [lia|auto]|]. intros [[H _]|[_ H]]; [lia|auto].
Qed.
Lemma Int_part_lt x n : Int_part x < n <-> (x < IZR n)%R.
Proof.
  destruct (base_Int_part x) as [H1 H2]. split; intros H.
  - assert (K : (IZR (Int_part x + 1) <= IZR n)%R) by (apply IZR_le; lia). rewrite plus_IZR in K. lra.
  - apply lt_IZR. lra.
Qed.
Lemma cast_exact x : ((- 2147483649 < x < 2147483648)%R /\ cast_int x = Ret (truncR x)) \/ (~ (- 2147483649 < x < 2147483648)%R /\ cast_int x = UB).
Proof.
  assert (K : (- 2147483649 < x < 2147483648)%R <-> -2147483648 <= truncR x < 2147483648).
  { unfold truncR. destruct (Rle_dec 0 x) as [H|H].
    - rewrite <- (Int_part_lt x 2147483648). assert (K1 : ~ Int_part x < 0) by (rewrite Int_part_lt; lra). split; [lia|]. intros [_ K2]. split; [lra|auto].
    - pose proof (Int_part_lt (- x) 2147483649) as K1. assert (K2 : ~ Int_part (- x) < 0) by (rewrite Int_part_lt; lra). split.
      + intros [H1 H2]. assert (Int_part (- x) < 2147483649) by (apply K1; lra). lia.
      + intros [H1 H2]. assert (- x < 2147483649)%R by (apply K1; lia). lra. }
  unfold cast_int. cbv zeta. change (- 2 ^ 31) with (-2147483648). change (2 ^ 31) with 2147483648.
  destruct ((-2147483648 <=? truncR x) && (truncR x <? 2147483648)) eqn:E.
  - left. split; [|reflexivity]. apply K. apply andb_prop in E. destruct E as [E1 E2]. apply Z.leb_le in E1. apply Z.ltb_lt in E2. lia.
  - right. split; [|reflexivity]. rewrite K. apply andb_false_iff in E. destruct E as [E|E]; [apply Z.leb_gt in E|apply Z.ltb_ge in E]; lia.
Qed.
Lemma cast_fits x : (- 2147483649 < x < 2147483648)%R -> cast_int x = Ret (truncR x).
Proof. intros H. destruct (cast_exact x) as [[_ E]|[H' _]]; [auto|contradiction]. Qed.

(** ** Voting *)
Definition nvotes (d : plane) (n : vec3) (ir : Z) (pts : list vec3) : Z :=
  Z.of_nat (length (filter (fun p => truncR ((dot3 n p - rmin d) / rres d) =? ir) pts)).

Lemma nvotes_cons d n ir p r : nvotes d n ir (p :: r) =
  (if truncR ((dot3 n p - rmin d) / rres d) =? ir then 1 else 0) + nvotes d n ir r.
Proof. unfold nvotes. cbn [filter]. destruct (_ =? ir); cbn [length]; lia. Qed.

Lemma inr_true x n : inr x n = true <-> 0 <= x < n.
Proof. unfold inr. rewrite andb_true_iff, Z.leb_le, Z.ltb_lt. tauto. Qed.
Lemma inr_false x n : inr x n = false <-> ~ 0 <= x < n.
Proof. rewrite <- inr_true. destruct (inr x n); split; congruence. Qed.

Lemma vote_points_lemma d it ip n pts g :
  (forall p, In p pts -> rres d <> 0%R /\ (- 2147483649 < (dot3 n p - rmin d) / rres d < 2147483648)%R) ->
  greach 0 g -> gdom g = mkI [0; 0; 0] [tnum d; pnum d; rnum d] -> 0 <= it < tnum d -> 0 <= ip < pnum d ->
  (forall ir v, 0 <= ir < rnum d -> grid_get g [it; ip; ir] = Ret v -> 0 <= v < M64) ->
  exists g', vote_points d it ip n pts g = Ret g' /\ greach 0 g' /\ gdom g' = gdom g /\
    (forall ir, 0 <= ir < rnum d -> grid_get g' [it; ip; ir] = Ret ((gval g [it; ip; ir] + nvotes d n ir pts) mod M64)) /\
    forall x, gcell g x -> (forall ir, x <> [it; ip; ir]) -> grid_get g' x = grid_get g x.
Proof.
  revert g. induction pts as [|p r IH]; intros g Hfit Hg Hd Hit Hip Hrange.
  - exists g. split; [reflexivity|]. split; [auto|]. split; [auto|]. split; [|auto]. intros ir Hir.
    destruct (cell_get 0 g [it; ip; ir] Hg) as (v & Hv). { unfold gcell. rewrite Hd. apply in_box3. lia. }
    rewrite Hv. rewrite (grid_get_val _ _ _ Hv). change (nvotes d n ir []) with 0. rewrite Z.add_0_r, Z.mod_small; auto. eauto.
  - cbn [vote_points]. unfold cast_quot. destruct (Req_EM_T (rres d) 0) as [Hz|_]; [exfalso; exact (proj1 (Hfit p (or_introl eq_refl)) Hz)|].
    rewrite cast_fits by (apply Hfit; now left). cbn [obind].
    set (k := truncR ((dot3 n p - rmin d) / rres d)).
    assert (Hcell : forall ir, 0 <= ir < rnum d -> gcell g [it; ip; ir]). { intros ir Hir. unfold gcell. rewrite Hd. apply in_box3. lia. }
    destruct (inr k (rnum d)) eqn:Ek.
    + apply inr_true in Ek. destruct (cell_get 0 g [it; ip; k] Hg (Hcell k Ek)) as (v & Hv). rewrite Hv. cbn [obind].
      destruct (cell_set 0 g [it; ip; k] ((v + 1) mod M64) Hg (Hcell k Ek)) as (g1 & E1 & G1 & G2 & G3 & G4). rewrite E1. cbn [obind].
      destruct (IH g1) as (g' & E' & H1 & H2 & H3 & H4); auto.
      * intros q Hq. apply Hfit. now right.
      * congruence.
      * intros ir w Hir Hw. destruct (Z.eq_dec ir k) as [->|Hne].
        -- rewrite G3 in Hw. injection Hw as <-. apply Z.mod_pos_bound. reflexivity.
        -- rewrite G4 in Hw; eauto. intros X. injection X. lia.
      * exists g'. split; [auto|]. split; [auto|]. split; [congruence|]. split.
        -- intros ir Hir. rewrite (H3 ir Hir), nvotes_cons. fold k. f_equal. destruct (Z.eqb_spec k ir) as [<-|Hne].
           ++ rewrite (grid_get_val _ _ _ G3), (grid_get_val _ _ _ Hv). rewrite Z.add_mod_idemp_l by (unfold M64; lia). f_equal. lia.
           ++ unfold gval at 1. rewrite (G4 [it; ip; ir]); [|auto|intros X; injection X; lia]. reflexivity.
        -- intros x Hx Hne. rewrite H4; auto. unfold gcell in *. congruence.
    + apply inr_false in Ek. cbn [obind]. destruct (IH g) as (g' & E' & H1 & H2 & H3 & H4); auto.
      { intros q Hq. apply Hfit. now right. }
      exists g'. split; [auto|]. split; [auto|]. split; [auto|]. split; [|auto].
      intros ir Hir. rewrite (H3 ir Hir), nvotes_cons. fold k. destruct (Z.eqb_spec k ir) as [<-|Hne]; [contradiction|]. reflexivity.
Qed.

Lemma offset_dot d it ip p : offset d it ip p = ((dot3 (dir_of d it ip) p - rmin d) / rres d)%R.
Proof. unfold offset, dot3. destruct (dir_of d it ip) as [[a b] c]. destruct p as [[x y] z]. reflexivity. Qed.

Lemma vote_all_lemma d pts : wf d -> 8 <= pnum d \/ tnum d = 0 \/ pnum d = 0 -> offsets_fit d pts -> exists g', vote_all d pts = Ret g' /\ greach 0 g' /\
  gdom g' = gdom (ht d) /\
  forall it ip ir, cell_in d it ip ir ->
    grid_get g' [it; ip; ir] = Ret ((gval (ht d) [it; ip; ir] + nvotes d (dir_of d it ip) ir pts) mod M64).
Proof.
  intros W H8 Hfit. destruct W as [S0 A0 A1 B0 B1 C0 C1 D0 E0 N0].
  unfold vote_all. cbv zeta.
  set (new := fun it ip ir => Ret ((gval (ht d) [it; ip; ir] + nvotes d (dir_of d it ip) ir pts) mod M64)).
  set (P := fun n g => greach 0 g /\ gdom g = gdom (ht d) /\
     (forall it ip ir, cell_in d it ip ir -> it < n -> grid_get g [it; ip; ir] = new it ip ir) /\
     (forall it ip ir, cell_in d it ip ir -> n <= it -> grid_get g [it; ip; ir] = grid_get (ht d) [it; ip; ir])).
  match goal with |- exists zz, for_loop _ ?F _ = _ /\ _ => destruct (for_loop_inv P (tnum d) F (ht d)) as (g' & E & P1 & P2 & P3 & P4) end.
  - apply S0.
  - split; [auto|]. split; [auto|]. split; [|auto]. intros it ip ir [[H _] _]. lia.
  - intros it g Hit (P1 & P2 & P3 & P4).
    set (Q := fun m h => greach 0 h /\ gdom h = gdom (ht d) /\
     (forall ip ir, cell_in d it ip ir -> ip < m -> grid_get h [it; ip; ir] = new it ip ir) /\
     (forall ip ir, cell_in d it ip ir -> m <= ip -> grid_get h [it; ip; ir] = grid_get (ht d) [it; ip; ir]) /\
     (forall i ip ir, cell_in d i ip ir -> i <> it -> grid_get h [i; ip; ir] = grid_get g [i; ip; ir])).
    match goal with |- exists zz, for_loop _ ?F _ = _ /\ _ => destruct (for_loop_inv Q (pnum d) F g) as (g' & E & Q1 & Q2 & Q3 & Q4 & Q5) end.
    + apply S0.
    + split; [auto|]. split; [auto|]. split; [intros ip ir [[_ H] _]; lia|]. split; [intros; apply P4; auto; lia|auto].
    + intros ip h Hip (Q1 & Q2 & Q3 & Q4 & Q5).
      assert (Hn : pnum d ÷ 8 <> 0). { assert (8 <= pnum d) by lia. assert (1 <= pnum d ÷ 8) by (apply Z.quot_le_lower_bound; lia). lia. }
      apply Z.eqb_neq in Hn. rewrite Hn. rewrite D0 by (split; auto). cbn [obind].
      destruct (vote_points_lemma d it ip (dir_of d it ip) pts h) as (h' & Eh & R1 & R2 & R3 & R4); auto.
      * intros p Hp. rewrite <- offset_dot. apply Hfit; auto. split; auto.
      * congruence.
      * intros ir v Hir Hv. assert (Hc : cell_in d it ip ir) by (split; [split|]; auto).
        rewrite (Q4 ip ir Hc) in Hv by lia. eauto.
      * assert (Hcell : forall i j k, cell_in d i j k -> gcell h [i; j; k]).
        { intros i j k [[X Y] Z']. unfold gcell. rewrite Q2, A1. apply in_box3. auto. }
        exists h'. split; [exact Eh|]. split; [auto|]. split; [congruence|]. split; [|split].
        -- intros j ir Hc Hj. destruct (Z.eq_dec j ip) as [->|Hne].
           ++ rewrite R3 by apply Hc. unfold new, gval. rewrite (Q4 ip ir Hc) by lia. reflexivity.
           ++ rewrite R4; [apply Q3; auto; lia|auto|]. intros k X. injection X. lia.
        -- intros j ir Hc Hj. rewrite R4; [apply Q4; auto; lia|auto|]. intros k X. injection X. lia.
        -- intros i j ir Hc Hi. rewrite R4; [apply Q5; auto|auto|]. intros k X. injection X. lia.
    + exists g'. split; [exact E|]. split; [auto|]. split; [auto|]. split.
      * intros i ip ir Hc Hi. destruct (Z.eq_dec i it) as [->|Hne]; [apply Q3; auto; apply Hc|]. rewrite Q5 by auto. apply P3; auto. lia.
      * intros i ip ir Hc Hi. rewrite Q5 by (auto; lia). apply P4; auto. lia.
  - exists g'. split; [exact E|]. split; [auto|]. split; [auto|]. intros it ip ir Hc. apply P3; auto. apply Hc.
Qed.

(** ** Spectrum *)
Lemma sum_upto_ext n f f' : (forall i, 0 <= i < Z.of_nat n -> f i = f' i) -> sum_upto n f = sum_upto n f'.
Proof. induction n as [|n IH]; intros H; cbn; auto. rewrite IH, H; auto; lia || (intros; apply H; lia). Qed.

Lemma spectrum_cell_lemma d g it ip : 0 <= rnum d -> (forall ir, 0 <= ir < rnum d -> exists v, grid_get g [it; ip; ir] = Ret v) ->
  spectrum_cell d g it ip = Ret (sum_upto (Z.to_nat (rnum d)) (fun ir => gval g [it; ip; ir] * gval g [it; ip; ir]) mod M64).
Proof.
  intros Hn Hg. unfold spectrum_cell.
  destruct (for_loop_inv (fun n acc => acc = sum_upto (Z.to_nat n) (fun ir => gval g [it; ip; ir] * gval g [it; ip; ir]) mod M64) (rnum d)
    (fun ir acc => obind (grid_get g [it; ip; ir]) (fun v => Ret ((acc + v * v) mod M64))) 0 Hn) as (b & E & Hb).
  - reflexivity.
  - intros i b Hi ->. destruct (Hg i Hi) as (v & Hv). rewrite Hv. cbn [obind]. eexists. split; [reflexivity|].
    replace (Z.to_nat (i + 1)) with (S (Z.to_nat i)) by lia. cbn [sum_upto]. rewrite Z2Nat.id by lia.
    rewrite (grid_get_val _ _ _ Hv), Z.add_mod_idemp_l by (unfold M64; lia). reflexivity.
  - rewrite E. now subst.
Qed.

(** ** Every reachable detector satisfies the invariant *)
Lemma loop_over_pres {A} (P : A -> Prop) l (f : Z -> A -> outcome A) a b : loop_over l f a = Ret b -> P a ->
  (forall i x y, In i l -> P x -> f i x = Ret y -> P y) -> P b.
Proof.
  revert a. induction l as [|i r IH]; cbn; intros a E Pa H; [injection E as <-; auto|].
  destruct (f i a) as [a1| | |] eqn:Ea; try discriminate. cbn in E. apply (IH a1); eauto.
Qed.
Lemma for_loop_pres {A} (P : A -> Prop) n (f : Z -> A -> outcome A) a b : for_loop n f a = Ret b -> P a ->
  (forall i x y, 0 <= i < n -> P x -> f i x = Ret y -> P y) -> P b.
Proof. intros E Pa H. apply (loop_over_pres P _ _ _ _ E Pa). intros i x y Hi. apply H. now apply in_zrange. Qed.

Definition okgrid (d : plane) (g : grid Z) : Prop :=
  greach 0 g /\ gdom g = gdom (ht d) /\ forall it ip ir v, cell_in d it ip ir -> grid_get g [it; ip; ir] = Ret v -> 0 <= v < M64.

Lemma okgrid_set d g it ip ir v g' : wf d -> okgrid d g -> cell_in d it ip ir -> grid_set g [it; ip; ir] (v mod M64) = Ret g' -> okgrid d g'.
Proof.
  intros W (G1 & G2 & G3) Hc E.
  assert (Hcell : forall i j k, cell_in d i j k -> gcell g [i; j; k]).
  { intros i j k [[X Y] Z']. unfold gcell. rewrite G2, (wf_htd _ W). apply in_box3. auto. }
  destruct (cell_set 0 g [it; ip; ir] (v mod M64) G1 (Hcell _ _ _ Hc)) as (g1 & E1 & K1 & K2 & K3 & K4).
  rewrite E1 in E. injection E as <-. split; [auto|]. split; [congruence|]. intros i j k w Hk Hw.
  destruct (list_eq_dec Z.eq_dec [i; j; k] [it; ip; ir]) as [Heq|Hne].
  - rewrite Heq, K3 in Hw. injection Hw as <-. apply Z.mod_pos_bound. reflexivity.
  - rewrite K4 in Hw; eauto.
Qed.

Lemma vote_points_ok d it ip n pts g g' : wf d -> okgrid d g -> dir_in d it ip -> vote_points d it ip n pts g = Ret g' -> okgrid d g'.
Proof.
  intros W Hg Hd. revert g Hg. induction pts as [|p r IH]; cbn [vote_points]; intros g Hg E; [injection E as <-; auto|].
  destruct (cast_quot _ _) as [k| | |]; try discriminate. cbn [obind] in E. destruct (inr k (rnum d)) eqn:Ek.
  - apply inr_true in Ek. destruct (grid_get g [it; ip; k]) as [v| | |]; try discriminate. cbn [obind] in E.
    destruct (grid_set g _ _) as [g1| | |] eqn:E1; try discriminate. cbn [obind] in E.
    apply (IH g1); auto. apply (okgrid_set d g it ip k (v + 1)); auto. split; auto.
  - cbn [obind] in E. eauto.
Qed.

Lemma set_nonneg (g : grid Z) x v g' : Forall (fun v => 0 <= v) (gdata g) -> grid_set g x v = Ret g' -> 0 <= v -> Forall (fun v => 0 <= v) (gdata g').
Proof.
  intros H E Hv. unfold grid_set in E. destruct (zidx _) as [k|]; [|discriminate]. unfold vwrite in E. destruct (nth_error (gdata g) k); [|discriminate].
  cbn [obind] in E. injection E as <-. cbn [gdata]. revert k. induction H as [|a l Ha Hl IH]; intros k; [constructor|]. destruct k; cbn [lset]; constructor; auto.
Qed.
Lemma spectrum_cell_nonneg d g it ip s : spectrum_cell d g it ip = Ret s -> 0 <= s.
Proof.
  intros E. unfold spectrum_cell in E. apply (for_loop_pres (fun z => 0 <= z) _ _ _ _ E); [lia|]. intros i x y _ _ Ey.
  destruct (grid_get g _) as [v| | |]; try discriminate. cbn [obind] in Ey. injection Ey as <-. apply Z.mod_pos_bound. reflexivity.
Qed.

Lemma gval_nonneg (g : grid Z) x : Forall (fun v => 0 <= v) (gdata g) -> 0 <= gval g x.
Proof.
  intros H. unfold gval, grid_get. destruct (zidx _) as [k|]; [|lia]. unfold vread. destruct (nth_error (gdata g) k) eqn:E; [|lia].
  apply nth_error_In in E. rewrite Forall_forall in H. auto.
Qed.

Lemma wf_insert d pts d' : wf d -> plane_insert d pts = Ret d' -> wf d' /\ same_config d d'.
Proof.
  intros W E. pose proof W as [S0 A0 A1 B0 B1 C0 C1 D0 E0 N0]. unfold plane_insert in E.
  destruct (vote_all d pts) as [g| | |] eqn:Eg; try discriminate. cbn [obind] in E.
  destruct (spectrum d g) as [h| | |] eqn:Eh; try discriminate. cbn [obind] in E. injection E as <-.
  assert (K : okgrid d g).
  { unfold vote_all in Eg. cbv zeta in Eg. apply (for_loop_pres (okgrid d) _ _ _ _ Eg).
    - split; [auto|]. split; [auto|]. auto.
    - intros it x y Hit Hx Ey. apply (for_loop_pres (okgrid d) _ _ _ _ Ey Hx). intros ip x' y' Hip Hx' Ey'.
      destruct (_ =? 0); [discriminate|]. destruct (grid_get (lut d) _); try discriminate. cbn [obind] in Ey'.
      eapply vote_points_ok; eauto. split; auto. }
  set (Q := fun h : grid Z => greach 0 h /\ gdom h = gdom (hs d) /\ Forall (fun v => 0 <= v) (gdata h)).
  assert (KS : Q h).
  { unfold spectrum in Eh. apply (for_loop_pres Q _ _ _ _ Eh); [split; auto|].
    intros it x y Hit Hx Ey. apply (for_loop_pres Q _ _ _ _ Ey Hx).
    intros ip x' y' Hip (Hx' & Hx'' & Hn) Ey'. destruct (spectrum_cell d g it ip) as [s| | |] eqn:Es; try discriminate. cbn [obind] in Ey'.
    destruct (cell_set 0 x' [it; ip] s Hx') as (g1 & E1 & K1 & K2 & _). { unfold gcell. rewrite Hx'', B1. apply in_box2. auto. }
    rewrite E1 in Ey'. injection Ey' as <-. split; [auto|]. split; [congruence|]. apply (set_nonneg _ _ _ _ Hn) in E1; auto. eapply spectrum_cell_nonneg; eauto. }
  destruct K as (K1 & K2 & K3). destruct KS as (L1 & L2 & L3). split; [|repeat split].
  constructor; cbn [set_counters ht hs lut tnum pnum rnum]; auto; congruence.
Qed.

Lemma insert_lemma d pts : wf d -> 8 <= pnum d \/ tnum d = 0 \/ pnum d = 0 -> offsets_fit d pts -> exists d', plane_insert d pts = Ret d' /\ wf d' /\ same_config d d' /\
  (forall it ip ir, cell_in d it ip ir ->
    grid_get (ht d') [it; ip; ir] = Ret ((gval (ht d) [it; ip; ir] + nvotes d (dir_of d it ip) ir pts) mod M64)) /\
  (forall it ip, dir_in d it ip -> grid_get (hs d') [it; ip] =
    Ret (sum_upto (Z.to_nat (rnum d)) (fun ir => gval (ht d') [it; ip; ir] * gval (ht d') [it; ip; ir]) mod M64)).
Proof.
  intros W H8 Hfit. destruct (vote_all_lemma d pts W H8 Hfit) as (g & Eg & G1 & G2 & G3).
  pose proof W as [S0 A0 A1 B0 B1 C0 C1 D0 E0 N0]. unfold plane_insert. rewrite Eg. cbn [obind].
  unfold spectrum.
  set (f := fun it ip => sum_upto (Z.to_nat (rnum d)) (fun ir => gval g [it; ip; ir] * gval g [it; ip; ir]) mod M64).
  destruct (write_all 0 (hs d) (tnum d) (pnum d)
    (fun it ip h => obind (spectrum_cell d g it ip) (fun s => grid_set h [it; ip] s)) f) as (h & Eh & H1 & H2 & H3); auto; try apply S0.
  { intros i j h Hi Hj _ _. rewrite spectrum_cell_lemma; [reflexivity|apply S0|]. intros ir Hir. rewrite G3 by (split; [split|]; auto). eauto. }
  rewrite Eh. cbn [obind]. eexists. split; [reflexivity|]. split; [|split; [|split]].
  - apply (wf_insert d pts _ W). unfold plane_insert. rewrite Eg. cbn [obind]. unfold spectrum. now rewrite Eh.
  - repeat split.
  - intros it ip ir Hc. cbn [set_counters ht]. now apply G3.
  - intros it ip [Hi Hj]. cbn [set_counters hs ht]. now apply H3.
Qed.

Lemma preach_wf d : preach d -> wf d.
Proof.
  induction 1 as [|d nt np nr mn res d' Hd IH Hs E|d a b c Hd IH|d Hd IH|d pts d' Hd IH E].
  - apply wf_new.
  - destruct (wf_init d nt np nr mn res IH Hs) as (d1 & E1 & W & _). rewrite E1 in E. now injection E as <-.
  - now apply wf_window.
  - now apply wf_zero.
  - now apply (wf_insert d pts).
Qed.
