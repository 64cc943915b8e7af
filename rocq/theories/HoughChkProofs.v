(** * Proofs: the searches of the Hough detectors in int arithmetic. *)
From Coq Require Import List ZArith Bool Reals Lia Permutation.
From Verif Require Import Base BaseLemmas IntervalModel IntervalSpec PeakModel PeakProofs HoughModel HoughSpec HoughProofs HoughFacts HoughFind HoughWitness
  IntervalChkModel IntervalChkSpec PeakChkSpec PeakChkProofs HoughChkModel HoughChkSpec.
Import ListNotations.
Open Scope Z_scope.

Lemma axis_dec n w : {axis_fits n w} + {~ axis_fits n w}.
Proof.
  unfold axis_fits. destruct (Z_lt_dec (2 * w + 1) (2 ^ 31)) as [H|H]; [|right; tauto]. destruct (Z_lt_dec (n + w) (2 ^ 31)) as [G|G]; [left|right]; tauto.
Qed.
Lemma fit1 n w : 0 < n < 2 ^ 31 -> 0 <= w -> (windows_fit [0] [n] [w] <-> axis_fits n w).
Proof.
  intros Hn Hw. unfold axis_fits. split.
  - intros H. destruct (H 0%nat _ _ _ eq_refl eq_refl eq_refl) as (H1 & H2 & H3). unfold fits in *. lia.
  - intros H [|[|k]] m d v E1 E2 E3; cbn [nth_error] in *; try discriminate. injection E1 as <-. injection E2 as <-. injection E3 as <-. unfold fits. lia.
Qed.
Lemma fit2 a b v w : 0 < a < 2 ^ 31 -> 0 < b < 2 ^ 31 -> 0 <= v -> 0 <= w -> (windows_fit [0; 0] [a; b] [v; w] <-> axis_fits a v /\ axis_fits b w).
Proof.
  intros Ha Hb Hv Hw. unfold axis_fits. split.
  - intros H. destruct (H 0%nat _ _ _ eq_refl eq_refl eq_refl) as (H1 & H2 & H3). destruct (H 1%nat _ _ _ eq_refl eq_refl eq_refl) as (G1 & G2 & G3). unfold fits in *. lia.
  - intros H [|[|[|k]]] m d x E1 E2 E3; cbn [nth_error] in *; try discriminate; injection E1 as <-; injection E2 as <-; injection E3 as <-; unfold fits; lia.
Qed.

Lemma line_detect {V} (comp : V -> V -> bool) val n w fm : 0 < n < 2 ^ 31 -> 0 <= w ->
  (axis_fits n w -> detect_chk comp val (mkI [0] [n]) [w] fm = detect comp val (mkI [0] [n]) [w] fm) /\
  (~ axis_fits n w -> detect_chk comp val (mkI [0] [n]) [w] fm = UB).
Proof.
  intros Hn Hw. destruct (detect_zig_lemma comp val (mkI [0] [n]) [w] fm) as [H1 H2]; cbn [imin idim] in *.
  - now apply box1.
  - reflexivity.
  - repeat constructor; auto.
  - exact I.
  - rewrite fit1 in H1, H2 by auto. auto.
Qed.

Lemma spectrum_chk_lemma d out : wf d -> positive d -> windows_ok d ->
  (dirs_fit d -> findSpectrumMax_chk d out = findSpectrumMax d out) /\ (~ dirs_fit d -> findSpectrumMax_chk d out = UB).
Proof.
  intros W (Ht & Hp & Hr) (Wt & Wp & Wr). destruct (wf_sizes _ W) as (_ & _ & _ & Hv & _).
  assert (B1 : 0 < tnum d < 2 ^ 31) by nia. assert (B2 : 0 < pnum d < 2 ^ 31) by nia.
  destruct (detect_zig_lemma Z.gtb (gval (hs d)) (mkI [0; 0] [tnum d; pnum d]) [twin d; pwin d] None) as [H1 H2]; cbn [imin idim] in *.
  - now apply box2.
  - reflexivity.
  - repeat constructor; auto.
  - cbn. auto.
  - rewrite fit2 in H1, H2 by auto. unfold findSpectrumMax_chk, findSpectrumMax, dirs_fit. split; intros F; [rewrite H1|rewrite H2]; auto.
Qed.

Lemma rho_chk_lemma d it ip : wf d -> positive d -> windows_ok d -> dir_in d it ip ->
  (bins_fit d -> rho_maxima_chk d it ip = rho_maxima d it ip) /\ (~ bins_fit d -> rho_maxima_chk d it ip = UB).
Proof.
  intros W Hpos (Wt & Wp & Wr) Hi. destruct (line_detect Z.gtb (fun ix => gval (ht d) (it :: ip :: ix)) (rnum d) (rwin d) None) as [H1 H2]; auto.
  { now apply rnum_bound. }
  unfold rho_maxima_chk, rho_maxima, bins_fit. destruct (mapM_ret (fun ir => grid_get (ht d) [it; ip; ir]) (zrange (rnum d))) as (ys & Ey & _).
  { intros ir Hir. apply in_zrange in Hir. rewrite wf_get by (auto; split; auto). eauto. }
  rewrite Ey. cbn [obind]. split; intros F; [rewrite H1|rewrite H2]; auto.
Qed.

Lemma rows_chk_fit d m : wf d -> positive d -> windows_ok d -> bins_fit d -> (forall x, In x m -> exists it ip, x = [it; ip] /\ dir_in d it ip) -> rows_chk d m = rows d m.
Proof.
  intros W Hp Hw F. induction m as [|x r IH]; intros Hm; [reflexivity|]. destruct (Hm x (or_introl eq_refl)) as (it & ip & -> & Hi).
  cbn [rows_chk rows]. rewrite (proj1 (rho_chk_lemma d it ip W Hp Hw Hi)) by auto. rewrite IH by (intros z Hz; apply Hm; now right). reflexivity.
Qed.

Lemma planes_chk_lemma d sort hyp dirs : wf d -> positive d -> windows_ok d -> findSpectrumMax d [] = Ret dirs ->
  (dirs_fit d -> bins_fit d \/ dirs = [] -> findPlanes_chk sort d hyp = findPlanes sort d hyp) /\
  (~ dirs_fit d \/ (~ bins_fit d /\ dirs <> []) -> findPlanes_chk sort d hyp = UB).
Proof.
  intros W Hp Hw Ed. destruct (spectrum_max_lemma d W Hp Hw) as (m & Em & _ & Hm). assert (m = dirs) by congruence. subst m.
  assert (Hd : forall x, In x dirs -> exists it ip, x = [it; ip] /\ dir_in d it ip).
  { intros x Hx. destruct (Hm x Hx) as (it & ip & -> & Hi & _). eauto. }
  destruct (spectrum_chk_lemma d [] W Hp Hw) as [S1 S2]. unfold findPlanes_chk, findPlanes. split.
  - intros F [G|G]; rewrite S1 by auto; rewrite Ed; cbn [obind].
    + now rewrite rows_chk_fit.
    + subst dirs. reflexivity.
  - intros H. assert (dirs_fit d \/ ~ dirs_fit d) as [F|F] by (unfold dirs_fit; destruct (axis_dec (tnum d) (twin d)), (axis_dec (pnum d) (pwin d)); tauto).
    + destruct H as [H|[G N]]; [contradiction|]. rewrite S1 by auto. rewrite Ed. cbn [obind]. destruct dirs as [|x r]; [congruence|].
      destruct (Hd x (or_introl eq_refl)) as (it & ip & -> & Hi). cbn [rows_chk]. rewrite (proj2 (rho_chk_lemma d it ip W Hp Hw Hi)) by auto. reflexivity.
    + rewrite S2 by auto. reflexivity.
Qed.

Lemma lines_chk_lemma d out : lreach d -> 0 < ltnum d -> 0 <= ltwin d ->
  (axis_fits (ltnum d) (ltwin d) -> findLines_chk d out = Ret out) /\ (~ axis_fits (ltnum d) (ltwin d) -> findLines_chk d out = UB).
Proof.
  intros Hd Ht Hw. destruct (lreach_zeros d Hd) as (_ & _ & _ & _ & _ & Z6 & _).
  destruct (line_detect Z.gtb (lhs_val d) (ltnum d) (ltwin d) None) as [H1 H2]; auto; try lia.
  pose proof (no_lines_lemma d [] Hd Ht Hw) as N. pose proof (no_lines_lemma d out Hd Ht Hw) as N'.
  unfold findLines_chk, line_spectrumMax_chk, findLines, line_spectrumMax in *. split; intros F.
  - rewrite H1 by auto. destruct (detect Z.gtb (lhs_val d) (mkI [0] [ltnum d]) [ltwin d] None) as [m| | |] eqn:E; try discriminate N. cbn [obind app] in *.
    assert (m = []) as ->; [|cbn; now rewrite app_nil_r].
    destruct m as [|x r]; [reflexivity|]. exfalso. destruct (detect_beats _ _ _ _ _ _ E x (or_introl eq_refl)) as (y & Ey).
    assert (V : forall x, lhs_val d x = 0).
    { destruct (lreach_zeros d Hd) as (_ & Z2 & _). intros [|i [|j z]]; cbn; auto. destruct (nth_in_or_default (Z.to_nat i) (lhs d) 0) as [Hin| ->]; auto. rewrite Forall_forall in Z2. auto. }
    rewrite !V in Ey. discriminate.
  - rewrite H2 by auto. reflexivity.
Qed.

Lemma line_rows_chk_fit d m : 0 < lrnum d < 2 ^ 31 -> 0 <= lrwin d -> axis_fits (lrnum d) (lrwin d) -> line_rows_chk d m = line_rows d m.
Proof.
  intros Hr Hw F. induction m as [|x r IH]; [reflexivity|]. destruct x as [|a [|b x]]; try reflexivity. cbn [line_rows_chk line_rows].
  rewrite (proj1 (line_detect Z.gtb (fun ix => gval (lht d) (a :: ix)) (lrnum d) (lrwin d) None Hr Hw)) by auto. rewrite IH. reflexivity.
Qed.
Lemma lines_any_lemma d out dirs : 0 < ltnum d < 2 ^ 31 -> 0 < lrnum d < 2 ^ 31 -> 0 <= ltwin d -> 0 <= lrwin d -> line_spectrumMax d [] = Ret dirs ->
  (axis_fits (ltnum d) (ltwin d) -> axis_fits (lrnum d) (lrwin d) \/ dirs = [] -> findLines_chk d out = findLines d out) /\
  (~ axis_fits (ltnum d) (ltwin d) \/ (~ axis_fits (lrnum d) (lrwin d) /\ dirs <> []) -> findLines_chk d out = UB).
Proof.
  intros Ht Hr Wt Wr Ed. destruct (line_detect Z.gtb (lhs_val d) (ltnum d) (ltwin d) None Ht Wt) as [S1 S2].
  destruct (detect_safe_lemma Z.gtb (lhs_val d) (mkI [0] [ltnum d]) [ltwin d] None) as (o & Eo & _ & Ho); cbn [imin idim] in *; [now apply box1|reflexivity|repeat constructor; auto|].
  unfold line_spectrumMax in Ed. rewrite Eo in Ed. cbn [obind app] in Ed. injection Ed as <-. unfold findLines_chk, findLines, line_spectrumMax_chk, line_spectrumMax. split.
  - intros F [G|G]; rewrite S1 by auto; rewrite Eo; cbn [obind app].
    + now rewrite line_rows_chk_fit.
    + subst o. reflexivity.
  - intros H. destruct (axis_dec (ltnum d) (ltwin d)) as [F|F]; [|now rewrite S2].
    destruct H as [H|[G N]]; [contradiction|]. rewrite S1 by auto. rewrite Eo. cbn [obind app]. destruct o as [|x r]; [congruence|].
    destruct (Ho x (or_introl eq_refl)) as (B & _). destruct x as [|a [|b x]]; [inversion B| |inversion B; subst; match goal with H : in_box _ _ (b :: x) |- _ => inversion H end].
    cbn [line_rows_chk]. rewrite (proj2 (line_detect Z.gtb (fun ix => gval (lht d) (a :: ix)) (lrnum d) (lrwin d) None Hr Wr)) by auto. reflexivity.
Qed.
