(** * The facts behind the property theorems of the Hough detectors. *)
From Coq Require Import List ZArith Bool Reals Lra Lia Permutation Sorting.Sorted.
From Verif Require Import Base IntervalModel IntervalSpec GridSpec IntervalProofs PeakModel PeakSpec PeakProofs HoughModel HoughSpec HoughProofs.
Import ListNotations.
Open Scope Z_scope.

(** ** The accessors in range *)
Lemma cell_b d it ip ir : cell_in d it ip ir -> inr it (tnum d) && inr ip (pnum d) && inr ir (rnum d) = true.
Proof. intros [[H1 H2] H3]. apply inr_true in H1, H2, H3. now rewrite H1, H2, H3. Qed.
Lemma dir_b d it ip : dir_in d it ip -> inr it (tnum d) && inr ip (pnum d) = true.
Proof. intros [H1 H2]. apply inr_true in H1, H2. now rewrite H1, H2. Qed.
Lemma getHT_in d it ip ir : cell_in d it ip ir -> getHT d it ip ir = grid_get (ht d) [it; ip; ir].
Proof. intros H. unfold getHT. now rewrite cell_b. Qed.
Lemma getHS_in d it ip : dir_in d it ip -> getHS d it ip = grid_get (hs d) [it; ip].
Proof. intros H. unfold getHS. now rewrite dir_b. Qed.
Lemma wf_cell d it ip ir : wf d -> cell_in d it ip ir -> gcell (ht d) [it; ip; ir].
Proof. intros W [[X Y] Z']. unfold gcell. rewrite (wf_htd _ W). apply in_box3. auto. Qed.
Lemma wf_get d it ip ir : wf d -> cell_in d it ip ir -> grid_get (ht d) [it; ip; ir] = Ret (gval (ht d) [it; ip; ir]).
Proof. intros W H. destruct (cell_get 0 (ht d) _ (wf_ht _ W) (wf_cell d it ip ir W H)) as (v & E). unfold gval. now rewrite E. Qed.

Lemma cell_same d d' it ip ir : same_config d d' -> cell_in d it ip ir -> cell_in d' it ip ir.
Proof. intros (E & _) H. injection E as E1 E2 E3. unfold cell_in, dir_in in *. now rewrite <- E1, <- E2, <- E3. Qed.
Lemma dir_same d d' it ip : same_config d d' -> dir_in d it ip -> dir_in d' it ip.
Proof. intros (E & _) H. injection E as E1 E2 E3. unfold dir_in in *. now rewrite <- E1, <- E2. Qed.
Lemma same_sym d d' : same_config d d' -> same_config d' d.
Proof. intros (A & B & C & D). repeat split; congruence. Qed.
Lemma same_trans a b c : same_config a b -> same_config b c -> same_config a c.
Proof. intros (A & B & C & D) (A' & B' & C' & D'). repeat split; congruence. Qed.

(** ** Queries out of range (getters) *)
Lemma getters_reject_lemma d it ip ir :
  (~ cell_in d it ip ir -> getHT d it ip ir = Exit /\ getPlaneParam_ix d it ip ir = Exit /\ getPlaneParam_int d it ip ir = Exit) /\
  (~ dir_in d it ip -> getHS d it ip = Exit /\ getNormal d it ip = Exit).
Proof.
  split.
  - intros H. unfold getHT, getPlaneParam_ix, getPlaneParam_int. destruct (_ && _ && _) eqn:E; [|auto].
    exfalso. apply H. apply andb_prop in E. destruct E as [E E3]. apply andb_prop in E. destruct E as [E1 E2].
    apply inr_true in E1, E2, E3. split; [split|]; auto.
  - intros H. unfold getHS, getNormal. destruct (_ && _) eqn:E; [|auto].
    exfalso. apply H. apply andb_prop in E. destruct E as [E1 E2]. apply inr_true in E1, E2. split; auto.
Qed.

(** ** Normals *)
Lemma normals_lemma d it ip : preach d -> dir_in d it ip ->
  getNormal d it ip = Ret (direction (tmin d + tres d * IZR it) (pmin d + pres d * IZR ip)) /\
  unit3 (direction (tmin d + tres d * IZR it) (pmin d + pres d * IZR ip)).
Proof.
  intros Hd Hi. pose proof (preach_wf d Hd) as W. split.
  - unfold getNormal. rewrite dir_b by auto. apply (wf_dir _ W _ _ Hi).
  - unfold direction, unit3. set (t := (tmin d + _)%R). set (f := (pmin d + _)%R). pose proof (sin2_cos2 t) as E1. pose proof (sin2_cos2 f) as E2.
    unfold Rsqr in *. replace (cos t * cos f * (cos t * cos f) + cos t * sin f * (cos t * sin f) + sin t * sin t)%R
      with (cos t * cos t * (sin f * sin f + cos f * cos f) + sin t * sin t)%R by ring. rewrite E2. lra.
Qed.

(** ** Plane parameters *)
Lemma params_agree_lemma d it ip ir : preach d -> cell_in d it ip ir ->
  exists n c c', getPlaneParam_ix d it ip ir = Ret (n, c) /\ getPlaneParam_int d it ip ir = Ret (n, c') /\
    c = (- (rmin d + rres d * IZR ir))%R /\ (c = c' <-> rmin d = 0%R).
Proof.
  intros Hd Hi. destruct (normals_lemma d it ip Hd (proj1 Hi)) as [En _]. unfold getPlaneParam_ix, getPlaneParam_int.
  rewrite cell_b by auto. rewrite En. cbn [obind]. do 3 eexists. split; [reflexivity|]. split; [reflexivity|]. split; [ring|]. split; intros; lra.
Qed.

(** ** Init *)
Lemma init_lemma d nt np nr mn res : preach d -> sizes_ok nt np nr -> exists d', plane_init d nt np nr mn res = Ret d' /\ preach d' /\
  (tnum d', pnum d', rnum d') = (nt, np, nr) /\ (tmin d', pmin d', rmin d') = mn /\ (tres d', pres d', rres d') = res /\
  (twin d', pwin d', rwin d') = (twin d, pwin d, rwin d) /\
  (forall it ip ir, cell_in d' it ip ir -> getHT d' it ip ir = Ret 0) /\
  (forall it ip, dir_in d' it ip -> getHS d' it ip = Ret 0).
Proof.
  intros Hd Hs. destruct (wf_init d nt np nr mn res (preach_wf d Hd) Hs) as (d' & E & W & E1 & E2 & E3 & E4 & H1 & H2).
  exists d'. split; [auto|]. split; [econstructor; eauto|]. repeat (split; [assumption|]). split.
  - intros. rewrite getHT_in; auto.
  - intros. rewrite getHS_in; auto.
Qed.

(** ** Insert *)
Lemma nvotes_counts d it ip ir pts : 0 <= ir -> counts (fun p => code_bin (offset d it ip p) ir) pts (nvotes d (dir_of d it ip) ir pts).
Proof.
  intros Hr. induction pts as [|p r IH]; [constructor|]. rewrite nvotes_cons. rewrite <- offset_dot.
  destruct (Z.eqb_spec (truncR (offset d it ip p)) ir) as [E|E].
  - rewrite Z.add_comm. constructor; auto. now apply trunc_code.
  - constructor; auto. intros H. apply E. now apply trunc_code.
Qed.

Lemma counts_unique {A} (P : A -> Prop) l n m : counts P l n -> counts P l m -> n = m.
Proof.
  intros H. revert m. induction H; intros m Hm; inversion Hm; subst; auto; try contradiction.
  f_equal. auto.
Qed.

Lemma loop_over_each {A} l (f : Z -> A -> outcome A) a b : loop_over l f a = Ret b -> forall i, In i l -> exists x y, f i x = Ret y.
Proof.
  revert a. induction l as [|j r IH]; cbn; intros a E i Hi; [contradiction|].
  destruct (f j a) as [a1| | |] eqn:Ea; try discriminate. cbn in E. destruct Hi as [->|Hi]; eauto.
Qed.
Lemma for_loop_each {A} n (f : Z -> A -> outcome A) a b : for_loop n f a = Ret b -> forall i, 0 <= i < n -> exists x y, f i x = Ret y.
Proof. intros E i Hi. apply (loop_over_each _ _ _ _ E). now apply in_zrange. Qed.

Lemma vote_points_casts d it ip n pts g g' : vote_points d it ip n pts g = Ret g' ->
  forall p, In p pts -> rres d <> 0%R /\ (- 2147483649 < (dot3 n p - rmin d) / rres d < 2147483648)%R.
Proof.
  revert g. induction pts as [|q r IH]; cbn [vote_points]; intros g E p Hp; [contradiction|].
  unfold cast_quot in E. destruct (Req_EM_T (rres d) 0) as [Hz|Hz]; [discriminate|].
  destruct (cast_exact ((dot3 n q - rmin d) / rres d)) as [[Hx Ex]|[_ Ex]]; rewrite Ex in E; [|discriminate]. cbn [obind] in E.
  destruct Hp as [->|Hp]; [auto|].
  match type of E with obind ?X _ = _ => destruct X as [g1| | |]; try discriminate end. cbn [obind] in E. eauto.
Qed.

Lemma insert_defined_lemma d pts : preach d ->
  ((exists d', plane_insert d pts = Ret d') <-> tnum d = 0 \/ pnum d = 0 \/ (8 <= pnum d /\ offsets_fit d pts)).
Proof.
  intros Hd. pose proof (preach_wf d Hd) as W. pose proof (wf_sizes _ W) as S0. split.
  - intros (d' & E). destruct (Z.eq_dec (tnum d) 0) as [|Ht]; [auto|]. destruct (Z.eq_dec (pnum d) 0) as [|Hp]; [auto|]. right. right.
    unfold plane_insert in E. destruct (vote_all d pts) as [g| | |] eqn:Eg; try discriminate. unfold vote_all in Eg. cbv zeta in Eg.
    assert (K : forall it ip, dir_in d it ip -> (pnum d ÷ 8 =? 0) = false /\
       exists x y, vote_points d it ip (dir_of d it ip) pts x = Ret y).
    { intros it ip [Hi Hj]. destruct (for_loop_each _ _ _ _ Eg it Hi) as (x & y & Exy). destruct (for_loop_each _ _ _ _ Exy ip Hj) as (x' & y' & Exy').
      destruct (pnum d ÷ 8 =? 0); [discriminate|]. rewrite (wf_dir _ W) in Exy' by (split; auto). cbn [obind] in Exy'. eauto. }
    split.
    + destruct (K 0 0) as [Kq _]. { unfold dir_in. destruct S0 as (? & ? & ? & ?). lia. }
      apply Z.eqb_neq in Kq. destruct (Z_lt_ge_dec (pnum d) 8) as [Hlt|]; [|lia]. exfalso. apply Kq. apply Z.quot_small. destruct S0. lia.
    + intros it ip p Hi Hp'. destruct (K it ip Hi) as (_ & x & y & Exy). rewrite offset_dot. apply (vote_points_casts _ _ _ _ _ _ _ Exy p Hp').
  - intros H. assert (H8 : 8 <= pnum d \/ tnum d = 0 \/ pnum d = 0) by tauto.
    assert (Hf : offsets_fit d pts). { destruct H as [H|[H|[_ H]]]; auto; intros it ip p [Hi Hj]; lia. }
    destruct (insert_lemma d pts W H8 Hf) as (d' & E & _). eauto.
Qed.

Lemma insert_votes_lemma d pts d' : preach d -> plane_insert d pts = Ret d' -> same_config d d' /\
  (forall it ip ir, cell_in d it ip ir -> exists v n, getHT d it ip ir = Ret v /\
     counts (fun p => code_bin (offset d it ip p) ir) pts n /\ getHT d' it ip ir = Ret ((v + n) mod 2 ^ 64)) /\
  (forall it ip, dir_in d it ip -> exists f, (forall ir, 0 <= ir < rnum d -> getHT d' it ip ir = Ret (f ir)) /\
     getHS d' it ip = Ret (sum_upto (Z.to_nat (rnum d)) (fun ir => f ir * f ir) mod 2 ^ 64)).
Proof.
  intros Hd E. pose proof (preach_wf d Hd) as W.
  assert (D : tnum d = 0 \/ pnum d = 0 \/ (8 <= pnum d /\ offsets_fit d pts)) by (apply insert_defined_lemma; eauto).
  assert (H8 : 8 <= pnum d \/ tnum d = 0 \/ pnum d = 0) by tauto.
  assert (Hf : offsets_fit d pts). { destruct D as [H|[H|[_ H]]]; auto; intros it ip p [Hi Hj]; lia. }
  destruct (insert_lemma d pts W H8 Hf) as (d1 & E1 & W1 & S1 & T1 & U1). rewrite E1 in E. injection E as <-.
  split; [auto|]. split.
  - intros it ip ir Hc. exists (gval (ht d) [it; ip; ir]), (nvotes d (dir_of d it ip) ir pts).
    rewrite getHT_in by auto. split; [now apply wf_get|]. split; [apply nvotes_counts; apply Hc|].
    rewrite getHT_in by (eapply cell_same; eauto). now apply T1.
  - intros it ip Hi. exists (fun ir => gval (ht d1) [it; ip; ir]). split.
    + intros ir Hir. assert (Hc : cell_in d1 it ip ir) by (apply (cell_same d); [auto|split; auto]). rewrite getHT_in by auto. now apply wf_get.
    + rewrite getHS_in by (eapply dir_same; eauto). now apply U1.
Qed.

Lemma offset_same d d' it ip p : same_config d d' -> offset d it ip p = offset d' it ip p.
Proof.
  intros (_ & B & C & _). injection B as B1 B2 B3. injection C as C1 C2 C3. unfold offset, dir_of. now rewrite B1, B2, B3, C1, C2, C3.
Qed.

Lemma counts_app {A} (P : A -> Prop) l1 l2 n m : counts P l1 n -> counts P l2 m -> counts P (l1 ++ l2) (n + m).
Proof.
  induction 1; intros H2; cbn [app]; auto.
  - replace (n + 1 + m) with (n + m + 1) by ring. constructor; auto.
  - constructor; auto.
Qed.

(** The counters two detectors show. *)
Lemma insert_app_lemma d p1 p2 d1 d2 d12 : preach d -> plane_insert d p1 = Ret d1 -> plane_insert d1 p2 = Ret d2 -> plane_insert d (p1 ++ p2) = Ret d12 ->
  same_config d2 d12 /\ (forall it ip ir, getHT d2 it ip ir = getHT d12 it ip ir) /\ (forall it ip, getHS d2 it ip = getHS d12 it ip).
Proof.
  intros Hd E1 E2 E12. assert (Hd1 : preach d1) by (econstructor; eauto).
  destruct (insert_votes_lemma _ _ _ Hd E1) as (A1 & B1 & C1). destruct (insert_votes_lemma _ _ _ Hd1 E2) as (A2 & B2 & C2).
  destruct (insert_votes_lemma _ _ _ Hd E12) as (A3 & B3 & C3).
  assert (S : same_config d2 d12) by (apply same_trans with d1; [now apply same_sym|]; apply same_trans with d; [now apply same_sym|auto]).
  assert (T : forall it ip ir, cell_in d it ip ir -> getHT d2 it ip ir = getHT d12 it ip ir).
  { intros it ip ir Hc. destruct (B1 _ _ _ Hc) as (v & n & Hv & Hn & Hv'). destruct (B2 it ip ir (cell_same _ _ _ _ _ A1 Hc)) as (v2 & m & Hv2 & Hm & Hv2').
    destruct (B3 _ _ _ Hc) as (v3 & k & Hv3 & Hk & Hv3'). rewrite Hv' in Hv2. injection Hv2 as <-. rewrite Hv in Hv3. injection Hv3 as <-.
    rewrite Hv2', Hv3'. f_equal. rewrite Z.add_mod_idemp_l by lia. f_equal.
    assert (k = n + m); [|lia]. eapply counts_unique; [exact Hk|]. apply counts_app; auto. clear - Hm A1.
    induction Hm as [|a l n Ha Hm IH|a l n Ha Hm IH]; constructor; auto; rewrite (offset_same d d1) by auto; auto. }
  assert (Sd : same_config d d2) by (apply same_trans with d1; auto).
  split; [auto|]. split.
  - intros it ip ir. destruct (inr it (tnum d) && inr ip (pnum d) && inr ir (rnum d)) eqn:E.
    + apply T. apply andb_prop in E. destruct E as [E Er]. apply andb_prop in E. destruct E as [Ea Eb]. apply inr_true in Ea, Eb, Er. split; [split|]; auto.
    + assert (F : forall x, same_config d x -> getHT x it ip ir = Exit). { intros x (K & _). injection K as K1 K2 K3. unfold getHT. rewrite <- K1, <- K2, <- K3, E. reflexivity. }
      rewrite !F; auto.
  - intros it ip. destruct (inr it (tnum d) && inr ip (pnum d)) eqn:E.
    + apply andb_prop in E. destruct E as [Ea Eb]. apply inr_true in Ea, Eb. assert (Hi : dir_in d it ip) by (split; auto).
      destruct (C2 it ip (dir_same _ _ _ _ A1 Hi)) as (f & Hf & Ef). destruct (C3 it ip Hi) as (f' & Hf' & Ef'). rewrite Ef, Ef'.
      assert (Er : rnum d1 = rnum d) by (destruct A1 as (K & _); congruence). rewrite Er in *. f_equal. f_equal. apply sum_upto_ext.
      intros i Hi'. assert (Hr : 0 <= i < rnum d) by lia. pose proof (T it ip i (conj Hi Hr)) as Ti. rewrite Hf, Hf' in Ti by auto. injection Ti as ->. reflexivity.
    + assert (F : forall x, same_config d x -> getHS x it ip = Exit). { intros x (K & _). injection K as K1 K2 K3. unfold getHS. rewrite <- K1, <- K2, E. reflexivity. }
      rewrite !F; auto.
Qed.

Lemma zero_lemma d : preach d -> same_config d (plane_setZero d) /\ preach (plane_setZero d) /\
  (forall it ip ir, cell_in d it ip ir -> getHT (plane_setZero d) it ip ir = Ret 0) /\
  (forall it ip, dir_in d it ip -> getHS (plane_setZero d) it ip = Ret 0).
Proof.
  intros Hd. pose proof (preach_wf d Hd) as W. split; [repeat split|]. split; [now constructor|]. split.
  - intros it ip ir Hc. rewrite getHT_in by exact Hc. cbn [plane_setZero set_counters ht]. apply (cell_fill 0); [apply W|now apply wf_cell].
  - intros it ip [Hi Hj]. rewrite getHS_in by (split; auto). cbn [plane_setZero set_counters hs]. apply (cell_fill 0); [apply W|].
    unfold gcell. rewrite (wf_hsd _ W). apply in_box2. auto.
Qed.

(** insert(begin, end, converter) counts the given points only. *)
Lemma insert_range_lemma {A} d (conv : A -> vec3) l d' : preach d -> plane_insert_range d conv l = Ret d' -> same_config d d' /\
  (forall it ip ir, cell_in d it ip ir -> exists n,
     counts (fun p => code_bin (offset d it ip (conv p)) ir) l n /\ getHT d' it ip ir = Ret (n mod 2 ^ 64)) /\
  (forall it ip, dir_in d it ip -> exists f, (forall ir, 0 <= ir < rnum d -> getHT d' it ip ir = Ret (f ir)) /\
     getHS d' it ip = Ret (sum_upto (Z.to_nat (rnum d)) (fun ir => f ir * f ir) mod 2 ^ 64)).
Proof.
  intros Hd E. unfold plane_insert_range in E. destruct (zero_lemma d Hd) as (S0 & P0 & Z0 & _).
  destruct (insert_votes_lemma _ _ _ P0 E) as (A1 & B1 & C1). split; [apply same_trans with (plane_setZero d); auto|]. split.
  - intros it ip ir Hc. destruct (B1 it ip ir Hc) as (v & n & Hv & Hn & Hv'). rewrite Z0 in Hv by auto. injection Hv as <-. exists n. split; [|exact Hv'].
    clear - Hn. remember (map conv l) as q eqn:Eq. revert l Eq. induction Hn; intros l0 Eq; destruct l0; cbn in Eq; try discriminate.
    + constructor.
    + injection Eq as -> ->. constructor; auto.
    + injection Eq as -> ->. constructor; auto.
  - exact C1.
Qed.

(** ** Distance of a voting point from the plane of its cell *)
Lemma vote_distance_lemma d it ip ir p v n c d' : preach d -> (0 < rres d)%R -> cell_in d it ip ir ->
  plane_insert d [p] = Ret d' -> getHT d it ip ir = Ret v -> getHT d' it ip ir <> Ret v -> getPlaneParam_ix d it ip ir = Ret (n, c) ->
  (Rabs (dot3 n p + c) < rres d)%R.
Proof.
  intros Hd Hr Hc E Hv Hne Hp. destruct (insert_votes_lemma _ _ _ Hd E) as (_ & B1 & _). destruct (B1 _ _ _ Hc) as (v1 & k & Hv1 & Hk & Hv').
  rewrite Hv in Hv1. injection Hv1 as <-.
  assert (Hb : code_bin (offset d it ip p) ir).
  { inversion Hk; subst; [assumption|]. exfalso. inversion H3; subst. apply Hne. rewrite Hv'. f_equal. rewrite Z.add_0_r. apply Z.mod_small.
    apply (wf_range _ (preach_wf _ Hd) it ip ir v Hc). now rewrite getHT_in in Hv by auto. }
  destruct (params_agree_lemma d it ip ir Hd Hc) as (n1 & c1 & _ & E1 & _ & Ec & _). rewrite E1 in Hp. injection Hp as <- <-.
  assert (En : n1 = dir_of d it ip).
  { destruct (normals_lemma d it ip Hd (proj1 Hc)) as [En _]. unfold getPlaneParam_ix in E1. rewrite cell_b in E1 by auto. rewrite En in E1. cbn [obind] in E1.
    pose proof (f_equal (fun o => match o with Ret (a, _) => a | _ => n1 end) E1) as X. cbn in X. now rewrite <- X. }
  subst n1 c1. rewrite offset_dot in Hb. set (s := dot3 (dir_of d it ip) p) in *.
  assert (Hq : ((s - rmin d) / rres d * rres d = s - rmin d)%R) by (field; lra). set (x := ((s - rmin d) / rres d)%R) in *.
  destruct Hb as [[-> Hx]|[_ Hx]].
  - apply Rabs_def1; nra.
  - unfold in_bin in Hx. apply Rabs_def1; nra.
Qed.
