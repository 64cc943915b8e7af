(** * Property theorems for estimateTranslationTls in float and double (C203-C210). *)
From Coq Require Import List ZArith Reals QArith Qabs Lia Lra.
From Coq Require Import Floats.SpecFloat.
From Flocq Require Import Core BinarySingleNaN.
From Verif Require Import Base TlsFloatModel TlsFloatSpec TlsFloatProofs IeeeProofs TlsGridProofs TlsOneProofs TlsCounterProofs.
Import ListNotations.

(** C203: the function is defined for all finite measurements, no candidate has a lower computed cost than the one chosen, and the flags
    mark the measurements whose computed distance from the estimate is below their range. *)
Theorem C203_double : forall sort values ranges, orders sort -> Forall (number 53 1024) values -> Forall (number 53 1024) ranges ->
  length values = length ranges -> (Z.of_nat (length values) < 2 ^ 31)%Z -> (0 < length values)%nat ->
  exists est flags t j c, estimate double sort values ranges = Ret (est, flags) /\
  sweep double values ranges (sums0 double ranges) (sort (endpoints double 0 values ranges)) = Ret t /\ length t = (2 * length values)%nat /\
  nth_error t j = Some (est, c) /\ (forall j' est' c', nth_error t j' = Some (est', c') -> SFltb c' c = false) /\
  length flags = length values /\
  (forall i v r, nth_error values i = Some v -> nth_error ranges i = Some r -> nth_error flags i = Some (SFltb (SFabs (SFsub 53 1024 v est)) r)).
Proof. exact (defined_lemma 53 1024 _ _ (weight double)). Qed.
Print Assumptions C203_double.
Theorem C203_single : forall sort values ranges, orders sort -> Forall (number 24 128) values -> Forall (number 24 128) ranges ->
  length values = length ranges -> (Z.of_nat (length values) < 2 ^ 31)%Z -> (0 < length values)%nat ->
  exists est flags t j c, estimate single sort values ranges = Ret (est, flags) /\
  sweep single values ranges (sums0 single ranges) (sort (endpoints single 0 values ranges)) = Ret t /\ length t = (2 * length values)%nat /\
  nth_error t j = Some (est, c) /\ (forall j' est' c', nth_error t j' = Some (est', c') -> SFltb c' c = false) /\
  length flags = length values /\
  (forall i v r, nth_error values i = Some v -> nth_error ranges i = Some r -> nth_error flags i = Some (SFltb (SFabs (SFsub 24 128 v est)) r)).
Proof. exact (defined_lemma 24 128 _ _ (weight single)). Qed.
Print Assumptions C203_single.
Theorem C203_empty : forall sort, orders sort -> estimate double sort [] [] = UB /\ estimate single sort [] [] = UB.
Proof. intros sort H. split; [exact (empty_case 53 1024 (weight double) sort H)|exact (empty_case 24 128 (weight single) sort H)]. Qed.
Print Assumptions C203_empty.
Theorem C203_nan : forall sort values ranges, length values = length ranges -> In S754_nan values \/ In S754_nan ranges ->
  estimate double sort values ranges = UB /\ estimate single sort values ranges = UB.
Proof. intros sort values ranges L H. split; [exact (nan_case 53 1024 (weight double) sort values ranges L H)|exact (nan_case 24 128 (weight single) sort values ranges L H)]. Qed.
Print Assumptions C203_nan.
Theorem C203_mismatch : forall sort values ranges, length values <> length ranges -> estimate double sort values ranges = Exit /\ estimate single sort values ranges = Exit.
Proof. intros sort values ranges H. split; [exact (mismatch_case double sort values ranges H)|exact (mismatch_case single sort values ranges H)]. Qed.
Print Assumptions C203_mismatch.
Example C203_case : orders isort /\ Forall (number 53 1024) [dq 1 10; d_int (-7)] /\ Forall (number 24 128) [sq 1 10; s_int (-7)].
Proof. split; [exact isort_orders|]. split; repeat constructor. Qed.

(** C207: values on a grid, all ranges the same power of two: the estimate is the nearest number to the mean of a set of measurements around
    some position, and lies between the smallest and the largest value; measurements that agree are returned and are all inliers. *)
Theorem C207_double : forall sort e k m zs values ranges, orders sort -> on_grid 53 1024 e k m zs values ranges ->
  (-200 <= e)%Z -> (-19 <= k <= 400)%Z -> (m + e <= 500)%Z ->
  exists est flags S x, estimate double sort values ranges = Ret (est, flags) /\ S <> [] /\ around zs (2 ^ (k - e)) x S /\
  stands 53 1024 est (nearest 53 1024 (mean zs e S)) /\
  (forall lo hi, In lo zs -> In hi zs -> (forall z, In z zs -> (lo <= z <= hi)%Z) ->
     (IZR lo * bpow radix2 e <= SF2R radix2 est <= IZR hi * bpow radix2 e)%R) /\
  (forall z, (forall y, In y zs -> y = z) -> SF2R radix2 est = (IZR z * bpow radix2 e)%R /\ flags = repeat true (length values)).
Proof.
  intros sort e k m zs values ranges Hs G He Hk Hm. assert (e <= k)%Z by apply G.
  apply (grid_final 53 1024 _ _ (weight double) sort e k m 500 zs values ranges Hs G); [intros r; now apply weight_double|lia|lia].
Qed.
Print Assumptions C207_double.
Theorem C207_single : forall sort e k m zs values ranges, orders sort -> on_grid 24 128 e k m zs values ranges ->
  (-60 <= e)%Z -> (-19 <= k <= 40)%Z -> (m + e <= 60)%Z ->
  exists est flags S x, estimate single sort values ranges = Ret (est, flags) /\ S <> [] /\ around zs (2 ^ (k - e)) x S /\
  stands 24 128 est (nearest 24 128 (mean zs e S)) /\
  (forall lo hi, In lo zs -> In hi zs -> (forall z, In z zs -> (lo <= z <= hi)%Z) ->
     (IZR lo * bpow radix2 e <= SF2R radix2 est <= IZR hi * bpow radix2 e)%R) /\
  (forall z, (forall y, In y zs -> y = z) -> SF2R radix2 est = (IZR z * bpow radix2 e)%R /\ flags = repeat true (length values)).
Proof.
  intros sort e k m zs values ranges Hs G He Hk Hm. assert (e <= k)%Z by apply G.
  apply (grid_final 24 128 _ _ (weight single) sort e k m 60 zs values ranges Hs G); [intros r; now apply weight_single|lia|lia].
Qed.
Print Assumptions C207_single.
(** 100000028, 100000029 and -7.25 with ranges 1/2: units of 1/4, 30 bits. *)
Example C207_case : on_grid 53 1024 (-2) (-1) 30 [400000112; 400000116; -29]%Z [d_int 100000028; d_int 100000029; dq (-29) 4] [dq 1 2; dq 1 2; dq 1 2].
Proof.
  assert (V : forall z, (Z.abs z <= 2 ^ 53)%Z -> stands 53 1024 (d_int z) (IZR z)) by (intros z H; exact (int_exact 53 1024 _ _ z H)).
  repeat split; try (cbn; lia).
  - constructor; [|constructor; [|constructor; [|constructor]]].
    + replace (IZR 400000112 * bpow radix2 (-2))%R with (IZR 100000028) by (cbn; lra). apply V; lia.
    + replace (IZR 400000116 * bpow radix2 (-2))%R with (IZR 100000029) by (cbn; lra). apply V; lia.
    + repeat split. cbn. unfold F2R. cbn. lra.
  - repeat constructor; cbn; unfold F2R; cbn; lra.
  - repeat constructor; cbn; lia.
Qed.

(** C210: on a grid the estimate is as good as any consensus set up to the rounding errors. *)
Theorem C210_double : forall sort e k m L zs values ranges, orders sort -> on_grid 53 1024 e k m zs values ranges ->
  (-200 <= e)%Z -> (-19 <= k <= 400)%Z -> (m + e <= 480)%Z -> (0 <= L <= 48)%Z -> (Z.of_nat (length values) <= 2 ^ L)%Z ->
  exists est flags S x, estimate double sort values ranges = Ret (est, flags) /\ S <> [] /\ around zs (2 ^ (k - e)) x S /\
  stands 53 1024 est (nearest 53 1024 (mean zs e S)) /\
  forall y T h, inside zs (2 ^ (k - e)) y T -> T <> [] ->
    (tcost zs e k S (SF2R radix2 est) <= tcost zs e k T h + (107 * bpow radix2 (2 * L + 2 * (m + e) - 53) + 4 * bpow radix2 (L + k - 53)))%R.
Proof.
  intros sort e k m L zs values ranges Hs G He Hk Hm HL Hn. assert (e <= k)%Z by apply G. assert (0 <= m)%Z by apply G.
  destruct (opt_lemma 53 1024 _ _ (weight double) e k m 500 zs values ranges G) with (sort := sort) (L := L) as (est & S & x & H1); [intros r; now apply weight_double|lia|lia|exact Hs|lia|lia|].
  exists est, (inlier_flags double est values ranges), S, x. exact H1.
Qed.
Print Assumptions C210_double.
Theorem C210_single : forall sort e k m L zs values ranges, orders sort -> on_grid 24 128 e k m zs values ranges ->
  (-60 <= e)%Z -> (-19 <= k <= 40)%Z -> (m + e <= 50)%Z -> (0 <= L <= 19)%Z -> (Z.of_nat (length values) <= 2 ^ L)%Z ->
  exists est flags S x, estimate single sort values ranges = Ret (est, flags) /\ S <> [] /\ around zs (2 ^ (k - e)) x S /\
  stands 24 128 est (nearest 24 128 (mean zs e S)) /\
  forall y T h, inside zs (2 ^ (k - e)) y T -> T <> [] ->
    (tcost zs e k S (SF2R radix2 est) <= tcost zs e k T h + (107 * bpow radix2 (2 * L + 2 * (m + e) - 24) + 4 * bpow radix2 (L + k - 24)))%R.
Proof.
  intros sort e k m L zs values ranges Hs G He Hk Hm HL Hn. assert (e <= k)%Z by apply G. assert (0 <= m)%Z by apply G.
  destruct (opt_lemma 24 128 _ _ (weight single) e k m 60 zs values ranges G) with (sort := sort) (L := L) as (est & S & x & H1); [intros r; now apply weight_single|lia|lia|exact Hs|lia|lia|].
  exists est, (inlier_flags single est values ranges), S, x. exact H1.
Qed.
Print Assumptions C210_single.
(** 400000113.5 is in the first two intervals. *)
Example C210_case : inside [400000112; 400000115; -29]%Z 2 (800000227 # 2) [0; 1]%nat.
Proof.
  split; [repeat constructor; cbn; lia|]. split.
  - intros [|[|[|i]]] Hi; cbn in Hi; try lia; vm_compute; discriminate.
  - intros [|[|[|i]]]; (split; [intros H|intros [Hi H]]); cbn in *; try lia; try tauto; try (split; [lia|vm_compute; reflexivity]);
      try (vm_compute in H; discriminate H).
Qed.

(** C204: the estimate lies between the smallest and the largest value.  False: three values near 1e9 with the same range 3.9 give 268435456, in float
    10003 and 10001 give 52224. *)
Theorem C204_between_refuted : exists values ranges r, Forall (number 53 1024) values /\ length ranges = length values /\ (forall x, In x ranges -> x = r) /\
  number 53 1024 r /\ SFltb (d_int 0) r = true /\
  forall sort, orders sort -> exists est flags, estimate double sort values ranges = Ret (est, flags) /\ number 53 1024 est /\
    (forall v, In v values -> SFltb est v = true) /\ (forall f, In f flags -> f = false).
Proof.
  exists [d_int 1000000004; d_int 1000000005; d_int 1000000010], [dq 39 10; dq 39 10; dq 39 10], (dq 39 10).
  split; [repeat constructor|]. split; [reflexivity|]. split; [intros x [<-|[<-|[<-|[]]]]; reflexivity|]. split; [repeat constructor|]. split; [vm_compute; reflexivity|].
  intros sort Hs. exists (d_int 268435456), [false; false; false]. split.
  - apply run_double; [exact Hs|vm_compute; reflexivity|vm_compute; reflexivity|vm_compute; reflexivity].
  - split; [repeat constructor|]. split; [intros v [<-|[<-|[<-|[]]]]; vm_compute; reflexivity|intros f [<-|[<-|[<-|[]]]]; reflexivity].
Qed.
Print Assumptions C204_between_refuted.
Theorem C204_single_refuted : exists values ranges, Forall (number 24 128) values /\ Forall (number 24 128) ranges /\ length ranges = length values /\
  (forall r, In r ranges -> SFltb (s_int 0) r = true) /\
  forall sort, orders sort -> exists est flags, estimate single sort values ranges = Ret (est, flags) /\ number 24 128 est /\
    (forall v, In v values -> SFltb v est = true) /\ (forall f, In f flags -> f = false).
Proof.
  exists [s_int 10003; s_int 10001], [sq 4 10; sq 45 10].
  split; [repeat constructor|]. split; [repeat constructor|]. split; [reflexivity|]. split; [intros r [<-|[<-|[]]]; vm_compute; reflexivity|].
  intros sort Hs. exists (s_int 52224), [false; false]. split.
  - apply run_single; [exact Hs|vm_compute; reflexivity|vm_compute; reflexivity|vm_compute; reflexivity].
  - split; [repeat constructor|]. split; [intros v [<-|[<-|[]]]; vm_compute; reflexivity|intros f [<-|[<-|[]]]; reflexivity].
Qed.
Print Assumptions C204_single_refuted.
(** What is missing: data off a grid, or ranges that are not one power of two. *)
Theorem C204_between_partial : forall sort e k m zs values ranges, orders sort -> on_grid 53 1024 e k m zs values ranges ->
  (-200 <= e)%Z -> (-19 <= k <= 400)%Z -> (m + e <= 500)%Z ->
  exists est flags, estimate double sort values ranges = Ret (est, flags) /\
  forall lo hi, In lo zs -> In hi zs -> (forall z, In z zs -> (lo <= z <= hi)%Z) -> (IZR lo * bpow radix2 e <= SF2R radix2 est <= IZR hi * bpow radix2 e)%R.
Proof.
  intros sort e k m zs values ranges Hs G He Hk Hm. destruct (C207_double sort e k m zs values ranges Hs G He Hk Hm) as (est & flags & S & x & E & _ & _ & _ & B & _).
  exists est, flags. split; [exact E|exact B].
Qed.
Print Assumptions C204_between_partial.

(** C205: measurements that all agree are returned and are inliers.  False: 100000028 twice with ranges 0.3 and 0.6 gives 67108864, in float 10005 three
    times gives -4096. *)
Theorem C205_unanimous_refuted : exists v ranges, number 53 1024 v /\ Forall (number 53 1024) ranges /\ (forall r, In r ranges -> SFltb (d_int 0) r = true) /\
  forall sort, orders sort -> exists est flags, estimate double sort (repeat v (length ranges)) ranges = Ret (est, flags) /\ SFeqb est v = false /\ (forall f, In f flags -> f = false) /\ flags <> [].
Proof.
  exists (d_int 100000028), [dq 3 10; dq 6 10]. split; [repeat constructor|]. split; [repeat constructor|]. split; [intros r [<-|[<-|[]]]; vm_compute; reflexivity|].
  intros sort Hs. exists (d_int 67108864), [false; false]. split.
  - apply run_double; [exact Hs|vm_compute; reflexivity|vm_compute; reflexivity|vm_compute; reflexivity].
  - split; [vm_compute; reflexivity|]. split; [intros f [<-|[<-|[]]]; reflexivity|discriminate].
Qed.
Print Assumptions C205_unanimous_refuted.
Theorem C205_single_refuted : exists v ranges, number 24 128 v /\ Forall (number 24 128) ranges /\ (forall r, In r ranges -> SFltb (s_int 0) r = true) /\
  forall sort, orders sort -> exists est flags, estimate single sort (repeat v (length ranges)) ranges = Ret (est, flags) /\ SFeqb est v = false /\ (forall f, In f flags -> f = false) /\ flags <> [].
Proof.
  exists (s_int 10005), [sq 4 1; sq 18 10; sq 75 10]. split; [repeat constructor|]. split; [repeat constructor|]. split; [intros r [<-|[<-|[<-|[]]]]; vm_compute; reflexivity|].
  intros sort Hs. exists (s_int (-4096)), [false; false; false]. split.
  - apply run_single; [exact Hs|vm_compute; reflexivity|vm_compute; reflexivity|vm_compute; reflexivity].
  - split; [vm_compute; reflexivity|]. split; [intros f [<-|[<-|[<-|[]]]]; reflexivity|discriminate].
Qed.
Print Assumptions C205_single_refuted.
(** What is missing: data off a grid, or ranges that are not one power of two. *)
Theorem C205_unanimous_partial : forall sort e k m z values ranges, orders sort -> on_grid 53 1024 e k m (repeat z (length values)) values ranges ->
  (-200 <= e)%Z -> (-19 <= k <= 400)%Z -> (m + e <= 500)%Z ->
  exists est flags, estimate double sort values ranges = Ret (est, flags) /\ SF2R radix2 est = (IZR z * bpow radix2 e)%R /\ flags = repeat true (length values).
Proof.
  intros sort e k m z values ranges Hs G He Hk Hm. destruct (C207_double sort e k m _ values ranges Hs G He Hk Hm) as (est & flags & S & x & E & _ & _ & _ & _ & U).
  exists est, flags. split; [exact E|]. apply U. intros y Hy. now apply repeat_spec in Hy.
Qed.
Print Assumptions C205_unanimous_partial.

(** C206: finite measurements with positive ranges give a finite estimate.  False: the value 0 with a range whose square overflows gives NaN. *)
Theorem C206_finite_refuted : exists v r, number 53 1024 v /\ number 53 1024 r /\ SFltb (d_int 0) r = true /\
  forall sort, orders sort -> exists flags, estimate double sort [v] [r] = Ret (S754_nan, flags).
Proof.
  exists (d_int 0), (d_int (10 ^ 200)). split; [vm_compute; repeat constructor|]. split; [vm_compute; repeat constructor|]. split; [vm_compute; reflexivity|].
  intros sort Hs. exists [false]. apply run_double; [exact Hs|vm_compute; reflexivity|vm_compute; reflexivity|vm_compute; reflexivity].
Qed.
Print Assumptions C206_finite_refuted.
Theorem C206_single_refuted : exists v r, number 24 128 v /\ number 24 128 r /\ SFltb (s_int 0) r = true /\
  forall sort, orders sort -> exists flags, estimate single sort [v] [r] = Ret (S754_nan, flags).
Proof.
  exists (s_int 0), (s_int (10 ^ 20)). split; [vm_compute; repeat constructor|]. split; [vm_compute; repeat constructor|]. split; [vm_compute; reflexivity|].
  intros sort Hs. exists [false]. apply run_single; [exact Hs|vm_compute; reflexivity|vm_compute; reflexivity|vm_compute; reflexivity].
Qed.
Print Assumptions C206_single_refuted.
(** What is missing: data off a grid, or ranges that are not one power of two. *)
Theorem C206_finite_partial : forall sort e k m zs values ranges, orders sort -> on_grid 53 1024 e k m zs values ranges ->
  (-200 <= e)%Z -> (-19 <= k <= 400)%Z -> (m + e <= 500)%Z ->
  exists est flags, estimate double sort values ranges = Ret (est, flags) /\ number 53 1024 est.
Proof.
  intros sort e k m zs values ranges Hs G He Hk Hm. destruct (C207_double sort e k m zs values ranges Hs G He Hk Hm) as (est & flags & S & x & E & _ & _ & (N1 & N2 & _) & _).
  exists est, flags. split; [exact E|split; assumption].
Qed.
Print Assumptions C206_finite_partial.

(** C208: a single measurement is returned.  False: 5 with range 3, in float 25 with range 3. *)
Theorem C208_single_refuted : exists v r v' r', number 53 1024 v /\ number 53 1024 r /\ number 24 128 v' /\ number 24 128 r' /\
  forall sort, orders sort -> (exists est flags, estimate double sort [v] [r] = Ret (est, flags) /\ SFeqb est v = false) /\
  (exists est flags, estimate single sort [v'] [r'] = Ret (est, flags) /\ SFeqb est v' = false).
Proof.
  exists (d_int 5), (d_int 3), (s_int 25), (s_int 3). do 4 (split; [repeat constructor|]). intros sort Hs. split.
  - exists (S754_finite false 5629499534213121 (-50)), [true]. split; [|vm_compute; reflexivity].
    apply run_double; [exact Hs|vm_compute; reflexivity|vm_compute; reflexivity|vm_compute; reflexivity].
  - exists (S754_finite false 13107201 (-19)), [true]. split; [|vm_compute; reflexivity].
    apply run_single; [exact Hs|vm_compute; reflexivity|vm_compute; reflexivity|vm_compute; reflexivity].
Qed.
Print Assumptions C208_single_refuted.

(** C209: it is returned up to 3 units of the last place, in halves: values 0 or of magnitude 2^-300 to 2^300, any positive range up to 2^300 (in float: 40
    for 300). *)
Theorem C209_double : forall sort v r a b, orders sort -> stands 53 1024 v a -> stands 53 1024 r b -> (0 < b <= bpow radix2 300)%R ->
  (a = 0 \/ bpow radix2 (-300) <= Rabs a)%R -> (Rabs a <= bpow radix2 300)%R ->
  exists est flags, estimate double sort [v] [r] = Ret (est, flags) /\ number 53 1024 est /\ (Rabs (SF2R radix2 est - a) <= 3 * bpow radix2 (-53) * Rabs a)%R.
Proof.
  intros sort v r a b Hs V R B A1 A2. destruct (weight_range_double r b R B) as (c & W & C).
  destruct (one_lemma 53 1024 _ _ (weight double) sort v r a b c 600 40 300 Hs V R W C A1 A2) as (est & E & (N1 & N2 & _) & F); try lia; [rewrite Rabs_pos_eq; lra|].
  exists est, (inlier_flags double est [v] [r]). split; [exact E|]. split; [split; assumption|exact F].
Qed.
Print Assumptions C209_double.
Theorem C209_single : forall sort v r a b, orders sort -> stands 24 128 v a -> stands 24 128 r b -> (0 < b <= bpow radix2 40)%R ->
  (a = 0 \/ bpow radix2 (-40) <= Rabs a)%R -> (Rabs a <= bpow radix2 40)%R ->
  exists est flags, estimate single sort [v] [r] = Ret (est, flags) /\ number 24 128 est /\ (Rabs (SF2R radix2 est - a) <= 3 * bpow radix2 (-24) * Rabs a)%R.
Proof.
  intros sort v r a b Hs V R B A1 A2. destruct (weight_range_single r b R B) as (c & W & C).
  destruct (one_lemma 24 128 _ _ (weight single) sort v r a b c 80 40 40 Hs V R W C A1 A2) as (est & E & (N1 & N2 & _) & F); try lia; [rewrite Rabs_pos_eq; lra|].
  exists est, (inlier_flags single est [v] [r]). split; [exact E|]. split; [split; assumption|exact F].
Qed.
Print Assumptions C209_single.
Example C209_case : stands 53 1024 (d_int 5) 5 /\ stands 53 1024 (d_int 3) 3 /\ (0 < 3 <= bpow radix2 300)%R /\ (bpow radix2 (-300) <= Rabs 5 <= bpow radix2 300)%R.
Proof.
  split; [exact (int_exact 53 1024 _ _ 5 ltac:(cbn; lia))|]. split; [exact (int_exact 53 1024 _ _ 3 ltac:(cbn; lia))|].
  assert (X : (8 <= bpow radix2 300)%R) by (change 8%R with (bpow radix2 3); apply bpow_le; lia).
  assert (Y : (bpow radix2 (-300) <= 1)%R) by (change 1%R with (bpow radix2 0); apply bpow_le; lia).
  rewrite (Rabs_pos_eq 5) by lra. lra.
Qed.
