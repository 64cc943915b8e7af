(** * Property theorems for PeakFinderD (C53-C54, C79-C81, C147-C151). *)
From Coq Require Import List ZArith Lia Sorting.Sorted.
From Verif Require Import Base IntervalModel IntervalSpec MinMaxHeapModel MinMaxHeapSpec PeakModel PeakSpec PeakProofs PeakLine PeakBest.
Import ListNotations.
Open Scope Z_scope.

(** C53 *)
Theorem C53_one_dimension : forall {V} (comp : V -> V -> bool) val a n w fm, StrictWeak comp ->
  0 < n < 2 ^ 31 -> - 2 ^ 31 <= a -> a + n - 1 < 2 ^ 31 -> 0 < w -> distinct_values comp val a n ->
  exists out, detect comp val (mkI [a] [n]) [w] fm = Ret (map (fun i => [i]) out) /\
    StronglySorted (fun i j => better comp val [i] [j]) out /\
    forall j, In j out <-> a < j < a + n /\ passes comp val fm [j] /\ window_best comp val a n w j.
Proof. exact @line_peaks_lemma. Qed.
Print Assumptions C53_one_dimension.
Definition hist (x : list Z) : Z := match x with [i] => (i * 5) mod 7 | _ => 0 end.
Example C53_case : StrictWeak Z.gtb /\ distinct_values Z.gtb hist 2 6 /\ detect Z.gtb hist (mkI [2] [6]) [1] (Some 1) = Ret [[4]].
Proof.
  split; [exact gtb_sw|]. split; [|vm_compute; reflexivity]. intros i j Hi Hj Hij.
  assert (Ei : i = 2 \/ i = 3 \/ i = 4 \/ i = 5 \/ i = 6 \/ i = 7) by lia. assert (Ej : j = 2 \/ j = 3 \/ j = 4 \/ j = 5 \/ j = 6 \/ j = 7) by lia.
  destruct Ei as [->|[->|[->|[->|[->| ->]]]]], Ej as [->|[->|[->|[->|[->| ->]]]]]; try (exfalso; lia); vm_compute; auto.
Qed.

(** C54: false, also for cells other than the first. *)
Theorem C54_every_peak_refuted : exists (val : list Z -> Z) dom w x out,
  int_box (imin dom) (idim dom) /\ Forall (fun k => 0 < k) w /\
  (forall u v, in_box (imin dom) (idim dom) u -> in_box (imin dom) (idim dom) v -> u <> v -> val u <> val v) /\
  in_box (imin dom) (idim dom) x /\ x <> imin dom /\ window_best_nd Z.gtb val (in_box (imin dom) (idim dom)) w x /\
  detect Z.gtb val dom w None = Ret out /\ ~ In x out.
Proof. exact missed_lemma. Qed.
Print Assumptions C54_every_peak_refuted.
(** What holds: completeness on a line, for cells other than the first (missing: the first cell, and any dimension above one). *)
Theorem C54_line_partial : forall {V} (comp : V -> V -> bool) val a n w, StrictWeak comp ->
  0 < n < 2 ^ 31 -> - 2 ^ 31 <= a -> a + n - 1 < 2 ^ 31 -> 0 < w -> distinct_values comp val a n ->
  exists out, detect comp val (mkI [a] [n]) [w] None = Ret out /\
    forall j, a < j < a + n -> window_best comp val a n w j -> In [j] out.
Proof. exact @line_complete_lemma. Qed.
Print Assumptions C54_line_partial.
Example C54_case : window_best Z.gtb hist 2 6 1 4.
Proof. intros i Hi Hw Hne. assert (E : i = 3 \/ i = 5) by lia. destruct E as [->| ->]; reflexivity. Qed.

(** C79 *)
Theorem C79_safe_any_dimension : forall {V} (comp : V -> V -> bool) val dom iwin fm,
  int_box (imin dom) (idim dom) -> length iwin = length (idim dom) -> Forall (fun x => 0 <= x) iwin ->
  exists out, detect comp val dom iwin fm = Ret out /\ NoDup out /\
    forall x, In x out -> in_box (imin dom) (idim dom) x /\ x <> imin dom /\ passes comp val fm x.
Proof. exact @detect_safe_lemma. Qed.
Print Assumptions C79_safe_any_dimension.
Example C79_case : int_box [-3; 4; 0] [5; 1; 9].
Proof. split; [repeat (constructor; [lia|lia|lia|]); constructor|cbn; lia]. Qed.

(** C80: false from two dimensions on. *)
Theorem C80_sound_refuted : exists (val : list Z -> Z) dom w x y out,
  length (idim dom) = 2%nat /\ int_box (imin dom) (idim dom) /\ Forall (fun k => 0 < k) w /\
  (forall u v, in_box (imin dom) (idim dom) u -> in_box (imin dom) (idim dom) v -> u <> v -> val u <> val v) /\
  detect Z.gtb val dom w None = Ret out /\ In x out /\
  in_box (imin dom) (idim dom) y /\ near w x y /\ better Z.gtb val y x.
Proof. exact plane_witness. Qed.
Print Assumptions C80_sound_refuted.
(** A smaller example in three dimensions. *)
Theorem C80_space_refuted : exists (val : list Z -> Z) dom w x y out,
  int_box (imin dom) (idim dom) /\ Forall (fun k => 0 < k) w /\
  (forall u v, in_box (imin dom) (idim dom) u -> in_box (imin dom) (idim dom) v -> u <> v -> val u <> val v) /\
  detect Z.gtb val dom w None = Ret out /\ In x out /\
  in_box (imin dom) (idim dom) y /\ near w x y /\ better Z.gtb val y x.
Proof. exact drift_lemma. Qed.
Print Assumptions C80_space_refuted.
(** What holds: soundness on a line (missing: two dimensions or more, where it is false). *)
Theorem C80_line_partial : forall {V} (comp : V -> V -> bool) val a n w fm out, StrictWeak comp ->
  0 < n < 2 ^ 31 -> - 2 ^ 31 <= a -> a + n - 1 < 2 ^ 31 -> 0 <= w -> distinct_values comp val a n ->
  detect comp val (mkI [a] [n]) [w] fm = Ret out -> forall x, In x out -> exists j, x = [j] /\ window_best comp val a n w j.
Proof. exact @line_sound_lemma. Qed.
Print Assumptions C80_line_partial.

(** C81 *)
Theorem C81_zero_window : forall {V} (comp : V -> V -> bool) val a n fm, StrictWeak comp ->
  0 < n < 2 ^ 31 -> - 2 ^ 31 <= a -> a + n - 1 < 2 ^ 31 -> distinct_values comp val a n ->
  exists out, detect comp val (mkI [a] [n]) [0] fm = Ret (map (fun i => [i]) out) /\
    StronglySorted (fun i j => better comp val [i] [j]) out /\
    forall j, In j out <-> a < j < a + n /\ passes comp val fm [j] /\ exists i, a <= i < j /\ better comp val [j] [i].
Proof. exact @zero_window_lemma. Qed.
Print Assumptions C81_zero_window.
Example C81_case : detect Z.gtb hist (mkI [2] [6]) [0] None = Ret [[4]; [5]; [6]].
Proof. vm_compute. reflexivity. Qed.

(** C147: false; a cell of value 2 is reported three cells away from one of value 3. *)
Theorem C147_ties_sound_refuted : exists (val : list Z -> Z) a n w i j out, 0 < n < 2 ^ 31 /\ - 2 ^ 31 <= a /\ a + n - 1 < 2 ^ 31 /\ 0 < w /\
  detect Z.gtb val (mkI [a] [n]) [w] None = Ret out /\ In [j] out /\ a <= i < a + n /\ Z.abs (i - j) <= w /\ better Z.gtb val [i] [j].
Proof. exact tie_sound_witness. Qed.
Print Assumptions C147_ties_sound_refuted.
(** What holds: only the worst value may occur more than twice (missing: other values occurring three times). *)
Theorem C147_ties_sound_partial : forall {V} (comp : V -> V -> bool) val a n w fm out, StrictWeak comp ->
  0 < n < 2 ^ 31 -> - 2 ^ 31 <= a -> a + n - 1 < 2 ^ 31 -> 0 < w -> rare_ties comp val a n ->
  detect comp val (mkI [a] [n]) [w] fm = Ret out -> forall x, In x out -> exists j, x = [j] /\ window_max comp val a n w j.
Proof.
  intros V comp val a n w fm out SW Hn Ha Han Hw RT E x Hx. destruct (line_rare_lemma comp val a n w fm SW Hn Ha Han Hw RT) as (o & E' & _ & _ & H & _).
  rewrite E in E'. injection E' as ->. apply in_map_iff in Hx as (j & <- & Hj). exists j. split; [reflexivity|]. now apply H.
Qed.
Print Assumptions C147_ties_sound_partial.

(** C148: false; the earlier cell of the same value is out of the window. *)
Theorem C148_ties_complete_refuted : exists (val : list Z -> Z) a n w j out, 0 < n < 2 ^ 31 /\ - 2 ^ 31 <= a /\ a + n - 1 < 2 ^ 31 /\ 0 < w /\ a < j < a + n /\
  window_best Z.gtb val a n w j /\ detect Z.gtb val (mkI [a] [n]) [w] None = Ret out /\ ~ In [j] out.
Proof. exact tie_complete_witness. Qed.
Print Assumptions C148_ties_complete_refuted.
(** What holds: values other than the worst occur at most twice, and no earlier cell out of the window has the same value (missing: the rest). *)
Theorem C148_ties_complete_partial : forall {V} (comp : V -> V -> bool) val a n w, StrictWeak comp ->
  0 < n < 2 ^ 31 -> - 2 ^ 31 <= a -> a + n - 1 < 2 ^ 31 -> 0 < w -> rare_ties comp val a n ->
  exists out, detect comp val (mkI [a] [n]) [w] None = Ret out /\
    forall j, a < j < a + n -> window_best comp val a n w j -> (forall i, a <= i < j - w -> ~ level comp val [i] [j]) -> In [j] out.
Proof.
  intros V comp val a n w SW Hn Ha Han Hw RT. destruct (line_rare_lemma comp val a n w None SW Hn Ha Han Hw RT) as (o & E' & _ & _ & _ & H).
  eexists. split; [exact E'|]. intros j Hj Hb Hf. apply in_map_iff. exists j. split; [reflexivity|]. apply H; auto. exact I.
Qed.
Print Assumptions C148_ties_complete_partial.

(** C149 *)
Theorem C149_rare_ties : forall {V} (comp : V -> V -> bool) val a n w fm, StrictWeak comp ->
  0 < n < 2 ^ 31 -> - 2 ^ 31 <= a -> a + n - 1 < 2 ^ 31 -> 0 < w -> rare_ties comp val a n ->
  exists out, detect comp val (mkI [a] [n]) [w] fm = Ret (map (fun i => [i]) out) /\ NoDup out /\
    StronglySorted (fun i j => ~ better comp val [j] [i]) out /\
    (forall j, In j out -> a < j < a + n /\ passes comp val fm [j] /\ window_max comp val a n w j) /\
    (forall j, a < j < a + n -> passes comp val fm [j] -> window_best comp val a n w j -> (forall i, a <= i < j - w -> ~ level comp val [i] [j]) -> In j out).
Proof. exact @line_rare_lemma. Qed.
Print Assumptions C149_rare_ties.
Example C149_case : rare_ties Z.gtb (row [0; 0; 5; 0; 1; 0; 5; 0; 0]) 0 9 /\ detect Z.gtb (row [0; 0; 5; 0; 1; 0; 5; 0; 0]) (mkI [0] [9]) [1] (Some 0) = Ret [[2]; [6]; [4]].
Proof.
  split; [|vm_compute; reflexivity]. intros i j k Hi Hj Hk N1 N2 N3 [L1 L2] [L3 L4] l Hl.
  assert (C : forall z, 0 <= z < 9 -> row [0; 0; 5; 0; 1; 0; 5; 0; 0] [z] = 0 \/ z = 2 \/ z = 4 \/ z = 6).
  { intros z Hz. assert (E : z = 0 \/ z = 1 \/ z = 2 \/ z = 3 \/ z = 4 \/ z = 5 \/ z = 6 \/ z = 7 \/ z = 8) by lia. destruct E as [->|[->|[->|[->|[->|[->|[->|[->| ->]]]]]]]]; vm_compute; auto. }
  unfold better. destruct (C i Hi) as [E|E].
  - rewrite E. destruct (C l Hl) as [El|[->|[->| ->]]]; [rewrite El|vm_compute..]; discriminate.
  - exfalso. destruct E as [->|[->| ->]]; destruct (C j Hj) as [Ej|[->|[->| ->]]]; try rewrite Ej in *; try (vm_compute in L1, L2; discriminate); try lia;
      destruct (C k Hk) as [Ek|[->|[->| ->]]]; try rewrite Ek in *; try (vm_compute in L3, L4; discriminate); lia.
Qed.

(** C150: false in four dimensions. *)
Theorem C150_best_cell_refuted : exists (val : list Z -> Z) dom w b y out,
  int_box (imin dom) (idim dom) /\ length w = length (idim dom) /\ Forall (fun k => 0 < k) w /\ in_box (imin dom) (idim dom) b /\ b <> imin dom /\
  (forall x, in_box (imin dom) (idim dom) x -> x <> b -> better Z.gtb val b x) /\
  in_box (imin dom) (idim dom) y /\ y <> b /\ near w b y /\ detect Z.gtb val dom w None = Ret out /\ ~ In b out.
Proof. exact four_witness. Qed.
Print Assumptions C150_best_cell_refuted.
(** What holds in any number of dimensions: extents for which successive cells of the walk are neighbours (missing: the other extents). *)
Theorem C150_best_cell_partial : forall {V} (comp : V -> V -> bool) val dom w fm b y, StrictWeak comp ->
  int_box (imin dom) (idim dom) -> length w = length (idim dom) -> Forall (fun x => 0 <= x) w -> zigzag_ok (idim dom) ->
  in_box (imin dom) (idim dom) b -> b <> imin dom -> (forall x, in_box (imin dom) (idim dom) x -> x <> b -> better comp val b x) -> passes comp val fm b ->
  in_box (imin dom) (idim dom) y -> y <> b -> near w b y ->
  exists out, detect comp val dom w fm = Ret (b :: out).
Proof. exact @detect_best_lemma. Qed.
Print Assumptions C150_best_cell_partial.
Example C150_case : zigzag_ok [3; 4; 2; 2] /\ detect Z.gtb (spike [1; 2; 0; 1]) (mkI [0; 0; 0; 0] [3; 4; 2; 2]) [1; 0; 0; 0] (Some 4) = Ret [[1; 2; 0; 1]].
Proof. split; [cbn; tauto|vm_compute; reflexivity]. Qed.

(** C151 *)
Theorem C151_best_cell : forall {V} (comp : V -> V -> bool) val dom w fm b y, StrictWeak comp ->
  (length (idim dom) <= 3)%nat -> int_box (imin dom) (idim dom) -> length w = length (idim dom) -> Forall (fun x => 0 <= x) w ->
  in_box (imin dom) (idim dom) b -> b <> imin dom -> (forall x, in_box (imin dom) (idim dom) x -> x <> b -> better comp val b x) -> passes comp val fm b ->
  in_box (imin dom) (idim dom) y -> y <> b -> near w b y ->
  exists out, detect comp val dom w fm = Ret (b :: out).
Proof. exact @detect_best3_lemma. Qed.
Print Assumptions C151_best_cell.
Example C151_case : detect Z.gtb (spike [1; 2; 1]) (mkI [0; 0; 0] [2; 3; 3]) [0; 0; 1] None = Ret [[1; 2; 1]] /\
  detect Z.gtb (row [1; 7; 7; 9; 7; 7; 0]) (mkI [0] [7]) [2] None = Ret [[3]].
Proof. split; vm_compute; reflexivity. Qed.
