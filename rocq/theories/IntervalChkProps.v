(** * Property theorems for index intervals and the peak finder in int arithmetic (C211-C214). *)
From Coq Require Import List ZArith Bool Lia Sorting.Sorted.
From Verif Require Import Base IntervalModel IntervalSpec MinMaxHeapSpec PeakModel PeakSpec PeakProofs PeakLine
  IntervalChkModel IntervalChkSpec IntervalChkProofs PeakChkSpec PeakChkProofs PeakProps.
Import ListNotations.
Open Scope Z_scope.

(** C211: false; a box of int cells whose last cell is the largest int, and two boxes far apart. *)
Theorem C211_overflow_refuted :
  (exists a x, int_box (imin a) (idim a) /\ in_box (imin a) (idim a) x /\ inside_chk a x = UB /\ imax_chk a = UB /\ ilast_chk a = UB) /\
  (exists a b, int_box (imin a) (idim a) /\ int_box (imin b) (idim b) /\ each2 (fun m d => fits (m + d)) (imin a) (idim a) /\
     each2 (fun m d => fits (m + d)) (imin b) (idim b) /\ intersect_chk a b = UB).
Proof.
  split.
  - exists (mkI [0; 2147483647] [3; 1]), [1; 2147483647]. repeat split; repeat (constructor; try lia).
  - exists (mkI [-2147483648] [5]), (mkI [2147483640] [5]). split; [split; [repeat (constructor; try lia)|reflexivity]|]. split; [split; [repeat (constructor; try lia)|reflexivity]|].
    split; [|split; [|reflexivity]]; intros [|[|k]] x y H1 H2; cbn [imin idim nth_error] in *; try discriminate; injection H1 as <-; injection H2 as <-; unfold fits; lia.
Qed.
Print Assumptions C211_overflow_refuted.
(** What holds: for every operation, exactly when it overflows (missing: nothing overflows). *)
Theorem C211_constructors_exact_partial :
  (forall c w, length w = length c ->
    (each2 (fun x y => fits (x - y) /\ fits (2 * y + 1)) c w -> initCentered_chk c w = Ret (initCentered c w)) /\
    (~ each2 (fun x y => fits (x - y) /\ fits (2 * y + 1)) c w -> initCentered_chk c w = UB)) /\
  (forall mn mx, length mx = length mn ->
    (each2 (fun a b => fits (b - a) /\ fits (b - a + 1)) mn mx -> initMinMax_chk mn mx = Ret (initMinMax mn mx)) /\
    (~ each2 (fun a b => fits (b - a) /\ fits (b - a + 1)) mn mx -> initMinMax_chk mn mx = UB)).
Proof. split; intros; apply alt; [now apply centered_alt|now apply minmax_alt]. Qed.
Print Assumptions C211_constructors_exact_partial.
Theorem C211_bounds_exact_partial : forall a, length (imin a) = length (idim a) ->
  ((each2 (fun m d => fits (m + d)) (imin a) (idim a) -> ilast_chk a = Ret (ilast a)) /\
   (~ each2 (fun m d => fits (m + d)) (imin a) (idim a) -> ilast_chk a = UB)) /\
  ((each2 (fun m d => fits (m + d) /\ fits (m + d - 1)) (imin a) (idim a) -> imax_chk a = Ret (imax a)) /\
   (~ each2 (fun m d => fits (m + d) /\ fits (m + d - 1)) (imin a) (idim a) -> imax_chk a = UB)).
Proof. split; apply alt; [now apply last_alt|now apply max_alt]. Qed.
Print Assumptions C211_bounds_exact_partial.
Theorem C211_inside_exact_partial : forall a,
  (each2 (fun m d => fits (m + d)) (imin a) (idim a) -> forall x, inside_chk a x = Ret (inside a x)) /\
  (~ each2 (fun m d => fits (m + d)) (imin a) (idim a) -> forall x, in_box (imin a) (idim a) x -> inside_chk a x = UB).
Proof.
  split; [intros H x; now apply inside_chk_ok|]. intros H x Hx. destruct (inside_chk_cell _ _ _ Hx) as [[F _]|[_ E]]; [contradiction|exact E].
Qed.
Print Assumptions C211_inside_exact_partial.
Theorem C211_inside_order_partial : forall a x,
  (overflow_decides (imin a) (idim a) x -> inside_chk a x = UB) /\ (~ overflow_decides (imin a) (idim a) x -> inside_chk a x = Ret (inside a x)).
Proof. intros a x. apply inside_chk_exact. Qed.
Print Assumptions C211_inside_order_partial.
Example C211_order_case : inside_chk (mkI [0; 2147483647] [3; 1]) [5; 2147483647] = Ret false /\ inside_chk (mkI [0; 2147483647] [3; 1]) [1; 0] = Ret false /\
  overflow_decides [0; 2147483647] [3; 1] [1; 2147483647].
Proof.
  split; [reflexivity|]. split; [reflexivity|]. exists 1%nat, 2147483647, 1, 2147483647. repeat split; try reflexivity; try (unfold fits; lia);
    destruct j as [|j]; try lia; cbn [nth_error] in *; repeat match goal with A : Some _ = Some _ |- _ => injection A as <- end; unfold fits; lia.
Qed.
Theorem C211_intersect_exact_partial : forall a b, length (imin a) = length (idim a) -> length (imin b) = length (idim b) -> length (imin b) = length (imin a) ->
  Forall fits (imin a) -> Forall fits (idim a) -> Forall fits (imin b) -> Forall fits (idim b) -> empty a = false -> empty b = false ->
  (each4 meet_fits (imin a) (idim a) (imin b) (idim b) -> intersect_chk a b = Ret (intersect a b)) /\
  (~ each4 meet_fits (imin a) (idim a) (imin b) (idim b) -> intersect_chk a b = UB).
Proof. intros. apply alt. now apply intersect_alt. Qed.
Print Assumptions C211_intersect_exact_partial.
Theorem C211_moves_exact_partial : forall a d incr m e, nth_error (imin a) d = Some m -> nth_error (idim a) d = Some e ->
  ((fits (m + incr) -> translate_chk a d incr = translate a d incr) /\ (~ fits (m + incr) -> translate_chk a d incr = UB)) /\
  (0 <= incr -> (fits (m + e) -> stacked_chk a d incr = stacked a d incr) /\ (~ fits (m + e) -> stacked_chk a d incr = UB)) /\
  (incr < 0 -> (fits (m + incr) /\ fits (- incr) -> stacked_chk a d incr = stacked a d incr) /\ (~ (fits (m + incr) /\ fits (- incr)) -> stacked_chk a d incr = UB)) /\
  (forall t, length t = length (imin a) ->
    (each2 (fun m x => fits (m + x)) (imin a) t -> translateV_chk a t = Ret (translateV a t)) /\ (~ each2 (fun m x => fits (m + x)) (imin a) t -> translateV_chk a t = UB)).
Proof.
  intros a d incr m e Em Ee. split; [now apply translate_alt|]. pose proof (stacked_alt a d incr m e Em Ee) as S. cbv zeta in S. split; [|split].
  - intros H. now rewrite (proj2 (Z.leb_le 0 incr) H) in S.
  - intros H. now rewrite (proj2 (Z.leb_gt 0 incr) H) in S.
  - intros t Lt. apply alt. now apply translateV_alt.
Qed.
Print Assumptions C211_moves_exact_partial.
Example C211_case : each4 meet_fits [-5; 0] [10; 3] [2; 1] [4; 1] /\ intersect_chk (mkI [-5; 0] [10; 3]) (mkI [2; 1] [4; 1]) = Ret (mkI [2; 1] [3; 1]) /\
  ~ each4 meet_fits [-2147483648] [5] [2147483640] [5] /\ stacked_chk (mkI [2147483600] [47]) 0 3 = Ret (mkI [2147483647] [3]) /\
  translate_chk (mkI [2147483600] [47]) 0 48 = UB.
Proof.
  split.
  - intros [|[|[|k]]] x y z t H1 H2 H3 H4; cbn [nth_error] in *; try discriminate; injection H1 as <-; injection H2 as <-; injection H3 as <-; injection H4 as <-; unfold meet_fits, fits; lia.
  - split; [reflexivity|]. split; [|split; reflexivity]. intros H. destruct (H 0%nat _ _ _ _ eq_refl eq_refl eq_refl eq_refl) as (_ & _ & F). lia.
Qed.

(** C212 *)
Theorem C212_near_zero : forall a b, length (imin a) = length (idim a) -> length (imin b) = length (idim b) -> length (imin b) = length (imin a) ->
  each2 (fun m d => 0 <= d /\ - 2 ^ 30 <= m /\ m + d < 2 ^ 30) (imin a) (idim a) -> each2 (fun m d => 0 <= d /\ - 2 ^ 30 <= m /\ m + d < 2 ^ 30) (imin b) (idim b) ->
  imax_chk a = Ret (imax a) /\ ilast_chk a = Ret (ilast a) /\ (forall x, inside_chk a x = Ret (inside a x)) /\ intersect_chk a b = Ret (intersect a b) /\
  (forall t, length t = length (imin a) -> Forall (fun s => Z.abs s <= 2 ^ 30) t -> translateV_chk a t = Ret (translateV a t)) /\
  (forall d s, Z.abs s <= 2 ^ 30 -> translate_chk a d s = translate a d s /\ stacked_chk a d s = stacked a d s).
Proof. exact near_zero_lemma. Qed.
Print Assumptions C212_near_zero.
Example C212_case : each2 (fun m d => 0 <= d /\ - 2 ^ 30 <= m /\ m + d < 2 ^ 30) [-1073741824; 7] [2147483647; 0].
Proof. intros [|[|[|k]]] x y H1 H2; cbn [nth_error] in *; try discriminate; injection H1 as <-; injection H2 as <-; lia. Qed.

(** C213 *)
Theorem C213_peaks_int_exact : forall {V} (comp : V -> V -> bool) val dom w fm,
  int_box (imin dom) (idim dom) -> length w = length (idim dom) -> Forall (fun k => 0 <= k) w -> zigzag_ok (idim dom) ->
  (windows_fit (imin dom) (idim dom) w -> detect_chk comp val dom w fm = detect comp val dom w fm) /\
  (~ windows_fit (imin dom) (idim dom) w -> detect_chk comp val dom w fm = UB).
Proof. exact @detect_zig_lemma. Qed.
Print Assumptions C213_peaks_int_exact.
(** On a line, what the peak finder reports. *)
Theorem C213_line : forall {V} (comp : V -> V -> bool) val a n w fm, StrictWeak comp ->
  0 < n < 2 ^ 31 -> 0 < w < 2 ^ 30 -> - 2 ^ 31 <= a - w -> a + n + w < 2 ^ 31 -> distinct_values comp val a n ->
  exists out, detect_chk comp val (mkI [a] [n]) [w] fm = Ret (map (fun i => [i]) out) /\
    StronglySorted (fun i j => better comp val [i] [j]) out /\
    forall j, In j out <-> a < j < a + n /\ passes comp val fm [j] /\ window_best comp val a n w j.
Proof.
  intros V comp val a n w fm SW Hn Hw Hlo Hhi Hd. destruct (detect_zig_lemma comp val (mkI [a] [n]) [w] fm) as [E _].
  - split; [repeat (constructor; try lia)|cbn [idim vol]; lia].
  - reflexivity.
  - repeat constructor; lia.
  - exact I.
  - rewrite E; [apply line_peaks_lemma; auto; lia|]. intros [|[|k]] x y z H1 H2 H3; cbn [imin idim nth_error] in *; try discriminate. injection H1 as <-. injection H2 as <-. injection H3 as <-. unfold fits. lia.
Qed.
Print Assumptions C213_line.
Example C213_case : windows_fit [2] [6] [1] /\ detect_chk Z.gtb hist (mkI [2] [6]) [1] (Some 1) = Ret [[4]] /\ zigzag_ok [4; 7] /\
  ~ windows_fit [2147483641] [6] [1] /\ detect_chk Z.gtb hist (mkI [2147483641] [6]) [1] (Some 1) = UB.
Proof.
  split; [intros [|[|k]] x y z H1 H2 H3; cbn [nth_error] in *; try discriminate; injection H1 as <-; injection H2 as <-; injection H3 as <-; unfold fits; lia|].
  split; [vm_compute; reflexivity|]. split; [cbn; auto|]. split; [|vm_compute; reflexivity]. intros H. destruct (H 0%nat _ _ _ eq_refl eq_refl eq_refl) as (_ & _ & F). unfold fits in F. lia.
Qed.

(** C214 *)
Theorem C214_peaks_int_any : forall {V} (comp : V -> V -> bool) val dom w fm,
  int_box (imin dom) (idim dom) -> length w = length (idim dom) -> Forall (fun k => 0 <= k) w ->
  each3 (fun m d k => Z.abs m + d + k + vol (idim dom) <= 2 ^ 30) (imin dom) (idim dom) w ->
  detect_chk comp val dom w fm = detect comp val dom w fm /\
  exists out, detect_chk comp val dom w fm = Ret out /\ NoDup out /\ forall x, In x out -> in_box (imin dom) (idim dom) x /\ x <> imin dom /\ passes comp val fm x.
Proof.
  intros V comp val dom w fm H1 H2 H3 H4. pose proof (detect_any_lemma comp val dom w fm H1 H2 H3 H4) as E. split; [exact E|].
  rewrite E. now apply detect_safe_lemma.
Qed.
Print Assumptions C214_peaks_int_any.
Example C214_case : each3 (fun m d k => Z.abs m + d + k + vol [30; 31; 17] <= 2 ^ 30) [-100000; 0; 5] [30; 31; 17] [3; 2; 1000] /\ ~ zigzag_ok [30; 31; 17].
Proof.
  split; [intros [|[|[|[|k]]]] x y z H1 H2 H3; cbn [nth_error vol] in *; try discriminate; injection H1 as <-; injection H2 as <-; injection H3 as <-; lia|].
  cbn. intros [[H|[H|H]] _]; discriminate.
Qed.

(** C215: false; a domain with two negative extents is empty and is scanned all the same. *)
Theorem C215_empty_domain_refuted : exists (V : Type) (comp : V -> V -> bool) val dom w, length (imin dom) = length (idim dom) /\ length w = length (idim dom) /\
  empty dom = true /\ (forall x, length x = length (idim dom) -> inside dom x = false) /\ detect_chk comp val dom w None = Ret [].
Proof.
  exists Z, Z.gtb, (fun x => match x with [a; b] => 10 * a + b | _ => 0 end), (mkI [0; 0] [-2; -3]), [1; 1]. split; [reflexivity|]. split; [reflexivity|]. split; [reflexivity|]. split; [|vm_compute; reflexivity].
  intros x Hx. destruct x as [|i [|j [|]]]; try discriminate Hx. unfold inside. cbn [imin idim inside_loop]. destruct (Z.ltb_spec i 0); [reflexivity|].
  destruct (Z.leb_spec (0 + -2) i); [reflexivity|lia].
Qed.
Print Assumptions C215_empty_domain_refuted.
(** What holds: a zero extent is detected; a negative number of cells is undefined behaviour (missing: several negative extents). *)
Theorem C215_empty_domain_exact_partial : forall {V} (comp : V -> V -> bool) val dom w fm,
  (In 0 (idim dom) -> detect_chk comp val dom w fm = Exit /\ detect comp val dom w fm = Exit) /\
  (- 2 ^ 31 <= vol (idim dom) < 0 -> detect_chk comp val dom w fm = UB /\ detect comp val dom w fm = UB).
Proof. intros. split; [apply zero_extent_lemma|apply negative_cells_lemma]. Qed.
Print Assumptions C215_empty_domain_exact_partial.
Example C215_case : In 0 [7; 0; -2] /\ - 2 ^ 31 <= vol [4; -3] < 0 /\ detect_chk Z.gtb (fun x => 0) (mkI [1; 2; 3] [7; 0; -2]) [1; 1; 1] None = Exit.
Proof. split; [cbn; auto|]. split; [cbn; lia|vm_compute; reflexivity]. Qed.
