(** * Properties of the Morton tree (C34 - C36, C73 - C75, C143, C144).  [sorter] is any implementation of std::sort. *)
From Coq Require Import List ZArith Bool Lia Permutation.
From Verif Require Import Base BitsModel BitsSpec MortonSpec MortonFloatModel MortonFloatSpec MortonTreeModel MortonTreeSpec MortonTreeProofs.
Import ListNotations.
Open Scope Z_scope.

(** ** C34, C73.  Whatever public calls came before.  For integer points this is complete (C73); for singles it covers the plain
    points of C32; fewer than 2^31 items, as ids are ints. *)
Theorem C34_find_partial d sorter ops t q : dom_ok d -> conforming sorter -> Forall (fun o => vals d (op_args o)) ops ->
  Z.of_nat (length (inserted 0 ops)) < 2 ^ 31 -> run (dom_traits d) sorter empty_tree ops = Ret t -> in_dom d (values q) ->
  exists t' k, findItem (dom_traits d) sorter t q = Ret (t', k) /\ Permutation (inserted 0 ops) (items t') /\
    (forall i j a b, (i < j)%nat -> nth_error (items t') i = Some a -> nth_error (items t') j = Some b -> ~ dom_lt d (values b) (values a)) /\
    (k <= length (items t'))%nat /\ (forall i x, nth_error (items t') i = Some x -> ((i < k)%nat <-> dom_lt d (values x) (values q))).
Proof. exact (tree_lemma d sorter ops t q). Qed.
Print Assumptions C34_find_partial.

Theorem C34_sort_partial d sorter ops t : dom_ok d -> conforming sorter -> Forall (fun o => vals d (op_args o)) ops ->
  Z.of_nat (length (inserted 0 ops)) < 2 ^ 31 -> run (dom_traits d) sorter empty_tree ops = Ret t ->
  Permutation (inserted 0 ops) (items t) /\
  exists t', sort (dom_traits d) sorter t = Ret t' /\ Permutation (inserted 0 ops) (items t') /\
    (forall i j a b, (i < j)%nat -> nth_error (items t') i = Some a -> nth_error (items t') j = Some b -> ~ dom_lt d (values b) (values a)).
Proof. exact (sort_lemma d sorter ops t). Qed.
Print Assumptions C34_sort_partial.

(** Lookup in a tree of doubles. *)
Theorem C34_double_undefined sorter x q : length (values x) = length (values q) ->
  (exists i, (i < length (values x))%nat /\ double (nth i (values x) 0) /\ double (nth i (values q) 0) /\
     d_neg (nth i (values x) 0) = d_neg (nth i (values q) 0) /\ nth i (values x) 0 <> nth i (values q) 0) ->
  findItem (float_traits F64) sorter (mkTree [x] true) q = UB.
Proof. exact (double_find_lemma sorter x q). Qed.
Print Assumptions C34_double_undefined.
(** The doubles 1 and 2. *)
Theorem C34_find_refuted : exists x q t, run (float_traits F64) isort empty_tree [OInsert x true; OSort] = Ret t /\ Forall double (values x) /\ Forall double (values q) /\
  findItem (float_traits F64) isort t q = UB.
Proof.
  exists (mkItem [0x3FF0000000000000] 0), (mkItem [0x4000000000000000] 0), (mkTree [mkItem [0x3FF0000000000000] 0] true). split; [vm_compute; reflexivity|].
  assert (D1 : double 0x3FF0000000000000) by (split; vm_compute; congruence). assert (D2 : double 0x4000000000000000) by (split; vm_compute; congruence).
  split; [exact (Forall_cons _ D1 (Forall_nil _))|]. split; [exact (Forall_cons _ D2 (Forall_nil _))|]. apply double_find_lemma; [reflexivity|]. exists 0%nat. cbn [values length nth]. repeat split; try apply D1; try apply D2; try (vm_compute; congruence). lia.
Qed.
Print Assumptions C34_find_refuted.

Theorem C73_find t n sorter ops tr q : (0 < n)%nat -> Z.of_nat n <= 2 ^ bit_num t -> conforming sorter ->
  Forall (fun o => vals (DInt t n) (op_args o)) ops -> Z.of_nat (length (inserted 0 ops)) < 2 ^ 31 ->
  run (int_traits t) sorter empty_tree ops = Ret tr -> point t n (values q) ->
  exists t' k, findItem (int_traits t) sorter tr q = Ret (t', k) /\ Permutation (inserted 0 ops) (items t') /\
    (forall i j a b, (i < j)%nat -> nth_error (items t') i = Some a -> nth_error (items t') j = Some b -> ~ lex_lt (zkey t (values b)) (zkey t (values a))) /\
    (k <= length (items t'))%nat /\ (forall i x, nth_error (items t') i = Some x -> ((i < k)%nat <-> lex_lt (zkey t (values x)) (zkey t (values q)))).
Proof. exact (fun H1 H2 => tree_lemma (DInt t n) sorter ops tr q (conj H1 H2)). Qed.
Print Assumptions C73_find.

(** Insertions, sorting and lookups never fail. *)
Theorem C73_defined t n sorter ops : (0 < n)%nat -> Z.of_nat n <= 2 ^ bit_num t -> conforming sorter ->
  Forall (fun o => vals (DInt t n) (op_args o) /\ op_query o = false) ops -> Z.of_nat (length (inserted 0 ops)) < 2 ^ 31 ->
  exists tr, run (int_traits t) sorter empty_tree ops = Ret tr.
Proof. exact (fun H1 H2 Hs Ho Hl => run_total (DInt t n) sorter ops (conj H1 H2) Hs Ho empty_tree (empty_good _) Hl). Qed.
Print Assumptions C73_defined.

Definition ex_ops : list op := [OInsert (mkItem [5; -3] 9) true; OSort; ORange [mkItem [1; 2] 4; mkItem [0; 0] 4] false; OFind (mkItem [1; 1] 0); OConv [mkItem [5; -3] 8] false].
Example C34_example : conforming isort /\ Forall (fun o => vals (DInt I32 2) (op_args o) /\ op_query o = false) ex_ops /\
  inserted 0 ex_ops = [mkItem [5; -3] 0; mkItem [1; 2] (-1); mkItem [0; 0] (-1); mkItem [5; -3] 8] /\
  exists tr, run (int_traits I32) isort empty_tree ex_ops = Ret tr.
Proof.
  split; [exact isort_conforming|]. split; [repeat constructor; cbn; discriminate|]. split; [reflexivity|]. eexists. vm_compute. reflexivity.
Qed.
(** Plain singles: (1, 0) and (3, 2.25). *)
Example C34_float_example : vals (DFloat 2) [mkItem [0x3F800000; 0] 0; mkItem [0x40400000; 0x40100000] 1].
Proof.
  apply Forall_cons; [|apply Forall_cons; [|apply Forall_nil]]; (split; [reflexivity|]); (apply Forall_cons; [|apply Forall_cons; [|apply Forall_nil]]);
    try (left; reflexivity); right; split; split; vm_compute; congruence.
Qed.
Example C34_double_example : double 0x3FF0000000000000 /\ double 0x4000000000000000 /\ d_neg 0x3FF0000000000000 = d_neg 0x4000000000000000.
Proof. repeat split; vm_compute; congruence. Qed.

(** ** C35.  With reset the item with id k is the k-th inserted one; without it only the converting insertion keeps the ids. *)
Theorem C75_reset_ids d sorter ops t : dom_ok d -> conforming sorter -> Forall (fun o => vals d (op_args o)) ops -> Forall (fun o => op_reset o = true) ops ->
  Z.of_nat (length (concat (map op_values ops))) < 2 ^ 31 -> run (dom_traits d) sorter empty_tree ops = Ret t ->
  length (items t) = length (concat (map op_values ops)) /\
  forall k v, nth_error (concat (map op_values ops)) k = Some v <-> In (mkItem v (Z.of_nat k)) (items t).
Proof. exact (reset_lemma d sorter ops t). Qed.
Print Assumptions C75_reset_ids.

Theorem C35_ids_partial d sorter ops t : dom_ok d -> conforming sorter -> Forall (fun o => vals d (op_args o)) ops ->
  Z.of_nat (length (inserted 0 ops)) < 2 ^ 31 -> run (dom_traits d) sorter empty_tree ops = Ret t ->
  Permutation (inserted 0 ops) (items t).
Proof. exact (ids_lemma d sorter ops t). Qed.
Print Assumptions C35_ids_partial.

Theorem C35_converter_keeps t l : items (insert_conv t l false) = items t ++ l.
Proof. exact (conv_keep_lemma t l). Qed.
Print Assumptions C35_converter_keeps.

Theorem C35_lost t x : map id (items (insert t x false)) = map id (items t) ++ [-1].
Proof. exact (insert_lose_lemma t x). Qed.
Print Assumptions C35_lost.

Theorem C35_refuted : exists x t', insert empty_tree x false = t' /\ id x = 7 /\ map id (items t') = [-1].
Proof. exact ids_refuted_lemma. Qed.
Print Assumptions C35_refuted.

Theorem C35_range_refuted : exists l t' s, insert_range empty_tree l false = Ret (t', s) /\ map id l = [7; 7] /\ map id (items t') = [-1; -1].
Proof. exact ids_range_refuted_lemma. Qed.
Print Assumptions C35_range_refuted.

Definition ex_ops2 : list op := [OInsert (mkItem [5; -3] 9) true; ORange [mkItem [1; 2] 4; mkItem [0; 0] 4] true; OSort; OConv [mkItem [5; -3] 8] true].
Example C35_example : Forall (fun o => vals (DInt I32 2) (op_args o)) ex_ops2 /\ Forall (fun o => op_reset o = true) ex_ops2 /\
  exists tr, run (int_traits I32) isort empty_tree ex_ops2 = Ret tr.
Proof. split; [repeat constructor; cbn; discriminate|]. split; [repeat constructor|]. eexists. vm_compute. reflexivity. Qed.

(** ** C36.  Refuted: the search over integer points never reports anything, and is undefined when the upper corner is beyond all items. *)
Theorem C36_nothing_reported t n sorter ops tr bmin bmax out t' r : (0 < n)%nat -> Z.of_nat n <= 2 ^ bit_num t -> conforming sorter ->
  Forall (fun o => vals (DInt t n) (op_args o)) ops -> Z.of_nat (length (inserted 0 ops)) < 2 ^ 31 ->
  run (int_traits t) sorter empty_tree ops = Ret tr -> searchInBox (int_traits t) sorter tr bmin bmax out = Ret (t', r) -> r = out.
Proof. exact (search_lemma t n sorter ops tr bmin bmax out t' r). Qed.
Print Assumptions C36_nothing_reported.

Theorem C36_refuted : exists l bmin bmax t', run (int_traits I32) isort empty_tree (map (fun x => OInsert x true) l) = Ret t' /\
  Forall (fun x => point I32 2 (values x)) (bmin :: bmax :: l) /\ (exists x, In x l /\ in_box (values bmin) (values bmax) (values x)) /\
  exists t2, searchInBox (int_traits I32) isort t' bmin bmax [] = Ret (t2, []).
Proof. exact search_refuted_lemma. Qed.
Print Assumptions C36_refuted.

Theorem C36_undefined d sorter ops tr bmin bmax out : dom_ok d -> conforming sorter -> Forall (fun o => vals d (op_args o)) ops ->
  Z.of_nat (length (inserted 0 ops)) < 2 ^ 31 -> run (dom_traits d) sorter empty_tree ops = Ret tr -> in_dom d (values bmin) -> in_dom d (values bmax) ->
  Forall (fun x => dom_lt d (values x) (values bmax)) (inserted 0 ops) -> searchInBox (dom_traits d) sorter tr bmin bmax out = UB.
Proof. exact (search_end_lemma d sorter ops tr bmin bmax out). Qed.
Print Assumptions C36_undefined.

Example C36_example : lex_lt (zkey I8 [5; -3]) (zkey I8 [7; 7]).
Proof. vm_compute. repeat constructor. Qed.

(** ** C74 *)
Theorem C74_level t n sorter ops tr i j : (0 < n)%nat -> Z.of_nat n <= 2 ^ bit_num t -> conforming sorter ->
  Forall (fun o => vals (DInt t n) (op_args o)) ops -> Z.of_nat (length (inserted 0 ops)) < 2 ^ 31 ->
  run (int_traits t) sorter empty_tree ops = Ret tr -> (i < j <= length (inserted 0 ops))%nat ->
  exists t' lev, computeLevel (int_traits t) sorter tr i j = Ret (t', lev) /\ Permutation (inserted 0 ops) (items t') /\
    forall k, 0 <= k -> (lev <= k <-> forall p q x y c, (i <= p < j)%nat -> (i <= q < j)%nat -> nth_error (items t') p = Some x -> nth_error (items t') q = Some y ->
      (c < n)%nat -> (nth c (values x) 0 - tmin t) / 2 ^ k = (nth c (values y) 0 - tmin t) / 2 ^ k).
Proof. exact (level_lemma t n sorter ops tr i j). Qed.
Print Assumptions C74_level.

Example C74_example : exists tr t', run (int_traits I32) isort empty_tree ex_ops = Ret tr /\ computeLevel (int_traits I32) isort tr 2 4 = Ret (t', 2).
Proof. do 2 eexists. split; [vm_compute; reflexivity|]. vm_compute. reflexivity. Qed.

(** ** C143.  Refuted: a range insertion with reset renumbers the caller's items; without reset it leaves them alone. *)
Theorem C143_source_refuted : exists l t' src, insert_range empty_tree l true = Ret (t', src) /\ src <> l.
Proof. exact source_refuted_lemma. Qed.
Print Assumptions C143_source_refuted.

Theorem C143_source_exact t l b : Z.of_nat (length (items t) + length l) < 2 ^ 31 ->
  exists t' src, insert_range t l b = Ret (t', src) /\ length src = length l /\
    forall k x, nth_error l k = Some x -> nth_error src k = Some (if b then mkItem (values x) (Z.of_nat (length (items t) + k)) else x).
Proof. exact (source_lemma t l b). Qed.
Print Assumptions C143_source_exact.

Example C143_example : exists t', insert_range (insert empty_tree (mkItem [1; 2] 5) true) [mkItem [3; 4] 7; mkItem [0; 0] 9] true =
  Ret (t', [mkItem [3; 4] 1; mkItem [0; 0] 2]).
Proof. eexists. reflexivity. Qed.

(** ** C144.  Refuted: the corners wrap around (unsigned and narrow types) or the call is undefined (int, long). *)
Theorem C144_centre_refuted : exists c r lo hi, in_type U8 c /\ 0 <= r /\ in_type U8 r /\
  (forall sorter tr out, searchInBoxCentre U8 sorter tr (mkItem [c] 0) r out = searchInBox (int_traits U8) sorter tr (mkItem [lo] (-1)) (mkItem [hi] (-1)) out) /\
  ~ in_box [lo] [hi] [c].
Proof. exact centre_refuted_lemma. Qed.
Print Assumptions C144_centre_refuted.

Theorem C144_centre_partial t sorter tr c r out :
  (Forall (fun x => in_type t (x - r) /\ in_type t (x + r)) (values c) ->
    searchInBoxCentre t sorter tr c r out =
    searchInBox (int_traits t) sorter tr (mkItem (map (fun x => x - r) (values c)) (-1)) (mkItem (map (fun x => x + r) (values c)) (-1)) out) /\
  (t = I32 \/ t = I64 -> Exists (fun x => ~ in_type t (x - r) \/ ~ in_type t (x + r)) (values c) -> searchInBoxCentre t sorter tr c r out = UB).
Proof. exact (centre_lemma t sorter tr c r out). Qed.
Print Assumptions C144_centre_partial.

Example C144_example : Forall (fun x => in_type I32 (x - 3) /\ in_type I32 (x + 3)) [10; -7] /\
  Exists (fun x => ~ in_type I32 (x - 3) \/ ~ in_type I32 (x + 3)) [5; 2147483646].
Proof.
  split; [repeat constructor; vm_compute; congruence|]. right. left. right. intros [_ H]. vm_compute in H. congruence.
Qed.

(** ** C186.  The ids of more than 2^31 items: false for the items from number 2^31 on, whose ids are negative or repeat earlier ones. *)
Theorem C186_late_ids_refuted : exists x l t' y k, run (int_traits I32) isort empty_tree (map (fun x => OInsert x true) l) = Ret t' /\
  nth_error l k = Some x /\ nth_error (items t') k = Some y /\ id y <> Z.of_nat k.
Proof.
  assert (K : exists k, Z.of_nat k = 2 ^ 31) by (exists (Z.to_nat (2 ^ 31)); apply Z2Nat.id; lia). destruct K as [k K].
  destruct (late_id (int_traits I32) isort (mkItem [0] 0) k) as (l & t' & y & R & N & X & D); [lia|]. exists (mkItem [0] 0), l, t', y, k. auto.
Qed.
Print Assumptions C186_late_ids_refuted.
(** What is missing: the multiple of 2^32.  Single insertions, whatever the types and the sorting function. *)
Theorem C186_late_ids_partial tr sorter l : exists t', run tr sorter empty_tree (map (fun x => OInsert x true) l) = Ret t' /\ length (items t') = length l /\
  forall k y, nth_error (items t') k = Some y -> exists x, nth_error l k = Some x /\ values y = values x /\ as_int (Z.of_nat k) (id y).
Proof.
  destruct (run_inserts tr sorter l empty_tree) as (t' & new & R & I & N & H). exists t'. cbn in I. rewrite I. auto.
Qed.
Print Assumptions C186_late_ids_partial.
Example C186_int : as_int (2 ^ 31 + 5) (5 - 2 ^ 31). Proof. split; [lia|]. exists 1. lia. Qed.
