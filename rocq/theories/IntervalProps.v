(** * Property theorems for intervals, indexers, iteration and grids. *)
From Coq Require Import List ZArith Bool Lia.
From Verif Require Import Base IntervalModel IntervalSpec GridSpec IntervalProofs.
Import ListNotations.
Open Scope Z_scope.

(** C16 *)
Theorem C16_bijection : forall mn dm, int_box mn dm ->
  (forall x, in_box mn dm x -> 0 <= static_getPos mn dm x < vol dm /\
     raster_getPos mn dm x = static_getPos mn dm x /\
     static_getIndices (static_getPos mn dm x) mn dm = Ret x /\
     raster_getIndices mn dm (static_getPos mn dm x) = Ret x) /\
  (forall p, 0 <= p < vol dm -> exists x, in_box mn dm x /\ static_getPos mn dm x = p /\
     static_getIndices p mn dm = Ret x /\ raster_getIndices mn dm p = Ret x) /\
  (forall p, 0 <= p < vol dm -> exists x, in_box mn dm x /\ boust_getIndices mn dm p = Ret x) /\
  (forall x, in_box mn dm x -> exists p, 0 <= p < vol dm /\ boust_getIndices mn dm p = Ret x /\
     forall q, 0 <= q < vol dm -> boust_getIndices mn dm q = Ret x -> q = p).
Proof. exact bijection_lemma. Qed.
Print Assumptions C16_bijection.
Example C16_case : int_box [-3; 5; 0] [4; 3; 2] /\ in_box [-3; 5; 0] [4; 3; 2] [-1; 6; 1] /\
  static_getPos [-3; 5; 0] [4; 3; 2] [-1; 6; 1] = 18 /\ boust_getIndices [-3; 5; 0] [4; 3; 2] 18 = Ret [-2; 6; 1].
Proof. split; [|split; [|split; reflexivity]]. split; [repeat constructor; lia|reflexivity]. repeat constructor; lia. Qed.

(** C17 *)
Theorem C17_iteration : forall a, int_coords (imin a) (idim a) -> nonneg (idim a) -> vol (idim a) < 2 ^ 31 ->
  (exists l, iterate_raster a = Ret l /\ NoDup l /\
    (forall x, In x l <-> length x = length (idim a) /\ inside a x = true) /\ Z.of_nat (length l) = size a) /\
  (exists l, iterate_boustrophedon a = Ret l /\ NoDup l /\
    (forall x, In x l <-> length x = length (idim a) /\ inside a x = true) /\ Z.of_nat (length l) = size a).
Proof. exact iterate_lemma. Qed.
Print Assumptions C17_iteration.
Example C17_case : let a := mkI [1; -1] [2; 3] in
  int_coords (imin a) (idim a) /\ nonneg (idim a) /\ vol (idim a) < 2 ^ 31 /\
  iterate_boustrophedon a = Ret [[1; -1]; [2; -1]; [2; 0]; [1; 0]; [1; 1]; [2; 1]].
Proof. split; [|split; [|split; reflexivity]]; repeat constructor; lia. Qed.

(** C18 *)
Theorem C18_neighbours : forall mn dm, length mn = length dm -> Forall (fun d => 0 < d) dm ->
  ((length dm <= 2)%nat \/ middle_even dm) ->
  forall p, 0 <= p -> p + 1 < vol dm -> exists x y, boust_getIndices mn dm p = Ret x /\
      boust_getIndices mn dm (p + 1) = Ret y /\ neighbours x y.
Proof. exact zigzag_even_lemma. Qed.
Print Assumptions C18_neighbours.
Example C18_case : middle_even [3; 4; 5] /\ 11 + 1 < vol [3; 4; 5] /\
  boust_getIndices [0; 0; 0] [3; 4; 5] 11 = Ret [0; 3; 0] /\ boust_getIndices [0; 0; 0] [3; 4; 5] 12 = Ret [0; 3; 1].
Proof. repeat split. Qed.

(** C19: false as stated; the exact condition. *)
Theorem C19_neighbours_refuted : exists mn dm p x y, length mn = length dm /\ Forall (fun d => 0 < d) dm /\ 0 <= p /\ p + 1 < vol dm /\
  boust_getIndices mn dm p = Ret x /\ boust_getIndices mn dm (p + 1) = Ret y /\ ~ neighbours x y.
Proof. exact zigzag_refuted_lemma. Qed.
Print Assumptions C19_neighbours_refuted.

Theorem C19_neighbours_exact_partial : forall mn dm, length mn = length dm -> Forall (fun d => 0 < d) dm ->
  ((forall p x y, 0 <= p -> p + 1 < vol dm -> boust_getIndices mn dm p = Ret x ->
      boust_getIndices mn dm (p + 1) = Ret y -> neighbours x y) <-> zigzag_ok dm).
Proof. exact zigzag_exact_lemma. Qed.
Print Assumptions C19_neighbours_exact_partial.
Example C19_case : zigzag_ok [1; 3; 2; 1; 1] /\ zigzag_ok [5; 2; 7] /\ ~ zigzag_ok [2; 3; 2].
Proof. split; [|split]; [cbn; auto 10|cbn; auto 10|]. cbn. intros [[H|[H|H]] _]; discriminate. Qed.

(** C20 *)
Theorem C20_intersect : forall a b x, length (imin a) = length (idim a) -> length (imin b) = length (idim b) ->
  length (imin b) = length (imin a) -> length x = length (imin a) ->
  inside (intersect a b) x = inside a x && inside b x.
Proof. exact intersect_lemma. Qed.
Print Assumptions C20_intersect.

(** The result is again a box of the same dimension with non-negative extents. *)
Theorem C20_intersect_shape : forall a b, length (imin a) = length (idim a) -> length (imin b) = length (idim b) -> length (imin b) = length (imin a) ->
  length (imin (intersect a b)) = length (imin a) /\ length (idim (intersect a b)) = length (idim a) /\
  (nonneg (idim a) -> nonneg (idim b) -> nonneg (idim (intersect a b))).
Proof. exact intersect_shape_lemma. Qed.
Print Assumptions C20_intersect_shape.
Example C20_shape_case : intersect (mkI [0; 0] [2; 2]) (mkI [5; 1] [2; 2]) = mkI [5; 1] [0; 1].
Proof. reflexivity. Qed.

Theorem C20_translate_vector : forall a t x, length (imin a) = length (idim a) -> length t = length (imin a) -> length x = length (imin a) ->
  inside (translateV a t) (map2 Z.add x t) = inside a x.
Proof. exact translateV_lemma. Qed.
Print Assumptions C20_translate_vector.

Theorem C20_translate_axis : forall a d incr x, length (imin a) = length (idim a) -> length x = length (imin a) ->
  ((d < length (imin a))%nat -> exists b, translate a d incr = Ret b /\ idim b = idim a /\
     forall i, nth_error x d = Some i -> inside b (lset x d (i + incr)) = inside a x) /\
  ((length (imin a) <= d)%nat -> translate a d incr = Exit /\ stacked a d incr = Exit).
Proof. exact translate_lemma. Qed.
Print Assumptions C20_translate_axis.

Theorem C20_stacked : forall a d incr e, length (imin a) = length (idim a) -> (d < length (imin a))%nat -> nth_error (idim a) d = Some e ->
  exists s t, stacked a d incr = Ret s /\ translate a d incr = Ret t /\
  (forall x, length x = length (imin a) -> inside t x = true -> inside a x = false -> inside s x = true) /\
  (forall x, length x = length (imin a) -> inside s x = true -> inside a x = false) /\
  (Z.abs incr <= e -> forall x, length x = length (imin a) ->
     (inside s x = true <-> inside t x = true /\ inside a x = false)).
Proof. exact stacked_lemma. Qed.
Print Assumptions C20_stacked.
Example C20_case : let a := mkI [0; 0] [4; 3] in let b := mkI [2; -1] [5; 3] in
  intersect a b = mkI [2; 0] [2; 2] /\ inside (intersect a b) [3; 1] = true /\
  stacked a 0 (-2) = Ret (mkI [-2; 0] [2; 3]) /\ translate a 0 (-2) = Ret (mkI [-2; 0] [4; 3]).
Proof. repeat split. Qed.

(** C21 *)
Theorem C21_size : forall a, length (imin a) = length (idim a) -> nonneg (idim a) -> vol (idim a) < 2 ^ 64 ->
  (exists l, NoDup l /\ (forall x, In x l <-> length x = length (idim a) /\ inside a x = true) /\ size a = Z.of_nat (length l)) /\
  (empty a = true <-> size a = 0) /\
  (empty a = true <-> forall x, length x = length (idim a) -> inside a x = false).
Proof. exact size_lemma. Qed.
Print Assumptions C21_size.
Example C21_case : nonneg [2; 0; 3] /\ empty (mkI [0; 0; 0] [2; 0; 3]) = true /\ size (mkI [1; 1] [70000; 70000]) = 4900000000.
Proof. split; [repeat constructor; lia|]. split; reflexivity. Qed.

(** C22 *)
Theorem C22_grid_cells : forall (V : Type) (v0 : V) g, greach v0 g ->
  (forall x, gcell g x -> exists v, grid_get g x = Ret v /\ grid_at g (grid_getPos g x) = Ret v /\
     forall w, exists g', grid_set g x w = Ret g' /\ greach v0 g' /\ gdom g' = gdom g /\ grid_get g' x = Ret w /\
       forall y, gcell g y -> y <> x -> grid_get g' y = grid_get g y) /\
  (forall v x, gcell g x -> grid_get (grid_fill g v) x = Ret v).
Proof. exact @grid_cells_lemma. Qed.
Print Assumptions C22_grid_cells.

(** Access by position is checked. *)
Theorem C22_checked_position : forall (V : Type) (v0 : V) g pos, greach v0 g ->
  Z.of_nat (grid_size g) = vol (idim (gdom g)) /\
  (0 <= pos < vol (idim (gdom g)) -> exists v, grid_at g pos = Ret v) /\
  (~ 0 <= pos < vol (idim (gdom g)) -> grid_at g pos = Exit).
Proof. exact @grid_at_lemma. Qed.
Print Assumptions C22_checked_position.
Example C22_case : let g := grid_initBounds 0 (grid_new 2) [1; 1] [2; 3] in
  greach 0 g /\ gcell g [2; 3] /\ exists g', grid_set g [2; 3] 9 = Ret g' /\ gdata g' = [0; 0; 0; 0; 0; 9].
Proof.
  split; [|split].
  - constructor; [constructor|]. split; [auto|]. split; [repeat constructor; lia|reflexivity].
  - repeat constructor; lia.
  - eexists. split; reflexivity.
Qed.

(** C64: false for the run-time indexer; true for the static one, and for the run-time one when corner + cell count fits. *)
Theorem C64_static_no_overflow : forall mn dm x, int_box mn dm -> in_box mn dm x ->
  static_getPos_chk mn dm x = Ret (static_getPos mn dm x).
Proof. exact overflow_static_lemma. Qed.
Print Assumptions C64_static_no_overflow.
Theorem C64_runtime_overflow_refuted : exists mn dm x, int_box mn dm /\ in_box mn dm x /\ raster_getPos_chk mn dm x = UB /\
  exists p, static_getPos_chk mn dm x = Ret p.
Proof. exact overflow_refuted_lemma. Qed.
Print Assumptions C64_runtime_overflow_refuted.
Theorem C64_runtime_no_overflow_partial : forall mn dm x, int_box mn dm -> in_box mn dm x -> Forall (fun m => m + vol dm <= 2 ^ 31) mn ->
  raster_getPos_chk mn dm x = Ret (raster_getPos mn dm x).
Proof. exact overflow_raster_lemma. Qed.
Print Assumptions C64_runtime_no_overflow_partial.
Example C64_case : int_box [-2147483648; 2000000000] [2000; 2000] /\ in_box [-2147483648; 2000000000] [2000; 2000] [-2147483648; 2000001999] /\
  Forall (fun m => m + vol [2000; 2000] <= 2 ^ 31) [-2147483648; 2000000000].
Proof.
  split; [|split].
  - split; [|reflexivity]. repeat constructor; lia.
  - repeat constructor; lia.
  - repeat constructor; vm_compute; discriminate.
Qed.

(** C65: false; with non-negative extents see C17. *)
Theorem C65_negative_extents_refuted : exists a x, length (imin a) = length (idim a) /\ empty a = true /\
  iterate_raster a = Ret [x] /\ iterate_boustrophedon a = Ret [x] /\ inside a x = false.
Proof. exact iterate_refuted_lemma. Qed.
Print Assumptions C65_negative_extents_refuted.

(** C66: false in both directions; see C21 for the restricted claim, and the exact value of size(). *)
Theorem C66_size_refuted :
  (exists a, length (imin a) = length (idim a) /\ empty a = true /\ size a = 1 /\
     (forall x, length x = length (idim a) -> inside a x = false)) /\
  (exists a x, length (imin a) = length (idim a) /\ empty a = false /\ size a = 0 /\ nonneg (idim a) /\ inside a x = true).
Proof. exact size_refuted_lemma. Qed.
Print Assumptions C66_size_refuted.
Theorem C66_size_exact_partial : forall a, size a = vol (idim a) mod 2 ^ 64.
Proof. exact size_mod. Qed.
Print Assumptions C66_size_exact_partial.

(** C67 *)
Theorem C67_constructors :
  (forall c w x, length w = length c -> length x = length c ->
    (inside (initCentered c w) x = true <-> forall k ck wk xk, nth_error c k = Some ck -> nth_error w k = Some wk -> nth_error x k = Some xk -> Z.abs (xk - ck) <= wk)) /\
  (forall mn mx x, length mx = length mn -> length x = length mn ->
    (inside (initMinMax mn mx) x = true <-> forall k a b xk, nth_error mn k = Some a -> nth_error mx k = Some b -> nth_error x k = Some xk -> a <= xk <= b)) /\
  (forall mn mx, length mx = length mn -> imin (initMinMax mn mx) = mn /\ imax (initMinMax mn mx) = mx) /\
  (forall mn dm x, length dm = length mn -> length x = length mn -> (inside (initBounds mn dm) x = true <-> in_box mn dm x)).
Proof. exact constructors_lemma. Qed.
Print Assumptions C67_constructors.
Example C67_case : inside (initCentered [3; 4] [1; 2]) [4; 2] = true /\ inside (initCentered [3; 4] [1; 2]) [5; 2] = false /\
  inside (initMinMax [0; 0] [4; 5]) [4; 5] = true /\ inside (initMinMax [0; 0] [4; 5]) [4; 6] = false.
Proof. repeat split. Qed.

(** C68: false; the old storage shows through.  Exactly which value each cell gets, and the case of a new grid. *)
Theorem C68_reinit_refuted : exists g mn dm x, greach 0 g /\ dom_ok mn dm /\ in_box mn dm x /\
  grid_get (grid_initBounds 0 g mn dm) x = Ret 7.
Proof. exact grid_reinit_refuted_lemma. Qed.
Print Assumptions C68_reinit_refuted.
Theorem C68_reinit_exact_partial : forall (V : Type) (v0 : V) g mn dm x, greach v0 g -> dom_ok mn dm -> in_box mn dm x ->
  grid_get (grid_initBounds v0 g mn dm) x = Ret (nth (Z.to_nat (static_getPos mn dm x)) (gdata g) v0).
Proof. exact @grid_reinit_lemma. Qed.
Print Assumptions C68_reinit_exact_partial.
Theorem C68_new_grid_partial : forall (V : Type) (v0 : V) n mn dm x, dom_ok mn dm -> in_box mn dm x ->
  grid_get (grid_initBounds v0 (grid_new (S n)) mn dm) x = Ret v0.
Proof. exact @grid_fresh_lemma. Qed.
Print Assumptions C68_new_grid_partial.
Example C68_case : dom_ok [0; 0] [2; 2] /\ in_box [0; 0] [2; 2] [1; 0].
Proof. split; [|repeat constructor; lia]. split; [auto|]. split; [repeat constructor; lia|reflexivity]. Qed.
