(** * Model of rofl::IntervalIndices, its indexers and iterators, and rofl::Grid
      (common/include/rofl/common/interval_indices.h, grid.h).

    [Indices] (std::array<Index, Dim>) is a list of [Z]; Dim is its length, any natural number.
    Index = int.  Simplification: sums, differences and products of coordinates are exact integers
    (signed overflow of int is studied separately by the checked versions at the end of this file);
    conversions to size_t (mod 2^64) and back to int are explicit.  Division or modulo by zero is [UB]. *)
From Coq Require Import List ZArith Bool.
From Verif Require Import Base.
Import ListNotations.
Open Scope outcome_scope.
Open Scope Z_scope.

(** Conversion to int (implementation-defined before C++20, two's complement everywhere) and to size_t. *)
Definition to_int (x : Z) : Z := (x + 2 ^ 31) mod 2 ^ 32 - 2 ^ 31.
Definition to_size (x : Z) : Z := x mod 2 ^ 64.

(** ** Indexers *)

(** StaticRasterIndexer::getPos, 68-70 and 82-84. *)
Fixpoint static_getPos (st dims ix : list Z) : Z :=
  match st, dims, ix with
  | s :: st', d :: ds, i :: ix' => (i - s) + d * static_getPos st' ds ix'
  | _, _, _ => 0
  end.

(** StaticRasterIndexer::getIndices, 72-76 and 86-88 (signed % and /). *)
Fixpoint static_getIndices (pos : Z) (st dims : list Z) : outcome (list Z) :=
  match st, dims with
  | s :: st', d :: ds =>
    if d =? 0 then UB
    else let! t := static_getIndices (Z.quot pos d) st' ds in Ret (s + Z.rem pos d :: t)
  | _, _ => Ret []
  end.

(** RasterIndexer::getIndices, 104-112: the loop, with [res] a size_t and unsigned % and /. *)
Fixpoint raster_loop (mn dims : list Z) (res : Z) : outcome (list Z) :=
  match mn, dims with
  | m :: mn', d :: ds =>
    let du := to_size d in
    if du =? 0 then UB
    else let! t := raster_loop mn' ds (res / du) in Ret (to_int (to_size (to_size m + res mod du)) :: t)
  | _, _ => Ret []
  end.
Definition raster_getIndices (mn dims : list Z) (pos : Z) : outcome (list Z) := raster_loop mn dims (to_size pos).

(** RasterIndexer::getPos, 114-120: the loop from the last coordinate to the first. *)
Definition raster_getPos (mn dims ix : list Z) : Z :=
  fold_left (fun index mdi => index * snd (fst mdi) + snd mdi - fst (fst mdi)) (rev (combine (combine mn dims) ix)) 0.

(** BoustrophedonIndexer::getIndices, first loop 139-142. *)
Fixpoint boust_digits (dims : list Z) (res : Z) : outcome (list Z) :=
  match dims with
  | d :: ds => if d =? 0 then UB else let! t := boust_digits ds (Z.quot res d) in Ret (Z.rem res d :: t)
  | [] => Ret []
  end.
(** Second loop 143-153, from the last coordinate to the first: returns the final [odd] and the indices. *)
Fixpoint boust_flip (mn dims ds : list Z) : Z * list Z :=
  match mn, dims, ds with
  | m :: mn', d :: dims', x :: ds' =>
    let (odd, t) := boust_flip mn' dims' ds' in
    (Z.rem x 2, (if odd =? 0 then x else d - x - 1) + m :: t)
  | _, _, _ => (0, [])
  end.
Definition boust_getIndices (mn dims : list Z) (pos : Z) : outcome (list Z) :=
  let! ds := boust_digits dims pos in Ret (snd (boust_flip mn dims ds)).

(** ** IntervalIndices: the fields min_ and dimensions_, 491-492. *)
Record interval := mkI { imin : list Z; idim : list Z }.

Fixpoint map2 (f : Z -> Z -> Z) (a b : list Z) : list Z :=
  match a, b with
  | x :: a', y :: b' => f x y :: map2 f a' b'
  | _, _ => []
  end.

(** initBounds 244-247 (and the constructor 226-227), initCentered 257-262, initMinMax 272-277. *)
Definition initBounds (mn dm : list Z) : interval := mkI mn dm.
Definition initCentered (c w : list Z) : interval := mkI (map2 Z.sub c w) (map2 (fun _ y => 2 * y + 1) c w).
Definition initMinMax (mn mx : list Z) : interval := mkI mn (map2 (fun a b => b - a + 1) mn mx).
(** max 310-316, last 330-336. *)
Definition imax (a : interval) : list Z := map2 (fun m d => m + d - 1) (imin a) (idim a).
Definition ilast (a : interval) : list Z := map2 Z.add (imin a) (idim a).
(** empty 341-348. *)
Definition empty (a : interval) : bool := existsb (fun d => d <=? 0) (idim a).
(** size 353-359: size_t product. *)
Definition size (a : interval) : Z := fold_left (fun s d => to_size (s * to_size d)) (idim a) 1.
(** inside 364-371. *)
Fixpoint inside_loop (mn dm ix : list Z) : bool :=
  match mn, dm, ix with
  | m :: mn', d :: dm', i :: ix' => if (i <? m) || (m + d <=? i) then false else inside_loop mn' dm' ix'
  | _, _, _ => true
  end.
Definition inside (a : interval) (ix : list Z) : bool := inside_loop (imin a) (idim a) ix.
(** intersect 376-395. *)
Definition intersect (a b : interval) : interval :=
  if empty a then a
  else if empty b then b
  else
    let mn := map2 Z.max (imin a) (imin b) in
    let mx := map (fun x => x - 1) (map2 Z.min (ilast a) (ilast b)) in
    let i := initMinMax mn mx in
    mkI (imin i) (map (fun d => if d <? 0 then 0 else d) (idim i)).
(** stacked 405-419. *)
Definition stacked (a : interval) (d : nat) (incr : Z) : outcome interval :=
  if (d <? length (imin a))%nat then
    let! m := vread (imin a) d in
    let! e := vread (idim a) d in
    Ret (if 0 <=? incr then mkI (lset (imin a) d (m + e)) (lset (idim a) d incr)
         else mkI (lset (imin a) d (m + incr)) (lset (idim a) d (- incr)))
  else Exit.
(** translate 426-429, 435-439. *)
Definition translate (a : interval) (d : nat) (incr : Z) : outcome interval :=
  if (d <? length (imin a))%nat then
    let! m := vread (imin a) d in Ret (mkI (lset (imin a) d (m + incr)) (idim a))
  else Exit.
Definition translateV (a : interval) (t : list Z) : interval := mkI (map2 Z.add (imin a) t) (idim a).

(** ** Iterators (496-571): the constructor 511-519, operator++ 536-540, comparison 560-566.
    [getI] is the indexing policy; a position is an int. *)
Section Iter.
Variable getI : list Z -> list Z -> Z -> outcome (list Z).

Definition it_make (a : interval) (pos : Z) : outcome (list Z) :=
  if empty a then Ret (imin a) else getI (imin a) (idim a) pos.

(** for (auto it = begin; it != end; ++it) visit( *it ). *)
Fixpoint it_loop (fuel : nat) (a : interval) (pos epos : Z) (cur : list Z) : outcome (list (list Z)) :=
  match fuel with
  | O => Stuck
  | S f =>
    if pos =? epos then Ret []
    else
      let! nxt := getI (imin a) (idim a) (pos + 1) in
      let! rest := it_loop f a (pos + 1) epos nxt in
      Ret (cur :: rest)
  end.

(** The end position is size() converted to int (455-457, 471-473).  When it is negative the loop can only
    stop after ++pos_ overflowed, which is undefined. *)
Definition iterate (a : interval) : outcome (list (list Z)) :=
  let epos := to_int (size a) in
  if epos <? 0 then UB
  else
    let! c0 := it_make a 0 in
    let! _ := it_make a epos in
    it_loop (S (Z.to_nat epos)) a 0 epos c0.
End Iter.
Definition iterate_raster := iterate raster_getIndices.
Definition iterate_boustrophedon := iterate boust_getIndices.

(** ** Grid (grid.h) *)
Record grid (V : Type) := mkG { gdata : list V; gdom : interval }.
Arguments mkG {V}. Arguments gdata {V}. Arguments gdom {V}.

Section Grid.
Context {V : Type}.
Variable v0 : V.   (* Value(), what resize appends *)

(** std::vector::resize: keeps the first elements, appends Value(). *)
Definition resize (l : list V) (n : nat) : list V := firstn n l ++ repeat v0 (n - length l).

(** Default constructor 36-37. *)
Definition grid_new (dim : nat) : grid V := mkG [] (mkI (repeat 0 dim) (repeat 0 dim)).
(** Constructor 39-41 is [grid_initBounds] on a new grid; initBounds 61-64; initCenter 66-69; initMinMax 71-74. *)
Definition grid_reset (g : grid V) (a : interval) : grid V := mkG (resize (gdata g) (Z.to_nat (size a))) a.
Definition grid_initBounds g mn dm := grid_reset g (initBounds mn dm).
Definition grid_initCenter g c w := grid_reset g (initCentered c w).
Definition grid_initMinMax g mn mx := grid_reset g (initMinMax mn mx).
(** size 76-78. *)
Definition grid_size (g : grid V) : nat := length (gdata g).

Definition zidx (i : Z) : option nat := if i <? 0 then None else Some (Z.to_nat i).
(** value(const Indices&), 109-119 (and the pointer versions 97-107): unchecked subscript. *)
Definition grid_pos (g : grid V) (ix : list Z) : Z := static_getPos (imin (gdom g)) (idim (gdom g)) ix.
Definition grid_get (g : grid V) (ix : list Z) : outcome V :=
  match zidx (grid_pos g ix) with None => UB | Some k => vread (gdata g) k end.
Definition grid_set (g : grid V) (ix : list Z) (x : V) : outcome (grid V) :=
  match zidx (grid_pos g ix) with
  | None => UB
  | Some k => let! d := vwrite (gdata g) k x in Ret (mkG d (gdom g))
  end.
(** value(const Index&), 121-127: checked; throws std::out_of_range ([Exit]: the exception leaves the library). *)
Definition grid_at (g : grid V) (pos : Z) : outcome V :=
  match zidx pos with
  | None => Exit
  | Some k => match nth_error (gdata g) k with Some v => Ret v | None => Exit end
  end.
(** fill 129-131. *)
Definition grid_fill (g : grid V) (x : V) : grid V := mkG (repeat x (length (gdata g))) (gdom g).
(** getPos 133-135, getIndices 137-139 with the default RasterIndexer. *)
Definition grid_getPos (g : grid V) (ix : list Z) : Z := raster_getPos (imin (gdom g)) (idim (gdom g)) ix.
Definition grid_getIndices (g : grid V) (pos : Z) : outcome (list Z) := raster_getIndices (imin (gdom g)) (idim (gdom g)) pos.
End Grid.

(** ** The two getPos functions with every int operation checked for overflow *)
Definition chk (x : Z) : outcome Z := if (- 2 ^ 31 <=? x) && (x <? 2 ^ 31) then Ret x else UB.

(** StaticRasterIndexer::getPos 69: (indices - start) + dimensions * rest. *)
Fixpoint static_getPos_chk (st dims ix : list Z) : outcome Z :=
  match st, dims, ix with
  | s :: st', d :: ds, i :: ix' =>
    let! r := static_getPos_chk st' ds ix' in
    let! a := chk (i - s) in
    let! b := chk (d * r) in
    chk (a + b)
  | _, _, _ => Ret 0
  end.

(** RasterIndexer::getPos 117: (index * dimensions[d] + indices[d]) - minval[d]. *)
Fixpoint raster_getPos_chk_loop (l : list (Z * Z * Z)) (index : Z) : outcome Z :=
  match l with
  | [] => Ret index
  | (m, d, i) :: t =>
    let! a := chk (index * d) in
    let! b := chk (a + i) in
    let! c := chk (b - m) in
    raster_getPos_chk_loop t c
  end.
Definition raster_getPos_chk (mn dims ix : list Z) : outcome Z :=
  raster_getPos_chk_loop (rev (combine (combine mn dims) ix)) 0.
