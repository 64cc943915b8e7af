(** * HoughPlaneDetector and HoughLineDetector (geometry/src/hough_plane_detector.cpp, hough_line_detector.cpp and their headers).

    Scalars are exact reals: rounding, NaN and infinities are not modelled.  A conversion of a real to int is undefined outside the range
    of int ([cast_int]); so is one of a quotient by zero.  Counters are size_t, the integers modulo 2^64.  Coordinates are int and loop
    counters do not overflow.  Grids are those of IntervalModel, with the unchecked access of Grid::value.  Console output and the profiler timer of 210 are dropped. *)
From Coq Require Import List ZArith Bool Reals.
From Verif Require Import Base IntervalModel PeakModel.
Import ListNotations.
Open Scope Z_scope.
Open Scope outcome_scope.

Notation vec3 := (R * R * R)%type.
Definition M64 : Z := 2 ^ 64.

(** (int) x: truncation towards zero, undefined when the result is not an int. *)
Definition truncR (x : R) : Z := if Rle_dec 0 x then Int_part x else - Int_part (- x).
Definition cast_int (x : R) : outcome Z :=
  let z := truncR x in if (- 2 ^ 31 <=? z) && (z <? 2 ^ 31) then Ret z else UB.
(** a / b converted to int; a zero divisor gives an infinity or NaN, whose conversion is undefined. *)
Definition cast_quot (a b : R) : outcome Z := if Req_EM_T b 0 then UB else cast_int (a / b).
(** ceil. *)
Definition ceilR (x : R) : Z := - Int_part (- x).
Definition cast_ceil_quot (a b : R) : outcome Z := if Req_EM_T b 0 then UB else cast_int (IZR (ceilR (a / b))).

(** for (int i = 0; i < n; ++i) body. *)
Definition zrange (n : Z) : list Z := map Z.of_nat (seq 0 (Z.to_nat n)).
Fixpoint loop_over {A} (l : list Z) (f : Z -> A -> outcome A) (a : A) : outcome A :=
  match l with [] => Ret a | i :: r => let! a1 := f i a in loop_over r f a1 end.
Definition for_loop {A} (n : Z) (f : Z -> A -> outcome A) (a : A) : outcome A := loop_over (zrange n) f a.

(** ** HoughPlaneDetector *)

(** Members, hough_plane_detector.h 314-328. *)
Record plane := mkP {
  ht : grid Z; hs : grid Z; lut : grid vec3;
  tnum : Z; pnum : Z; rnum : Z;
  tmin : R; pmin : R; rmin : R;
  tres : R; pres : R; rres : R;
  twin : Z; pwin : Z; rwin : Z }.

(** Eigen leaves a default Vector3 uninitialised: the content of a look-up entry before init writes it is arbitrary; here zeros, never
    observed because init writes every entry. *)
Definition v30 : vec3 := (0, 0, 0)%R.

(** Default constructor 22-35. *)
Definition plane_new : plane :=
  mkP (grid_new 3) (grid_new 2) (grid_new 2) 0 0 0 0 0 0 0 0 0 1 1 1.

(** Loop 78-86. *)
Definition fill_lut (d : plane) : outcome (grid vec3) :=
  for_loop (tnum d) (fun it g =>
    let theta := (tres d * IZR it + tmin d)%R in
    for_loop (pnum d) (fun ip g =>
      let phi := (pres d * IZR ip + pmin d)%R in
      grid_set g [it; ip] (cos theta * cos phi, cos theta * sin phi, sin theta)%R) g) (lut d).

(** init(const Indices3&, const Vector3&, const Vector3&), 59-87. *)
Definition plane_init (d : plane) (nt np nr : Z) (mn res : vec3) : outcome plane :=
  let '(mt, mp, mr) := mn in
  let '(st, sp, sr) := res in
  let d1 := mkP (grid_fill (grid_initBounds 0 (ht d) [0; 0; 0] [nt; np; nr]) 0)
                (grid_fill (grid_initBounds 0 (hs d) [0; 0] [nt; np]) 0)
                (grid_initBounds v30 (lut d) [0; 0] [nt; np])
                nt np nr mt mp mr st sp sr (twin d) (pwin d) (rwin d) in
  let! l := fill_lut d1 in
  Ret (mkP (ht d1) (hs d1) l nt np nr mt mp mr st sp sr (twin d) (pwin d) (rwin d)).

(** init(int, int, int, Scalar), 48-57; -(rhoNum / 2) is int arithmetic. *)
Definition plane_init_default (d : plane) (nt np nr : Z) (sr : R) : outcome plane :=
  plane_init d nt np nr (0, 0, IZR (- (nr ÷ 2)) * sr)%R (5 / 10 * PI / IZR nt, 2 * PI / IZR np, sr)%R.

(** setPeakWindow(int, int, int), 186-190. *)
Definition plane_setWindow (d : plane) (wt wp wr : Z) : plane :=
  mkP (ht d) (hs d) (lut d) (tnum d) (pnum d) (rnum d) (tmin d) (pmin d) (rmin d) (tres d) (pres d) (rres d) wt wp wr.
(** setPeakWindow(Scalar, Scalar, Scalar), 192-196. *)
Definition plane_setWindowR (d : plane) (wt wp wr : R) : outcome plane :=
  let! a := cast_ceil_quot wt (tres d) in
  let! b := cast_ceil_quot wp (pres d) in
  let! c := cast_ceil_quot wr (rres d) in
  Ret (plane_setWindow d a b c).

(** Constructor 37-43. *)
Definition plane_make (nt np nr : Z) (sr : R) : outcome plane :=
  let! d := plane_init_default plane_new nt np nr sr in Ret (plane_setWindow d 1 1 1).

Definition set_counters (d : plane) (a b : grid Z) : plane :=
  mkP a b (lut d) (tnum d) (pnum d) (rnum d) (tmin d) (pmin d) (rmin d) (tres d) (pres d) (rres d) (twin d) (pwin d) (rwin d).

(** setZero 181-184. *)
Definition plane_setZero (d : plane) : plane := set_counters d (grid_fill (ht d) 0) (grid_fill (hs d) 0).

Definition inr (x n : Z) : bool := (0 <=? x) && (x <? n).

(** getHoughTransform 125-137: ROFL_ASSERT exits. *)
Definition getHT (d : plane) (it ip ir : Z) : outcome Z :=
  if inr it (tnum d) && inr ip (pnum d) && inr ir (rnum d) then grid_get (ht d) [it; ip; ir] else Exit.
(** getHoughSpectrum 139-149. *)
Definition getHS (d : plane) (it ip : Z) : outcome Z :=
  if inr it (tnum d) && inr ip (pnum d) then grid_get (hs d) [it; ip] else Exit.
(** getNormal 151-159. *)
Definition getNormal (d : plane) (it ip : Z) : outcome vec3 :=
  if inr it (tnum d) && inr ip (pnum d) then grid_get (lut d) [it; ip] else Exit.
(** getPlaneParam(const Indices3&), 161-169. *)
Definition getPlaneParam_ix (d : plane) (it ip ir : Z) : outcome (vec3 * R) :=
  if inr it (tnum d) && inr ip (pnum d) && inr ir (rnum d) then
    let! n := getNormal d it ip in Ret (n, (- (rres d * IZR ir + rmin d))%R)
  else Exit.
(** getPlaneParam(int, int, int), 171-179. *)
Definition getPlaneParam_int (d : plane) (it ip ir : Z) : outcome (vec3 * R) :=
  if inr it (tnum d) && inr ip (pnum d) && inr ir (rnum d) then
    let! n := getNormal d it ip in Ret (n, (- (rres d * IZR ir))%R)
  else Exit.

Definition dot3 (a b : vec3) : R :=
  let '(ax, ay, az) := a in let '(bx, by_, bz) := b in (ax * bx + ay * by_ + az * bz)%R.

(** The loop over the points, 212-220. *)
Fixpoint vote_points (d : plane) (it ip : Z) (n : vec3) (pts : list vec3) (g : grid Z) : outcome (grid Z) :=
  match pts with
  | [] => Ret g
  | p :: r =>
    let! ir := cast_quot (dot3 n p - rmin d) (rres d) in
    let! g1 := (if inr ir (rnum d)
                then let! v := grid_get g [it; ip; ir] in grid_set g [it; ip; ir] ((v + 1) mod M64)
                else Ret g) in
    vote_points d it ip n r g1
  end.

(** The loops 204-222; [%] by phiNotify is undefined when it is zero. *)
Definition vote_all (d : plane) (pts : list vec3) : outcome (grid Z) :=
  let notify := pnum d ÷ 8 in
  for_loop (tnum d) (fun it g =>
    for_loop (pnum d) (fun ip g =>
      if notify =? 0 then UB else
      let! n := grid_get (lut d) [it; ip] in
      vote_points d it ip n pts g) g) (ht d).

(** The loops 225-235. *)
Definition spectrum_cell (d : plane) (g : grid Z) (it ip : Z) : outcome Z :=
  for_loop (rnum d) (fun ir acc => let! v := grid_get g [it; ip; ir] in Ret ((acc + v * v) mod M64)) 0.
Definition spectrum (d : plane) (g : grid Z) : outcome (grid Z) :=
  for_loop (tnum d) (fun it h =>
    for_loop (pnum d) (fun ip h =>
      let! s := spectrum_cell d g it ip in grid_set h [it; ip] s) h) (hs d).

(** insert(const VectorVector3&), 198-236. *)
Definition plane_insert (d : plane) (pts : list vec3) : outcome plane :=
  let! g := vote_all d pts in
  let! h := spectrum d g in
  Ret (set_counters d g h).

(** insert(Iterator, Iterator, const Converter&), hough_plane_detector.h 352-373; the integer divisions 357-359 are by constants. *)
Definition plane_insert_range {A} (d : plane) (conv : A -> vec3) (l : list A) : outcome plane :=
  plane_insert (plane_setZero d) (map conv l).

(** The maps given to the peak finder.  PeakFinderD evaluates them on cells of its domain only; elsewhere the value is immaterial. *)
Definition gval (g : grid Z) (ix : list Z) : Z := match grid_get g ix with Ret v => v | _ => 0 end.

(** findSpectrumMax 238-249: appends. *)
Definition findSpectrumMax (d : plane) (out : list (list Z)) : outcome (list (list Z)) :=
  let! m := detect Z.gtb (gval (hs d)) (mkI [0; 0] [tnum d; pnum d]) [twin d; pwin d] None in
  Ret (out ++ m).

Fixpoint mapM {A B} (f : A -> outcome B) (l : list A) : outcome (list B) :=
  match l with [] => Ret [] | x :: r => let! y := f x in let! ys := mapM f r in Ret (y :: ys) end.

(** findNormalMax 251-259. *)
Definition findNormalMax (d : plane) : outcome (list vec3) :=
  let! m := findSpectrumMax d [] in mapM (grid_get (lut d)) m.

(** The search along rho shared by 261-281 and 306-322: every cell of the row is read (undefined outside the storage). *)
Definition rho_maxima (d : plane) (it ip : Z) : outcome (list (list Z)) :=
  let! _ := mapM (fun ir => grid_get (ht d) [it; ip; ir]) (zrange (rnum d)) in
  let! m := detect Z.gtb (fun ix => gval (ht d) (it :: ip :: ix)) (mkI [0] [rnum d]) [rwin d] None in
  Ret (map (fun r => it :: ip :: r) m).

(** findParallelPlanes(int, int, std::vector<Indices3>&), 261-281: the result replaces the content of the argument. *)
Definition findParallelPlanes (d : plane) (it ip : Z) : outcome (list (list Z)) := rho_maxima d it ip.
Definition param_at (d : plane) (ix : list Z) : outcome (vec3 * R) :=
  match ix with [a; b; c] => getPlaneParam_ix d a b c | _ => UB end.
(** findParallelPlanes(int, int, VectorPlaneParam&), 283-291. *)
Definition findParallelParams (d : plane) (it ip : Z) : outcome (list (vec3 * R)) :=
  let! m := findParallelPlanes d it ip in mapM (param_at d) m.

Fixpoint rows (d : plane) (l : list (list Z)) : outcome (list (list Z)) :=
  match l with
  | [] => Ret []
  | [a; b] :: r => let! m := rho_maxima d a b in let! ms := rows d r in Ret (m ++ ms)
  | _ => UB
  end.

(** findPlanes(std::vector<Indices3>&), 293-325.  [sort] is std::sort with htCmp, which reads the votes of every hypothesis, also of those
    the vector held before the call. *)
Definition findPlanes (sort : list (list Z) -> list (list Z)) (d : plane) (hyp : list (list Z)) : outcome (list (list Z)) :=
  let! m := findSpectrumMax d [] in
  let! l := rows d m in
  let all := hyp ++ l in
  let! _ := mapM (grid_get (ht d)) all in
  Ret (sort all).
(** findPlanes(VectorPlaneParam&), 327-336: replaces the content. *)
Definition findPlaneParams (sort : list (list Z) -> list (list Z)) (d : plane) : outcome (list (vec3 * R)) :=
  let! l := findPlanes sort d [] in mapM (param_at d) l.

(** ** HoughLineDetector (members hough_line_detector.h 222-232) *)
Notation vec2 := (R * R)%type.
Record line := mkL {
  lht : grid Z; lhs : list Z; llut : list vec2;
  ltnum : Z; lrnum : Z; ltmin : R; lrmin : R; ltres : R; lrres : R; ltwin : Z; lrwin : Z }.

(** Default constructor 22-31. *)
Definition line_new : line := mkL (grid_new 2) [] [] 0 0 0 0 0 0 1 1.

(** init(const Indices2&, const Vector2&, const Vector2&), 52-71; std::fill rewrites the whole resized vector, the loop 67-70 the whole
    look-up table. *)
Definition line_init (d : line) (nt nr : Z) (mn res : vec2) : line :=
  let '(mt, mr) := mn in
  let '(st, sr) := res in
  mkL (grid_fill (grid_initBounds 0 (lht d) [0; 0] [nt; nr]) 0)
      (repeat 0 (Z.to_nat nt))
      (map (fun it => let theta := (st * IZR it + mt)%R in (cos theta, sin theta)) (zrange nt))
      nt nr mt mr st sr (ltwin d) (lrwin d).
(** init(int, int, Scalar), 43-50. *)
Definition line_init_default (d : line) (nt nr : Z) (sr : R) : line :=
  line_init d nt nr (0, 0)%R (PI / IZR nt, sr)%R.
(** setPeakWindow(int, int), 120-123. *)
Definition line_setWindow (d : line) (wt wr : Z) : line :=
  mkL (lht d) (lhs d) (llut d) (ltnum d) (lrnum d) (ltmin d) (lrmin d) (ltres d) (lrres d) wt wr.
(** Constructor 33-38. *)
Definition line_make (nt nr : Z) (sr : R) : line := line_setWindow (line_init_default line_new nt nr sr) 1 1.
(** setZero 115-118. *)
Definition line_setZero (d : line) : line :=
  mkL (grid_fill (lht d) 0) (map (fun _ => 0) (lhs d)) (llut d) (ltnum d) (lrnum d) (ltmin d) (lrmin d) (ltres d) (lrres d) (ltwin d) (lrwin d).
(** getHoughTransform 97-108, getHoughSpectrum 110-113. *)
Definition line_getHT (d : line) (it ir : Z) : outcome Z :=
  if inr it (ltnum d) && inr ir (lrnum d) then grid_get (lht d) [it; ir] else Exit.
Definition line_getHS (d : line) (it : Z) : outcome Z :=
  if inr it (ltnum d) then vread (lhs d) (Z.to_nat it) else Exit.

(** insert(const VectorVector2&), 130-132: the body is empty. *)
Definition line_insert (d : line) (pts : list vec2) : line := d.

Definition lhs_val (d : line) (ix : list Z) : Z := match ix with [i] => nth (Z.to_nat i) (lhs d) 0 | _ => 0 end.
(** findSpectrumIndicesMax 134-143. *)
Definition line_spectrumMax (d : line) (out : list (list Z)) : outcome (list (list Z)) :=
  let! m := detect Z.gtb (lhs_val d) (mkI [0] [ltnum d]) [ltwin d] None in Ret (out ++ m).
Fixpoint line_rows (d : line) (l : list (list Z)) : outcome (list (list Z)) :=
  match l with
  | [] => Ret []
  | [a] :: r =>
    let! m := detect Z.gtb (fun ix => gval (lht d) (a :: ix)) (mkI [0] [lrnum d]) [lrwin d] None in
    let! ms := line_rows d r in Ret (map (fun i => a :: i) m ++ ms)
  | _ => UB
  end.
(** findLines(std::vector<Indices2>&), 170-192: appends. *)
Definition findLines (d : line) (out : list (list Z)) : outcome (list (list Z)) :=
  let! m := line_spectrumMax d [] in let! l := line_rows d m in Ret (out ++ l).
