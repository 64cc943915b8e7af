(** * BoxRegistration (geometry/include/rofl/geometry/box_registration.h).

    float/double are modelled by the real numbers: rounding, overflow, NaN and infinities are not modelled.  Points of dimension
    DIM are lists of DIM coordinates.  The references query and nearest of associate are assumed not to alias. *)
From Coq Require Import List Reals Bool Arith.
From Verif Require Import Base AlignerModel.
Import ListNotations.
Open Scope R_scope.
Open Scope outcome_scope.

(** associate 109-150, loop 118-143 from dimension [d] on: (nearest, inside, (dimNearest, edgeNearest, distNearest)), the last
    one [None] while dimNearest is -1. *)
Fixpoint assoc_loop (d : nat) (dims query : list R) (inside : bool) (best : option (nat * R * R)) : list R * bool * option (nat * R * R) :=
  match dims, query with
  | h :: dims', q :: query' =>
    if Rlt_dec q (- (1 / 2) * h) then
      let '(n, i, b) := assoc_loop (S d) dims' query' false best in (- (1 / 2) * h :: n, i, b)
    else if Rlt_dec (1 / 2 * h) q then
      let '(n, i, b) := assoc_loop (S d) dims' query' false best in (1 / 2 * h :: n, i, b)
    else
      let '(edge, dist) := if Rlt_dec q 0 then (- (1 / 2) * h, q - - (1 / 2) * h) else (1 / 2 * h, 1 / 2 * h - q) in
      let best := match best with
                  | None => Some (d, edge, dist)
                  | Some (k, e, dn) => if Rlt_dec dist dn then Some (d, edge, dist) else Some (k, e, dn)
                  end in
      let '(n, i, b) := assoc_loop (S d) dims' query' inside best in (q :: n, i, b)
  | _, _ => ([], inside, best)
  end.
(** 145-149: the assertion exits when no dimension was found. *)
Definition associate (dims query : list R) : outcome (list R) :=
  let '(nearest, inside, best) := assoc_loop 0 dims query true None in
  if inside then match best with Some (k, edge, _) => Ret (lset query k edge) | None => Exit end else Ret nearest.

(** setDimension 69-79.  perm_ is its array of indices; std::sort (72-74) with the comparator on the sides is [sorter], any
    function whose result is a permutation of 0..DIM-1 with non-decreasing sides; PermutationMatrix::inverse (75). *)
Definition inverse_perm (s : list nat) : list nat :=
  map (fun i => match find (fun k => Nat.eqb (nth k s 0%nat) i) (seq 0 (length s)) with Some k => k | None => 0%nat end) (seq 0 (length s)).
Definition setDimension (sorter : list R -> list nat) (dim : list R) : list R * option (list nat) := (dim, Some (inverse_perm (sorter dim))).
(** The default constructor 56-57 zeroes the sides and leaves the indices of perm_ unset ([None]). *)
Definition defaultBox (DIM : nat) : list R * option (list nat) := (repeat 0 DIM, None).

(** estimateInitTranform 206-239: the columns of the linear part for the eigenvectors (by columns) found by the solver of 231;
    an identity when the cloud has less than two points (214-217); reading unset indices is undefined. *)
Definition initLinear (box : list R * option (list nat)) (n : nat) (eigenvectors identity : list (list R)) : outcome (list (list R)) :=
  if Nat.ltb n 2 then Ret identity
  else match snd box with
       | None => UB
       | Some perm => Ret (map (fun k => nth k eigenvectors []) perm)
       end.

(** computeTransform 153-204.  The library has the instances DIM = 2 and DIM = 3 (242-245): they are modelled below.  JacobiSVD
    (185) is a parameter [svd], giving U, the singular values and V; [None] stands for a transform whose translation is not a
    number (an empty cloud divides 0 by 0, 177-178).  The result of associate has DIM coordinates. *)
Notation vec2 := (R * R)%type.
Notation mat2 := ((R * R) * (R * R))%type.
Notation tr2 := (((R * R) * (R * R)) * (R * R))%type.
Definition dot2 (a b : vec2) : R := fst a * fst b + snd a * snd b.
Definition add2 (a b : vec2) : vec2 := (fst a + fst b, snd a + snd b).
Definition sub2 (a b : vec2) : vec2 := (fst a - fst b, snd a - snd b).
Definition scale2 (k : R) (a : vec2) : vec2 := (k * fst a, k * snd a).
Definition mulv2 (m : mat2) (v : vec2) : vec2 := (dot2 (fst m) v, dot2 (snd m) v).
Definition transpose2 (m : mat2) : mat2 := ((fst (fst m), fst (snd m)), (snd (fst m), snd (snd m))).
Definition mulm2 (m n : mat2) : mat2 :=
  let t := transpose2 n in ((dot2 (fst m) (fst t), dot2 (fst m) (snd t)), (dot2 (snd m) (fst t), dot2 (snd m) (snd t))).
Definition det2 (m : mat2) : R := fst (fst m) * snd (snd m) - snd (fst m) * fst (snd m).
Definition addm2 (m n : mat2) : mat2 := (add2 (fst m) (fst n), add2 (snd m) (snd n)).
Definition outer2 (a b : vec2) : mat2 := (scale2 (fst a) b, scale2 (snd a) b).
Definition apply2 (t : tr2) (p : vec2) : vec2 := add2 (mulv2 (fst t) p) (snd t).
(** Eigen's inverse of a 2x2 matrix and of an affine transform (155). *)
Definition inverse2 (m : mat2) : mat2 :=
  let k := / det2 m in ((k * snd (snd m), k * - snd (fst m)), (k * - fst (snd m), k * fst (fst m))).
Definition inverse_tr2 (t : tr2) : tr2 := let m := inverse2 (fst t) in (m, scale2 (- (1)) (mulv2 m (snd t))).
Fixpoint sum2 (l : list vec2) (acc : vec2) : vec2 := match l with [] => acc | p :: t => sum2 t (add2 acc p) end.
Definition mean2 (l : list vec2) : vec2 := scale2 (/ INR (length l)) (sum2 l (0, 0)).
Fixpoint cross_cov2 (l : list (vec2 * vec2)) (ms md : vec2) (acc : mat2) : mat2 :=
  match l with [] => acc | (s, d) :: t => cross_cov2 t ms md (addm2 acc (outer2 (sub2 s ms) (sub2 d md))) end.
(** 171-203: from the pairs (model point, cloud point). *)
Definition procrustes2 (svd : mat2 -> mat2 * vec2 * mat2) (l : list (vec2 * vec2)) : tr2 :=
  let meanSrc := mean2 (map fst l) in
  let meanDst := mean2 (map snd l) in
  let '(U, _, V) := svd (cross_cov2 l meanSrc meanDst ((0, 0), (0, 0))) in
  let d := if Rlt_dec 0 (det2 (mulm2 V (transpose2 U))) then 1 else - (1) in
  let Rot := mulm2 (mulm2 V ((1, 0), (0, d))) (transpose2 U) in
  (Rot, sub2 meanDst (mulv2 Rot meanSrc)).
Definition pack2 (p : list R) : vec2 := match p with [x; y] => (x, y) | _ => (0, 0) end.
Fixpoint associate_all2 (dims : vec2) (inv : tr2) (cloud : list vec2) : outcome (list (vec2 * vec2)) :=
  match cloud with
  | [] => Ret []
  | c :: t => let q := apply2 inv c in
              let! p := associate [fst dims; snd dims] [fst q; snd q] in let! l := associate_all2 dims inv t in Ret ((pack2 p, c) :: l)
  end.
Definition computeTransform2 (svd : mat2 -> mat2 * vec2 * mat2) (dims : vec2) (cloud : list vec2) (transf : tr2) : outcome (option tr2) :=
  let! l := associate_all2 dims (inverse_tr2 transf) cloud in
  Ret (match cloud with [] => None | _ => Some (procrustes2 svd l) end).

(** The same for DIM = 3, with the operations on 3-vectors of AlignerModel.v; I(1,1) = d (193) is the middle entry. *)
Definition inverse_tr3 (t : transform3) : transform3 := let m := inverse (fst t) in (m, neg (mulv m (snd t))).
Definition addm3 (m n : mat3) : mat3 := let '(a, b, c) := m in let '(d, e, f) := n in (add a d, add b e, add c f).
Definition outer3 (a b : vec3) : mat3 := (scale (X a) b, scale (Y a) b, scale (Z a) b).
Fixpoint sum3 (l : list vec3) (acc : vec3) : vec3 := match l with [] => acc | p :: t => sum3 t (add acc p) end.
Definition mean3 (l : list vec3) : vec3 := scale (/ INR (length l)) (sum3 l (0, 0, 0)).
Fixpoint cross_cov3 (l : list (vec3 * vec3)) (ms md : vec3) (acc : mat3) : mat3 :=
  match l with [] => acc | (s, d) :: t => cross_cov3 t ms md (addm3 acc (outer3 (sub s ms) (sub d md))) end.
Definition diag3 (a b c : R) : mat3 := ((a, 0, 0), (0, b, 0), (0, 0, c)).
Definition procrustes3 (svd : mat3 -> mat3 * vec3 * mat3) (l : list (vec3 * vec3)) : transform3 :=
  let meanSrc := mean3 (map fst l) in
  let meanDst := mean3 (map snd l) in
  let '(U, _, V) := svd (cross_cov3 l meanSrc meanDst (diag3 0 0 0)) in
  let d := if Rlt_dec 0 (det3 (mulm V (transpose U))) then 1 else - (1) in
  let Rot := mulm (mulm V (diag3 1 d 1)) (transpose U) in
  (Rot, sub meanDst (mulv Rot meanSrc)).
Definition pack3 (p : list R) : vec3 := match p with [x; y; z] => (x, y, z) | _ => (0, 0, 0) end.
Fixpoint associate_all3 (dims : vec3) (inv : transform3) (cloud : list vec3) : outcome (list (vec3 * vec3)) :=
  match cloud with
  | [] => Ret []
  | c :: t => let q := apply3 inv c in
              let! p := associate [X dims; Y dims; Z dims] [X q; Y q; Z q] in let! l := associate_all3 dims inv t in Ret ((pack3 p, c) :: l)
  end.
Definition computeTransform3 (svd : mat3 -> mat3 * vec3 * mat3) (dims : vec3) (cloud : list vec3) (transf : transform3) : outcome (option transform3) :=
  let! l := associate_all3 dims (inverse_tr3 transf) cloud in
  Ret (match cloud with [] => None | _ => Some (procrustes3 svd l) end).
