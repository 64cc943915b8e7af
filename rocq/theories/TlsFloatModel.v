(** * estimateTranslationTls (common/include/rofl/common/tls_scalar_consensus.h 43-134) in IEEE arithmetic.

    The function once more, over any arithmetic, and the two arithmetics of IEEE 754 it is used with: float and double, with infinities,
    NaN, signed zeros, overflow and rounding to nearest, as in Coq.Floats.SpecFloat.  Operations are not contracted (no fused multiply-add).
    std::sort 61-64 is not stable: the result of sorting is a parameter [sort]; with a NaN among its keys the comparison is no ordering and
    sorting is undefined.  What ROFL_VAR2 127 prints is not modelled, but it dereferences itMin. *)
From Coq Require Import List ZArith Bool.
From Coq Require Import Floats.SpecFloat.
From Verif Require Import Base IntervalModel.
Import ListNotations.
Open Scope outcome_scope.

(** The operations on Scalar; [of_int] converts an int, [weight] is the weight of a range, lines 67-74. *)
Record arith := mkArith {
  num :> Type; of_int : Z -> num; add : num -> num -> num; sub : num -> num -> num; mul : num -> num -> num; div : num -> num -> num;
  absv : num -> num; ltb : num -> num -> bool; isnan : num -> bool; weight : num -> num }.

(** ** The arithmetic of double *)
Definition ieee := spec_float.
Definition nan_bit (x : ieee) : bool := match x with S754_nan => true | _ => false end.
Definition d_int (z : Z) : ieee := binary_normalize 53 1024 z 0 false.
(** The literals 1e-6 (correctly rounded, as a quotient of integers) and 1e+12. *)
Definition d_micro : ieee := SFdiv 53 1024 (d_int 1) (d_int 1000000).
Definition d_tera : ieee := d_int 1000000000000.
Definition double : arith :=
  mkArith ieee d_int (SFadd 53 1024) (SFsub 53 1024) (SFmul 53 1024) (SFdiv 53 1024) SFabs SFltb nan_bit
    (fun r => if SFltb (SFabs r) d_micro then d_tera else SFdiv 53 1024 (d_int 1) (SFmul 53 1024 r r)).

(** ** The arithmetic of float *)
Definition convert (prec emax : Z) (x : ieee) : ieee := match x with S754_finite s m e => binary_round prec emax s m e | _ => x end.
Definition s_int (z : Z) : ieee := binary_normalize 24 128 z 0 false.
(** The comparison 69 and the division 72 are made in double, the results of 70 and 72 are stored in a float. *)
Definition single : arith :=
  mkArith ieee s_int (SFadd 24 128) (SFsub 24 128) (SFmul 24 128) (SFdiv 24 128) SFabs SFltb nan_bit
    (fun r => if SFltb (convert 53 1024 (SFabs r)) d_micro then convert 24 128 d_tera
              else convert 24 128 (SFdiv 53 1024 (d_int 1) (convert 53 1024 (SFmul 24 128 r r)))).

(** ** The function *)
Section Tls.
Context (A : arith).

(** Loop 57-60 from index [i]: -i - 1 is computed in size_t and converted to int. *)
Fixpoint endpoints (i : Z) (values ranges : list A) : list (A * Z) :=
  match values, ranges with
  | v :: vs, r :: rs => (sub A v r, to_int (i + 1)) :: (add A v r, to_int (to_size (- i - 1))) :: endpoints (i + 1) vs rs
  | _, _ => []
  end.

Record sums := mkSums { cw : A; card : Z; sumXi : A; sumXiSquare : A; vw : A; ris : A }.
(** 76-85. *)
Definition sums0 (ranges : list A) : sums :=
  mkSums (of_int A 0) 0 (of_int A 0) (of_int A 0) (of_int A 0) (fold_left (add A) ranges (of_int A 0)).

(** Element [i] of a vector, [i] an int. *)
Definition zread {B} (l : list B) (i : Z) : outcome B := if (i <? 0)%Z then UB else vread l (Z.to_nat i).

(** 94-102. *)
Definition step (values ranges : list A) (s : sums) (e : Z) : outcome sums :=
  let i := (Z.abs e - 1)%Z in
  let incr : Z := if (0 <? e)%Z then 1%Z else (-1)%Z in
  let! v := zread values i in
  let! r := zread ranges i in
  let k := of_int A incr in
  let w := weight A r in
  Ret (mkSums (add A (cw s) (mul A k w)) (card s + incr) (add A (sumXi s) (mul A k v)) (add A (sumXiSquare s) (mul A (mul A k v) v))
         (add A (vw s) (mul A (mul A k w) v)) (sub A (ris s) (mul A k r))).

(** 106-109: valueHat[j] and valueCost[j]. *)
Definition candidate (s : sums) : A * A :=
  let h := div A (vw s) (cw s) in
  let residual := sub A (add A (mul A (mul A (of_int A (card s)) h) h) (sumXiSquare s)) (mul A (mul A (of_int A 2) (sumXi s)) h) in
  (h, add A residual (ris s)).

(** Loop 93-124. *)
Fixpoint sweep (values ranges : list A) (s : sums) (es : list (A * Z)) : outcome (list (A * A)) :=
  match es with
  | [] => Ret []
  | (_, e) :: rest =>
    let! s1 := step values ranges s e in
    let! r := sweep values ranges s1 rest in
    Ret (candidate s1 :: r)
  end.

(** std::min_element 126. *)
Fixpoint min_loop (bi : nat) (b : A) (i : nat) (l : list A) : nat :=
  match l with
  | [] => bi
  | x :: r => if ltb A x b then min_loop i x (S i) r else min_loop bi b (S i) r
  end.
Definition min_element (l : list A) : nat := match l with [] => 0%nat | x :: r => min_loop 0 x 1 r end.

(** 130-132. *)
Fixpoint inlier_flags (est : A) (values ranges : list A) : list bool :=
  match values, ranges with
  | v :: vs, r :: rs => ltb A (absv A (sub A v est)) r :: inlier_flags est vs rs
  | _, _ => []
  end.

(** The whole function; returns valueMax and inliers. *)
Definition estimate (sort : list (A * Z) -> list (A * Z)) (values ranges : list A) : outcome (A * list bool) :=
  if (length values =? length ranges)%nat then
    let es := endpoints 0 values ranges in
    if existsb (fun e => isnan A (fst e)) es then UB else
    let! t := sweep values ranges (sums0 ranges) (sort es) in
    match t with
    | [] => UB (* *itMin at 127 dereferences end() *)
    | _ =>
      let! x := vread t (min_element (map snd t)) in
      Ret (fst x, inlier_flags (fst x) values ranges)
    end
  else Exit.
End Tls.
