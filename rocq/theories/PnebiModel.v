(** * common/src/functions.cpp 138-346: the PNEBI functions and their table.

    double is modelled by the real numbers: rounding, overflow, underflow, NaN and infinities are not modelled.
    An order is a non-negative int; the vectors have less than 2^31 elements.  printLUT 328-342 is not modelled. *)
From Coq Require Import List Reals ZArith Arith.
From Verif Require Import Base FunctionsModel.
Import ListNotations.
Open Scope R_scope.
Open Scope outcome_scope.

(** functions.h 30-31. *)
Definition BIG_NUM : R := 10000000000.
Definition SMALL_NUM : R := / 10000000000.
(** std::numeric_limits<double>::min(), used on line 255. *)
Definition DBL_MIN : R := / IZR (2 ^ 1022).

(** evaluatePnebi0Polynom 142-161. *)
Definition evaluatePnebi0Polynom (x : R) : R :=
  let x := if Rlt_dec x 0 then - x else x in
  let t := x / (375 / 100) in
  if Rlt_dec t 1 then
    let t2 := t * t in
    let val := 1 + t2 * (35156229 / 10000000 + t2 * (30899424 / 10000000 + t2 * (12067492 / 10000000 + t2 * (2659732 / 10000000 + t2 * (360768 / 10000000 + t2 * (45813 / 10000000)))))) in
    2 * exp (- x) * val
  else
    let tinv := 1 / t in
    let val := 39894228 / 100000000 + tinv * (1328592 / 100000000 + tinv * (225319 / 100000000 + tinv * (-157565 / 100000000 + tinv *
      (916281 / 100000000 + tinv * (-2057706 / 100000000 + tinv * (2635537 / 100000000 + tinv * (-1647633 / 100000000 + tinv * (392377 / 100000000)))))))) in
    2 * val / sqrt x.

(** evaluatePnebiVector 163-206: the loop 183-200 from k down to 0. *)
Fixpoint pnebi_loop (k n : nat) (factor seqPrev seqCurr : R) (pnebis : list R) : outcome (list R) :=
  let seqNext := seqPrev + factor * INR k * seqCurr in
  let seqPrev := seqCurr in
  let seqCurr := seqNext in
  let! pnebis := if (k <=? n)%nat then vwrite pnebis k seqPrev else Ret pnebis in
  let '(seqPrev, seqCurr, pnebis) :=
    if Rlt_dec BIG_NUM seqCurr then (seqPrev * SMALL_NUM, seqCurr * SMALL_NUM, map (fun y => y * SMALL_NUM) pnebis)
    else (seqPrev, seqCurr, pnebis) in
  match k with
  | O => Ret pnebis
  | S k' => pnebi_loop k' n factor seqPrev seqCurr pnebis
  end.

(** The first k of line 183; its overflow is undefined.  (int) sqrt(40.0 * n) is the integer square root: 40 n < 2^37 is
    exact in double precision and the rounded square root of m < (r + 1)^2 stays below r + 1. *)
Definition pnebi_start (n : nat) : nat := (2 * (n + Nat.sqrt (40 * n)))%nat.

Definition evaluatePnebiVector (n : nat) (x : R) (pnebis : list R) : outcome (list R) :=
  let pnebis := if (length pnebis <? n + 1)%nat then pnebis ++ repeat 0 (n + 1 - length pnebis) else pnebis in
  let x := if Rlt_dec x 0 then - x else x in
  if Rlt_dec x (1 / 1000000) then vwrite (map (fun _ => 0) pnebis) 0 2
  else if (2 ^ 31 <=? Z.of_nat (pnebi_start n))%Z then UB
  else
    let! pnebis := pnebi_loop (pnebi_start n) n (2 / x) 0 1 pnebis in
    let! y0 := vread pnebis 0 in
    let scaleFactor := evaluatePnebi0Polynom x / y0 in
    Ret (map (fun y => scaleFactor * y) pnebis).

(** PnebiLUT: the table lut_ and orderMax_ (functions.h 175-233).  tolerance_ is never read. *)
Notation node := (R * list R)%type.
Record lut := { nodes : list node; orderMax : nat }.
(** 212-214 *)
Definition empty_lut : lut := {| nodes := []; orderMax := 0 |}.

(** PnebiPoint(n, x), functions.h 185-187. *)
Definition pnebiPoint (n : nat) (x : R) : outcome node :=
  let! y := evaluatePnebiVector n x (repeat 0 (n + 1)) in Ret (x, y).

(** init 220-265: the loop 251-260 for [fuel] values of i. *)
Fixpoint init_loop (fuel n : nat) (tol x deriv y0prev : R) (acc : list node) : outcome (list node) :=
  match fuel with
  | O => Ret acc
  | S f =>
    let x := x - tol / deriv in
    let! (p, y) := pnebiPoint n x in
    let! y0 := vread y 0 in
    let! y1 := vread y 1 in
    let ratio := deriv * (y0prev - y0) / tol in
    let deriv := minR (maxR (y1 - y0) ratio) (- 10 * DBL_MIN) in
    init_loop f n tol x deriv y0 (acc ++ [(p, y)])
  end.
(** ceil of <cmath>. *)
Definition ceilZ (x : R) : Z := (- Int_part (- x))%Z.
(** Only tol > 0 is modelled; the other values are left undefined.  A conversion to int out of range is undefined. *)
Definition init (n : nat) (tol : R) : outcome lut :=
  if Rlt_dec 0 tol then
    let lutNum := (ceilZ (2 / tol) + 20)%Z in
    if (2 ^ 31 <=? lutNum)%Z then UB
    else
      let! (p, y) := pnebiPoint n 0 in
      let! y1 := vread y 1 in
      let! y0 := vread y 0 in
      let! l := init_loop (Z.to_nat (lutNum - 1)) n tol 0 (y1 - y0) y0 [(p, y)] in
      Ret {| nodes := l; orderMax := n |}
  else UB.

(** std::upper_bound 279, 312: the position of the first node with x < node.x (the nodes are sorted, so the binary search
    finds the first one). *)
Fixpoint upper_bound (l : list node) (x : R) : nat :=
  match l with
  | [] => O
  | (px, _) :: r => if Rlt_dec x px then O else S (upper_bound r x)
  end.

(** eval(k, x) 267-293; the message for an empty table is not modelled.  The node before the first one is undefined. *)
Definition eval (t : lut) (k : Z) (x : R) : outcome R :=
  match nodes t with
  | [] => Ret 0
  | _ =>
    let x := if Rlt_dec x 0 then - x else x in
    if (0 <=? k)%Z && (k <? Z.of_nat (orderMax t))%Z then
      match upper_bound (nodes t) x with
      | O => UB
      | S i =>
        let! (lx, ly) := vread (nodes t) i in
        let! a := vread ly (Z.to_nat k) in
        match nth_error (nodes t) (S i) with
        | None => Ret a
        | Some (ux, uy) =>
          let! b := vread uy (Z.to_nat k) in
          let w := (x - lx) / (ux - lx) in
          Ret ((1 - w) * a + w * b)
        end
      end
    else Exit
  end%bool.

(** The loop 320-322 and the copy 316: the first elements of y are replaced. *)
Fixpoint mix (w : R) (a b y : list R) : list R :=
  match a, b, y with
  | p :: a', q :: b', _ :: y' => ((1 - w) * p + w * q) :: mix w a' b' y'
  | _, _, _ => y
  end.
Fixpoint copy (a y : list R) : outcome (list R) :=
  match a, y with
  | [], _ => Ret y
  | _ :: _, [] => UB
  | p :: a', _ :: y' => let! r := copy a' y' in Ret (p :: r)
  end.
(** eval(x, y) 295-326. *)
Definition evalAll (t : lut) (x : R) (y : list R) : outcome (list R) :=
  match nodes t with
  | [] => Ret y
  | _ =>
    let x := if Rlt_dec x 0 then - x else x in
    let y := if (length y <? orderMax t + 1)%nat then y ++ repeat 0 (orderMax t + 1 - length y) else y in
    match upper_bound (nodes t) x with
    | O => UB
    | S i =>
      let! (lx, ly) := vread (nodes t) i in
      match nth_error (nodes t) (S i) with
      | None => copy ly y
      | Some (ux, uy) => Ret (mix ((x - lx) / (ux - lx)) ly uy y)
      end
    end
  end.
