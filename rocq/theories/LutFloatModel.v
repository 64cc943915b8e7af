(** * PnebiLUT::eval in double arithmetic (common/src/functions.cpp 267-326).

    The operations of DoubleModel.v; the table and its search are those of PnebiModel.v, since the comparisons of the search are exact.
    Overflow, infinities and NaN are not modelled (none occurs for values of magnitude up to 2^1000); the message for an empty table is
    dropped. *)
From Coq Require Import List Reals ZArith Arith.
From Verif Require Import Base PnebiModel DoubleModel.
Import ListNotations.
Open Scope R_scope.
Open Scope outcome_scope.

(** w of 287 and 319, the interpolation of 288 and 321. *)
Definition weightf (lx ux x : R) : R := fdiv (fsub x lx) (fsub ux lx).
Definition interpf (w a b : R) : R := fadd (fmul (fsub 1 w) a) (fmul w b).

(** eval(k, x) 267-293. *)
Definition evalf (t : lut) (k : Z) (x : R) : outcome R :=
  match nodes t with
  | [] => Ret 0
  | _ =>
    let x := if Rlt_dec x 0 then - x else x in
    if (0 <=? k)%Z && (k <? Z.of_nat (orderMax t))%Z then
      match upper_bound (nodes t) x with
      | O => UB
      | S i =>
        let! (lx, ly) := vread (nodes t) i in
        let! a := vread ly (Z.to_nat k) in
        match nth_error (nodes t) (S i) with
        | None => Ret a
        | Some (ux, uy) =>
          let! b := vread uy (Z.to_nat k) in
          Ret (interpf (weightf lx ux x) a b)
        end
      end
    else Exit
  end%bool.

(** The loop 320-322. *)
Fixpoint mixf (w : R) (a b y : list R) : list R :=
  match a, b, y with
  | p :: a', q :: b', _ :: y' => interpf w p q :: mixf w a' b' y'
  | _, _, _ => y
  end.
(** eval(x, y) 295-326. *)
Definition evalAllf (t : lut) (x : R) (y : list R) : outcome (list R) :=
  match nodes t with
  | [] => Ret y
  | _ =>
    let x := if Rlt_dec x 0 then - x else x in
    let y := if (length y <? orderMax t + 1)%nat then y ++ repeat 0 (orderMax t + 1 - length y) else y in
    match upper_bound (nodes t) x with
    | O => UB
    | S i =>
      let! (lx, ly) := vread (nodes t) i in
      match nth_error (nodes t) (S i) with
      | None => copy ly y
      | Some (ux, uy) => Ret (mixf (weightf lx ux x) ly uy y)
      end
    end
  end.
