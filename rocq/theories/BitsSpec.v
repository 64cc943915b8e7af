(** * Powers of two and binary expansions. *)
From Coq Require Import ZArith List.
From Verif Require Import BitsModel.
Open Scope Z_scope.

(** [r] is the number of leading zero bits of the [w]-bit word [x]. *)
Definition leading_zeros (w x r : Z) : Prop :=
  0 <= r <= w /\ (forall i, w - r <= i -> Z.testbit x i = false) /\ (r < w -> Z.testbit x (w - r - 1) = true).

Definition pow2 (x : Z) : Prop := exists k, 0 <= k /\ x = 2 ^ k.
(** Zero and plus/minus a power of two. *)
Definition spow2 (x : Z) : Prop := x = 0 \/ pow2 x \/ pow2 (- x).
Definition greatest_below (S : Z -> Prop) (x r : Z) : Prop := S r /\ r <= x /\ forall y, S y -> y <= x -> y <= r.
Definition least_above (S : Z -> Prop) (x r : Z) : Prop := S r /\ x <= r /\ forall y, S y -> x <= y -> r <= y.

(** [f] rounds [w]-bit words down / up to a power of two; up gives 0 when the power does not fit. *)
Definition flp_ok (w : Z) (f : Z -> Z) : Prop := f 0 = 0 /\ forall x, 0 < x < 2 ^ w -> greatest_below pow2 x (f x).
Definition clp_ok (w : Z) (f : Z -> Z) : Prop := forall x, 0 <= x < 2 ^ w ->
  (0 < x -> (exists r, least_above pow2 x r /\ r < 2 ^ w) -> least_above pow2 x (f x)) /\
  (x = 0 \/ (forall r, least_above pow2 x r -> 2 ^ w <= r) -> f x = 0).

(** [l] = floor (log2 |i|). *)
Definition is_log2 (i l : Z) : Prop := 0 <= l /\ 2 ^ l <= Z.abs i < 2 ^ (l + 1).

(** Values of an integer type. *)
Definition tmin (t : ity) : Z := match t with I8 => - 2 ^ 7 | I16 => - 2 ^ 15 | I32 => - 2 ^ 31 | I64 => - 2 ^ 63 | _ => 0 end.
Definition tmax (t : ity) : Z :=
  match t with
  | I8 => 2 ^ 7 - 1 | I16 => 2 ^ 15 - 1 | I32 => 2 ^ 31 - 1 | I64 => 2 ^ 63 - 1
  | U8 => 2 ^ 8 - 1 | U16 => 2 ^ 16 - 1 | U32 => 2 ^ 32 - 1 | U64 => 2 ^ 64 - 1
  end.
Definition in_type (t : ity) (i : Z) : Prop := tmin t <= i <= tmax t.
(** Negating the minimum of int and long is undefined. *)
Definition neg_ok (t : ity) (i : Z) : Prop := match t with I32 | I64 => i <> tmin t | _ => True end.
