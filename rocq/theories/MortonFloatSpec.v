(** * Fixed-point expansions of floating point bit patterns. *)
From Coq Require Import List ZArith Bool.
From Verif Require Import BitsModel MortonSpec.
Import ListNotations.
Open Scope Z_scope.

(** Fields of an IEEE single. *)
Definition s_man (x : Z) : Z := x mod 2 ^ 23.
Definition s_exp (x : Z) : Z := (x / 2 ^ 23) mod 2 ^ 8.
Definition s_neg (x : Z) : bool := 2 ^ 31 <=? x.
Definition single (x : Z) : Prop := 0 <= x < 2 ^ 32.
Definition s_finite (x : Z) : Prop := single x /\ s_exp x < 255.
Definition s_normal (x : Z) : Prop := single x /\ 1 <= s_exp x < 255.
(** |x| * 2^149. *)
Definition s_mag (x : Z) : Z := if s_exp x =? 0 then s_man x else (2 ^ 23 + s_man x) * 2 ^ (s_exp x - 1).
(** x * 2^149. *)
Definition s_val (x : Z) : Z := if s_neg x then - s_mag x else s_mag x.

(** Fields of an IEEE double. *)
Definition d_neg (x : Z) : bool := 2 ^ 63 <=? x.
Definition double (x : Z) : Prop := 0 <= x < 2 ^ 64.
Definition d_exp (x : Z) : Z := (x / 2 ^ 52) mod 2 ^ 11.
Definition d_normal (x : Z) : Prop := double x /\ 1 <= d_exp x < 2047.

(** Interleaved bits of a list of non-negative numbers below 2^w, highest level first. *)
Definition ikey (w : nat) (v : list Z) : list bool :=
  concat (map (fun b => map (fun x => Z.testbit x (Z.of_nat b)) v) (rev (seq 0 w))).

(** Zero and the positive normal singles from 2^-103 on. *)
Definition plain (x : Z) : Prop := x = 0 \/ (0 <= x < 2 ^ 31 /\ 24 <= s_exp x < 255).
Definition plain_point (n : nat) (v : list Z) : Prop := length v = n /\ Forall plain v.

(** The expansion of the exclusive-or when both operands are cut below the last place of the larger one; negative
    operands are taken in two's complement. *)
Definition ulp_exp (x y : Z) : Z := Z.max (s_exp x) (s_exp y) - 1.
Definition cut (k v : Z) : Z := v / 2 ^ k * 2 ^ k.
Definition xor_cut (x y : Z) : Z :=
  let k := ulp_exp x y in
  if s_neg x then Z.lxor (- cut k (s_mag x)) (- cut k (s_mag y)) else Z.lxor (cut k (s_mag x)) (cut k (s_mag y)).

(** Dyadic block of two numbers of one sign, given with increasing magnitude; all values for opposite signs. *)
Definition fblock (x y lev lo mi up : Z) : Prop :=
  if Bool.eqb (s_neg x) (s_neg y) then
    exists near far, (lo, up) = (if s_neg x then (far, near) else (near, far)) /\
      s_finite near /\ s_finite mi /\ s_finite far /\ s_neg near = s_neg x /\ s_neg mi = s_neg x /\ s_neg far = s_neg x /\
      1 <= lev + 149 /\ (exists q, s_mag near = q * 2 ^ (lev + 149)) /\
      s_mag near <= s_mag x /\ s_mag x < s_mag mi /\ s_mag mi <= s_mag y /\ s_mag y <= s_mag far /\
      s_mag mi = s_mag near + 2 ^ (lev + 148) /\ s_mag far = s_mag near + 2 ^ (lev + 149) - 2 ^ (s_exp y - 1)
  else lev = 129 /\ mi = 0 /\ s_finite lo /\ s_finite up /\ forall z, s_finite z -> s_val lo <= s_val z <= s_val up.
(** The coordinates the split handles. *)
Definition fhandled (x y : Z) : Prop := s_normal x /\ s_normal y /\ (s_neg x = s_neg y -> s_mag x < s_mag y).
