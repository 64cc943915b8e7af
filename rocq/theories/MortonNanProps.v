(** * Property theorems: Morton comparison of float points with NaN coordinates (C221). *)
From Coq Require Import List ZArith.
From Verif Require Import Base BitsModel MortonFloatModel MortonFloatSpec MortonNanModel MortonNanSpec MortonNanProofs.
Import ListNotations.
Open Scope Z_scope.

(** C221: false of the code: (1, NaN) and (1, 2). *)
Theorem C221_nan_refuted : exists v1 v2, length v1 = length v2 /\ (exists i, s_nan (nth i v1 0)) /\ Forall s_finite v2 /\
  mortonCmpFloat_nan F32 v1 v2 = UB /\ mortonCmpFloat_nan F32 v2 v1 = Ret false.
Proof. exact nan_refuted_lemma. Qed.
Print Assumptions C221_nan_refuted.
(** A NaN in the first point against a finite coordinate of the same sign always shifts by a negative count, whatever the other coordinates. *)
Theorem C221_left_undefined : forall v1 v2 i, length v1 = length v2 -> (i < length v1)%nat -> s_nan (nth i v1 0) -> s_finite (nth i v2 0) ->
  s_neg (nth i v1 0) = s_neg (nth i v2 0) -> mortonCmpFloat_nan F32 v1 v2 = UB.
Proof. exact cmp_nan_left. Qed.
Print Assumptions C221_left_undefined.
(** In one dimension the opposite order is defined and answers "not before". *)
Theorem C221_right_partial : forall x y, s_finite x -> s_nan y -> s_neg x = false -> s_neg y = false -> mortonCmpFloat_nan F32 [x] [y] = Ret false.
Proof. exact cmp_nan_right. Qed.
Print Assumptions C221_right_partial.
(** Without NaN and infinities it is the comparison of C32. *)
Theorem C221_finite_partial : forall v1 v2, length v1 = length v2 -> Forall s_finite v1 -> Forall s_finite v2 ->
  mortonCmpFloat_nan F32 v1 v2 = mortonCmpFloat F32 v1 v2.
Proof. exact cmp_agree. Qed.
Print Assumptions C221_finite_partial.
Example C221_case : s_nan 0x7FC00000 /\ s_finite 0x40000000 /\ s_neg 0x7FC00000 = s_neg 0x40000000 /\ s_nan 0xFFC00001 /\ s_finite 0xC0000000 /\ s_neg 0xFFC00001 = s_neg 0xC0000000.
Proof. repeat split; vm_compute; congruence. Qed.
