(** * Mathematical sets denoted by label set programs. *)
From Coq Require Import List ZArith.
From Verif Require Import LabelSetModel.
Open Scope Z_scope.

Fixpoint denote (e : expr) (x : Z) : Prop :=
  match e with
  | EEmpty => False
  | ERange l => In x l
  | EInsert e y => denote e x \/ x = y
  | ERemove e y => denote e x /\ x <> y
  | EUnionLabel e y => denote e x \/ x = y
  | EUnion a b => denote a x \/ denote b x
  | EInter a b => denote a x /\ denote b x
  | EDiffLabel e y => denote e x /\ x <> y
  | EDiff a b => denote a x /\ ~ denote b x
  end.
