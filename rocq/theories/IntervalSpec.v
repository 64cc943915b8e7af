(** * Boxes of integer points. *)
From Coq Require Import List ZArith.
Import ListNotations.
Open Scope Z_scope.

(** [x] is a cell of the box with corner [mn] and extents [dm]. *)
Inductive in_box : list Z -> list Z -> list Z -> Prop :=
| in_box_nil : in_box [] [] []
| in_box_cons m d x mn dm xs : m <= x < m + d -> in_box mn dm xs -> in_box (m :: mn) (d :: dm) (x :: xs).

(** Number of cells. *)
Fixpoint vol (dm : list Z) : Z := match dm with [] => 1 | d :: t => d * vol t end.

(** A box of int coordinates: positive extents, every cell representable, cell count representable. *)
Inductive corners_ok : list Z -> list Z -> Prop :=
| corners_nil : corners_ok [] []
| corners_cons m d mn dm : 0 < d -> - 2 ^ 31 <= m -> m + d - 1 < 2 ^ 31 -> corners_ok mn dm -> corners_ok (m :: mn) (d :: dm).
Definition int_box (mn dm : list Z) : Prop := corners_ok mn dm /\ vol dm < 2 ^ 31.

(** Two cells differ by one in exactly one coordinate. *)
Definition neighbours (x y : list Z) : Prop :=
  exists pre a b post, x = pre ++ a :: post /\ y = pre ++ b :: post /\ Z.abs (a - b) = 1.

(** All extents but the first and the last are even. *)
Fixpoint even_but_last (dm : list Z) : Prop :=
  match dm with
  | [] => True
  | [_] => True
  | d :: t => Z.even d = true /\ even_but_last t
  end.
Definition middle_even (dm : list Z) : Prop := match dm with [] => True | _ :: t => even_but_last t end.

(** The exact condition: an odd extent is harmless only when the extent before it is 1 or all later ones are. *)
Fixpoint zigzag_ok (dm : list Z) : Prop :=
  match dm with
  | d0 :: ((d1 :: rest) as t) => (Z.even d1 = true \/ d0 = 1 \/ vol rest = 1) /\ zigzag_ok t
  | _ => True
  end.

(** All coordinates of the box are int values (the extents may be zero). *)
Definition int_coords (mn dm : list Z) : Prop := Forall2 (fun m d => - 2 ^ 31 <= m /\ m + d - 1 < 2 ^ 31) mn dm.
Definition nonneg (dm : list Z) : Prop := Forall (fun d => 0 <= d) dm.
