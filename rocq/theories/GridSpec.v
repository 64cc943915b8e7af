(** * Grids reachable through the public interface. *)
From Coq Require Import List ZArith.
From Verif Require Import Base IntervalModel IntervalSpec.
Import ListNotations.
Open Scope Z_scope.

(** A domain with non-negative extents whose cell count fits size_t. *)
Definition dom_ok (mn dm : list Z) : Prop := length mn = length dm /\ nonneg dm /\ vol dm < 2 ^ 64.

Inductive greach {V} (v0 : V) : grid V -> Prop :=
| greach_new n : greach v0 (grid_new (S n))
| greach_bounds g mn dm : greach v0 g -> dom_ok mn dm -> greach v0 (grid_initBounds v0 g mn dm)
| greach_center g c w : greach v0 g -> length w = length c ->
    dom_ok (imin (initCentered c w)) (idim (initCentered c w)) -> greach v0 (grid_initCenter v0 g c w)
| greach_minmax g mn mx : greach v0 g -> length mx = length mn ->
    dom_ok (imin (initMinMax mn mx)) (idim (initMinMax mn mx)) -> greach v0 (grid_initMinMax v0 g mn mx)
| greach_set g x v g' : greach v0 g -> grid_set g x v = Ret g' -> greach v0 g'
| greach_fill g v : greach v0 g -> greach v0 (grid_fill g v).

(** A cell of the domain of [g]. *)
Definition gcell {V} (g : grid V) (x : list Z) : Prop := in_box (imin (gdom g)) (idim (gdom g)) x.
