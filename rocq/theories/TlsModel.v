(** * estimateTranslationTls (common/include/rofl/common/tls_scalar_consensus.h 43-134).

    Scalar is modelled by exact rationals: rounding, overflow and signed zeros are not modelled here (TlsFloatModel.v has them).  The division 0/0 of lines 106 and
    108-109 gives a quiet NaN, modelled by [None]; every comparison with it is false.  A division of a non-zero number by zero
    (an infinity) is not modelled: [Stuck].  std::sort 61-64 is not stable: the result of sorting is a parameter [sort].
    [inliers] and [valueMax] are outputs; what ROFL_VAR2 127 prints is not modelled, but it dereferences itMin. *)
From Coq Require Import List ZArith QArith Qabs Bool.
From Verif Require Import Base IntervalModel.
Import ListNotations.
Open Scope Q_scope.
Open Scope outcome_scope.

(** Loop 57-60 from index [i]: -i - 1 is computed in size_t and converted to int. *)
Fixpoint endpoints (i : Z) (values ranges : list Q) : list (Q * Z) :=
  match values, ranges with
  | v :: vs, r :: rs => (v - r, to_int (i + 1)) :: (v + r, to_int (to_size (- i - 1))) :: endpoints (i + 1) vs rs
  | _, _ => []
  end.

(** 67-74: 1e-6 and 1e+12. *)
Definition weight (r : Q) : Q := if Qle_bool (1 # 1000000) (Qabs r) then 1 / (r * r) else 1000000000000 # 1.

Record sums := mkSums { cw : Q; card : Z; sumXi : Q; sumXiSquare : Q; vw : Q; ris : Q }.

(** 76-85. *)
Definition sums0 (ranges : list Q) : sums := mkSums 0 0 0 0 0 (fold_left Qplus ranges 0).

(** Element [i] of a vector, [i] an int. *)
Definition zread {A} (l : list A) (i : Z) : outcome A := if (i <? 0)%Z then UB else vread l (Z.to_nat i).

(** 94-102. *)
Definition step (values ranges : list Q) (s : sums) (e : Z) : outcome sums :=
  let i := (Z.abs e - 1)%Z in
  let incr : Z := if (0 <? e)%Z then 1%Z else (-1)%Z in
  let! v := zread values i in
  let! r := zread ranges i in
  let w := weight r in
  let k := inject_Z incr in
  Ret (mkSums (cw s + k * w) (card s + incr) (sumXi s + k * v) (sumXiSquare s + k * v * v) (vw s + k * w * v) (ris s - k * r)).

(** 106-109: valueHat[j] and valueCost[j]. *)
Definition candidate (s : sums) : outcome (option Q * option Q) :=
  if Qeq_bool (cw s) 0 then (if Qeq_bool (vw s) 0 then Ret (None, None) else Stuck)
  else let h := vw s / cw s in
    Ret (Some h, Some (inject_Z (card s) * h * h + sumXiSquare s - 2 * sumXi s * h + ris s)).

(** Loop 93-124: the quantities after each step, with the candidate. *)
Fixpoint sweep (values ranges : list Q) (s : sums) (es : list (Q * Z)) : outcome (list (sums * (option Q * option Q))) :=
  match es with
  | [] => Ret []
  | (_, e) :: rest =>
    let! s1 := step values ranges s e in
    let! c := candidate s1 in
    let! r := sweep values ranges s1 rest in
    Ret ((s1, c) :: r)
  end.

(** operator< on values that may be NaN. *)
Definition less (a b : option Q) : bool :=
  match a, b with Some x, Some y => negb (Qle_bool y x) | _, _ => false end.

(** std::min_element 126: the position of the first element that no element is less than. *)
Fixpoint min_loop (bi : nat) (b : option Q) (i : nat) (l : list (option Q)) : nat :=
  match l with
  | [] => bi
  | x :: r => if less x b then min_loop i x (S i) r else min_loop bi b (S i) r
  end.
Definition min_element (l : list (option Q)) : nat :=
  match l with [] => 0%nat | x :: r => min_loop 0 x 1 r end.

(** 131: fabs(values[i] - valueMax) < ranges[i]. *)
Definition inlier (est : option Q) (v r : Q) : bool :=
  match est with None => false | Some x => negb (Qle_bool r (Qabs (v - x))) end.
Fixpoint inlier_flags (est : option Q) (values ranges : list Q) : list bool :=
  match values, ranges with
  | v :: vs, r :: rs => inlier est v r :: inlier_flags est vs rs
  | _, _ => []
  end.

(** The whole function; returns valueMax (None: NaN) and inliers. *)
Definition estimate (sort : list (Q * Z) -> list (Q * Z)) (values ranges : list Q) : outcome (option Q * list bool) :=
  if (length values =? length ranges)%nat then
    let! t := sweep values ranges (sums0 ranges) (sort (endpoints 0 values ranges)) in
    match t with
    | [] => UB (* *itMin at 127 dereferences end() *)
    | _ =>
      let p := min_element (map (fun x => snd (snd x)) t) in
      let! x := vread t p in
      let est := fst (snd x) in
      Ret (est, inlier_flags est values ranges)
    end
  else Exit.
