(** * What the profiler should report. *)
From Coq Require Import List ZArith QArith.
From Verif Require Import ParamModel ParamSpec.
Import ListNotations.
Open Scope Q_scope.

(** The samples of one label, oldest first. *)
Definition samples (k : str) (h : list (str * Q)) : list Q :=
  map snd (filter (fun p => if list_eq_dec Z.eq_dec (fst p) k then true else false) h).

Definition qsum (l : list Q) : Q := fold_right Qplus 0 l.
Definition qlen (l : list Q) : Q := inject_Z (Z.of_nat (length l)).
Definition mean (l : list Q) : Q := qsum l / qlen l.
(** Sum of squared deviations from the mean. *)
Definition sqdev (l : list Q) : Q := qsum (map (fun x => (x - mean l) * (x - mean l)) l).
(** Sample variance. *)
Definition variance (l : list Q) : Q := sqdev l / (qlen l - 1).

Definition is_minimum (m : Q) (l : list Q) : Prop := In m l /\ forall x, In x l -> m <= x.
Definition is_maximum (m : Q) (l : list Q) : Prop := In m l /\ forall x, In x l -> x <= m.

(** Labels strictly increasing. *)
Inductive keys_sorted {A} : list (str * A) -> Prop :=
| ks_nil : keys_sorted []
| ks_cons k v t : keys_sorted t -> (forall k' v', In (k', v') t -> slt k k') -> keys_sorted ((k, v) :: t).
