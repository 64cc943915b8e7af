(** * LabelSet::print and operator<< (common/src/label_set.cpp 125-134, common/include/rofl/common/label_set.h 166-169).

    The text written to a stream in its default state: operator<<(int) writes the decimal numeral of the standard library, with a minus sign
    for negative labels.  Simplification: the stream accepts everything; its state (width, base, showpos, locale) is the default. *)
From Coq Require Import List ZArith Bool String Ascii Decimal DecimalString.
From Verif Require Import Base LabelSetModel.
Import ListNotations.
Open Scope string_scope.

(** out << *it. *)
Definition put_int (z : Z) : string := NilZero.string_of_int (Z.to_int z).
(** The loop 127-132: [first] is "it == labels_.begin()". *)
Fixpoint print_loop (first : bool) (s : lset) : string :=
  match s with
  | [] => ""
  | z :: t => (if first then "" else ", ") ++ put_int z ++ print_loop false t
  end.
(** print 125-134. *)
Definition print (s : lset) : string := "{" ++ print_loop true s ++ "}".
