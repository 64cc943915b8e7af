(** * associate of BoxRegistration in floating point (geometry/include/rofl/geometry/box_registration.h 109-150).

    The product with the double literal 0.5 is a double product ([wide] rounds to double), the comparisons 121 and 124 are made on it;
    what is stored in a Scalar and the differences 131 and 134 are rounded to Scalar ([r]).  Overflow, NaN, infinities and the sign of
    zero are not modelled; query and nearest do not alias. *)
From Coq Require Import List Reals Bool Arith.
From Verif Require Import Base BoxModel DoubleModel SingleModel.
Import ListNotations.
Open Scope R_scope.
Open Scope outcome_scope.

(** 118-143. *)
Fixpoint assocf_loop (wide r : R -> R) (d : nat) (dims query : list R) (inside : bool) (best : option (nat * R * R)) : list R * bool * option (nat * R * R) :=
  match dims, query with
  | h :: dims', q :: query' =>
    let lo := wide (- (1 / 2) * h) in
    let hi := wide (1 / 2 * h) in
    if Rlt_dec q lo then
      let '(n, i, b) := assocf_loop wide r (S d) dims' query' false best in (r lo :: n, i, b)
    else if Rlt_dec hi q then
      let '(n, i, b) := assocf_loop wide r (S d) dims' query' false best in (r hi :: n, i, b)
    else
      let '(edge, dist) := if Rlt_dec q 0 then (r lo, r (q - r lo)) else (r hi, r (r hi - q)) in
      let best := match best with
                  | None => Some (d, edge, dist)
                  | Some (k, e, dn) => if Rlt_dec dist dn then Some (d, edge, dist) else Some (k, e, dn)
                  end in
      let '(n, i, b) := assocf_loop wide r (S d) dims' query' inside best in (q :: n, i, b)
  | _, _ => ([], inside, best)
  end.
(** 145-149. *)
Definition associatef (wide r : R -> R) (dims query : list R) : outcome (list R) :=
  let '(nearest, inside, best) := assocf_loop wide r 0 dims query true None in
  if inside then match best with Some (k, edge, _) => Ret (lset query k edge) | None => Exit end else Ret nearest.

(** Scalar = double and Scalar = float (box_registration.cpp 25-28). *)
Definition associate64 := associatef rnd rnd.
Definition associate32 := associatef rnd single.
