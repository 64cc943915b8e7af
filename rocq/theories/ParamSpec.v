(** * What the parameter table should do. *)
From Coq Require Import List ZArith Bool.
From Verif Require Import Base ParamModel.
Import ListNotations.
Open Scope Z_scope.

(** The abstract table: a partial function from names to texts. *)
Definition amap := str -> option str.
Definition upd (m : amap) (k v : str) : amap := fun k' => if list_eq_dec Z.eq_dec k k' then Some v else m k'.

(** Lexicographic order of names. *)
Inductive slt : str -> str -> Prop :=
| slt_nil c s : slt [] (c :: s)
| slt_head c d s1 s2 : c < d -> slt (c :: s1) (d :: s2)
| slt_tail c s1 s2 : slt s1 s2 -> slt (c :: s1) (c :: s2).
(** A table as std::map keeps it: names strictly increasing. *)
Inductive ordered_table : table -> Prop :=
| ot_nil : ordered_table []
| ot_cons k v t : ordered_table t -> (forall k' v', In (k', v') t -> slt k k') -> ordered_table ((k, v) :: t).

(** Public operations on a table (conversions already applied: a default is given by its text). *)
Inductive pop :=
| PSet (k v : str)
| PGet (k dflt : str)
| PClear
| PRead (s : str)
| PArgs (argv : list str).
Definition pstep (t : table) (o : pop) : outcome table :=
  match o with
  | PSet k v => Ret (setParamString t k v)
  | PGet k d => Ret (match tfind k t with Some _ => t | None => setParamString t k d end)
  | PClear => Ret (clear t)
  | PRead s => read t s
  | PArgs a => read_args t (length a) a
  end.
Fixpoint prun (t : table) (l : list pop) : outcome table :=
  match l with [] => Ret t | o :: r => obind (pstep t o) (fun t1 => prun t1 r) end.

(** Text that survives the stream format. *)
Definition space (c : Z) : Prop := c = 32 \/ 9 <= c <= 13.
Definition plain_word (s : str) : Prop := s <> [] /\ Forall (fun c => ~ space c /\ c <> 0) s.
Definition writable (p : str * str) : Prop :=
  plain_word (fst p) /\ plain_word (snd p) /\ (forall r, fst p <> 35 :: r) /\ Z.of_nat (length (fst p) + length (snd p)) <= 1998.

(** An option: a dash and a letter. *)
Definition letter (c : Z) : Prop := 65 <= c <= 90 \/ 97 <= c <= 122.
Definition option_word (s : str) : Prop := exists c r, s = 45 :: c :: r /\ letter c.
(** Arguments whose second character, after a dash, is ASCII. *)
Definition ascii_arg (s : str) : Prop := forall c r, s = 45 :: c :: r -> c < 128.
(** Argument i binds name k to text v. *)
Definition binds (argv : list str) (i : nat) (k v : str) : Prop :=
  (1 <= i)%nat /\ nth_error argv i = Some (45 :: k) /\ option_word (45 :: k) /\ nth_error argv (S i) = Some v /\ ~ option_word v.

(** Tokens: the text is delimiters, token, delimiters, token, ... *)
Inductive tokenised (delim : str) : str -> list str -> Prop :=
| tk_nil : tokenised delim [] []
| tk_delim c s l : In c delim -> tokenised delim s l -> tokenised delim (c :: s) l
| tk_last w : w <> [] -> (forall c, In c w -> ~ In c delim) -> tokenised delim w [w]
| tk_token w c s l : w <> [] -> (forall x, In x w -> ~ In x delim) -> In c delim -> tokenised delim s l -> tokenised delim (w ++ c :: s) (w :: l).

(** A value whose only tilde is its first character. *)
Definition only_tilde (s : str) : Prop := exists r, s = 126 :: r /\ ~ In 126 r.

(** What a name should hold after set, get-with-default and clear operations, newest first. *)
Definition simple_op (o : pop) : Prop := match o with PSet _ _ | PGet _ _ | PClear => True | _ => False end.
Fixpoint expected (h : list pop) (k : str) : option str :=
  match h with
  | [] => None
  | PSet k' v :: r => if list_eq_dec Z.eq_dec k' k then Some v else expected r k
  | PGet k' d :: r => if list_eq_dec Z.eq_dec k' k then Some (match expected r k with Some v => v | None => d end) else expected r k
  | PClear :: _ => None
  | _ :: r => expected r k
  end.

(** A line of a parameter file that gives name k the text v: its first two words, separated by white space; no comment. *)
Definition line_binds (l k v : str) : Prop :=
  exists a b c, l = a ++ k ++ b ++ v ++ c /\ Forall space a /\ Forall space b /\ b <> [] /\ (c = [] \/ exists x y, c = x :: y /\ space x) /\
    k <> [] /\ Forall (fun x => ~ space x) k /\ v <> [] /\ Forall (fun x => ~ space x) v /\ (forall r, k <> 35 :: r).
(** The lines of a text; the last one need not end with a newline. *)
Definition text_of (ls : list str) (last : str) : str := concat (map (fun l => l ++ [10]) ls) ++ last.
(** A line the reader takes in whole: it fits the buffer and holds no NUL. *)
Definition good_line (l : str) : Prop := Forall (fun c => c <> 10 /\ c <> 0) l /\ Z.of_nat (length l) <= 1999.
