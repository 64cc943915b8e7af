(** * ParamMap: common/include/rofl/common/param_map.h and common/src/param_map.cpp.

    A character is its byte value (0 .. 255), a string a list of characters.  The conversions between values and text (operator<< and
    boost::lexical_cast) are parameters.  Messages to cerr / cout are dropped.  A stream is the list of its characters, good at the
    start of the call.  Opening and closing files (62-71, 113-122) is not modelled. *)
From Coq Require Import List ZArith Bool.
From Verif Require Import Base.
Import ListNotations.
Open Scope Z_scope.
Open Scope outcome_scope.

Definition str := list Z.
Fixpoint str_eqb (a b : str) : bool :=
  match a, b with
  | [], [] => true
  | x :: a', y :: b' => (x =? y) && str_eqb a' b'
  | _, _ => false
  end.
(** Order of std::string: lexicographic, characters as unsigned bytes. *)
Fixpoint str_ltb (a b : str) : bool :=
  match a, b with
  | [], [] => false
  | [], _ :: _ => true
  | _ :: _, [] => false
  | x :: a', y :: b' => if x <? y then true else if y <? x then false else str_ltb a' b'
  end.

(** table_type h 39: std::map, the pairs in key order. *)
Definition table := list (str * str).
(** std::map find, erase(key), insert(pair). *)
Fixpoint tfind (k : str) (t : table) : option str :=
  match t with
  | [] => None
  | (k', v) :: r => if str_eqb k k' then Some v else tfind k r
  end.
Fixpoint terase (k : str) (t : table) : table :=
  match t with
  | [] => []
  | (k', v) :: r => if str_eqb k k' then r else (k', v) :: terase k r
  end.
Fixpoint tinsert (k v : str) (t : table) : table :=
  match t with
  | [] => [(k, v)]
  | (k', v') :: r => if str_eqb k k' then t else if str_ltb k k' then (k, v) :: t else (k', v') :: tinsert k v r
  end.

(** setParamString cpp 124-127, and setParam h 96-102 after formatting. *)
Definition setParamString (t : table) (k v : str) : table := tinsert k v (terase k t).

(** clear cpp 30-32. *)
Definition clear (t : table) : table := [].

Section Value.
Context {V : Type}.
(** stringstream << value. *)
Variable fmt : V -> str.
(** boost::lexical_cast<V>; None for bad_lexical_cast. *)
Variable cast : str -> option V.

(** setParam h 95-102. *)
Definition setParam (t : table) (k : str) (v : V) : table := setParamString t k (fmt v).
(** getParam h 106-131: table, the caller's variable, result; [value] is its old content. *)
Definition getParam (t : table) (k : str) (value dflt : V) : table * V * bool :=
  match tfind k t with
  | Some s => (t, match cast s with Some v => v | None => value end, true)
  | None => (setParam t k dflt, dflt, false)
  end.

(** boost::tokenizer with char_separator(delim): maximal runs of characters not in delim.  [cur] is the current run, reversed. *)
Definition is_in (delim : str) (c : Z) : bool := existsb (Z.eqb c) delim.
Definition flush (cur : str) (l : list str) : list str := match cur with [] => l | _ => rev cur :: l end.
Fixpoint tok_loop (delim s cur : str) : list str :=
  match s with
  | [] => flush cur []
  | c :: r => if is_in delim c then flush cur (tok_loop delim r []) else tok_loop delim r (c :: cur)
  end.
(** delim.c_str(): up to the first NUL. *)
Fixpoint c_str (s : str) : str := match s with [] => [] | c :: r => if c =? 0 then [] else c :: c_str r end.
Definition tokens (delim s : str) : list str := tok_loop (c_str delim) s [].

(** fillWithTokens h 202-230: the destination, one entry per element of [beg, end). *)
Fixpoint fill_loop (toks : list str) (dest : list V) (dflt : V) : list V :=
  match dest with
  | [] => []
  | x :: r =>
    match toks with
    | [] => dflt :: fill_loop [] r dflt
    | s :: ts => match cast s with Some v => v :: fill_loop ts r dflt | None => x :: r end
    end
  end.
Definition fillWithTokens (s : str) (dest : list V) (dflt : V) (delim : str) : list V := fill_loop (tokens delim s) dest dflt.

(** getParamContainer h 168-190. *)
Definition getParamContainer (t : table) (k : str) (dest : list V) (dfltString : str) (dflt : V) (delim : str) : table * list V * bool :=
  let dest1 := map (fun _ => dflt) dest in
  match tfind k t with
  | Some s => (t, fillWithTokens s dest1 dflt delim, true)
  | None => (setParamString t k dfltString, fillWithTokens dfltString dest1 dflt delim, false)
  end.

(** getParamContainerInserter h 135-166: the values inserted, in order. *)
Fixpoint ins_loop (toks : list str) : list V :=
  match toks with
  | [] => []
  | s :: ts => match cast s with Some v => v :: ins_loop ts | None => [] end
  end.
Definition getParamContainerInserter (t : table) (k delim : str) : table * list V * bool :=
  match tfind k t with
  | Some s => (t, ins_loop (tokens delim s), true)
  | None => (setParamString t k [], [], false)
  end.
End Value.

(** ** Streams *)
(** MAX_LEN h 44, COMMENT h 43. *)
Definition MAX_LEN : Z := 2000.
Definition COMMENT : Z := 35.
(** Result of istream::getline(buffer, n): failbit set, or the line with the rest of the stream and whether eofbit is set. *)
Inductive line_result := LFail | LLine (l rest : str) (eof : bool).
(** Characters are extracted until end of stream, newline (extracted, not stored) or n-1 stored characters, checked in this order. *)
Fixpoint getline_loop (s : str) (room : Z) (acc : str) : line_result :=
  match s with
  | [] => match acc with [] => LFail | _ => LLine (rev acc) [] true end
  | c :: r => if c =? 10 then LLine (rev acc) r false else if room <=? 0 then LFail else getline_loop r (room - 1) (c :: acc)
  end.
Definition getline (s : str) (n : Z) : line_result := getline_loop s (n - 1) [].

(** isspace in the C locale. *)
Definition is_ws (c : Z) : bool := (c =? 32) || ((9 <=? c) && (c <=? 13)).
(** operator>>(istream, string): skip white space, then take characters up to white space; None if nothing is left. *)
Fixpoint skip_ws (s : str) : str := match s with c :: r => if is_ws c then skip_ws r else s | [] => [] end.
Fixpoint take_word (s : str) : str * str :=
  match s with
  | [] => ([], [])
  | c :: r => if is_ws c then ([], s) else let '(w, q) := take_word r in (c :: w, q)
  end.
Definition word (s : str) : option (str * str) :=
  match skip_ws s with [] => None | s' => Some (take_word s') end.

(** Body of the loop of read cpp 40-47. *)
Definition read_line (t : table) (l : str) : table :=
  match word (c_str l) with
  | None => t
  | Some (name, r) =>
    match word r with
    | None => t
    | Some (value, _) =>
      match name with
      | [] => t
      | c :: _ => if c =? COMMENT then t else setParamString t name value
      end
    end
  end.
(** read(istream) cpp 34-60; it always returns true.  At end of stream the next getline fails. *)
Fixpoint read_loop (fuel : nat) (t : table) (s : str) : outcome table :=
  match fuel with
  | O => Stuck
  | S f =>
    match getline s MAX_LEN with
    | LFail => Ret t
    | LLine l r eof => if eof then Ret (read_line t l) else read_loop f (read_line t l) r
    end
  end.
Definition read (t : table) (s : str) : outcome table := read_loop (S (length s)) t s.

(** write cpp 99-104, with prefix 106-111. *)
Definition write_line (p : str * str) : str := fst p ++ [32] ++ snd p ++ [10].
Definition write (t : table) : str := concat (map write_line t).
Definition write_prefix (t : table) (prefix : str) : str := concat (map (fun p => prefix ++ write_line p) t).

(** ** Command line *)
(** isalpha in the C locale; undefined for characters that are negative as a signed char. *)
Definition is_alpha (c : Z) : outcome bool :=
  if 128 <=? c then UB else Ret (((65 <=? c) && (c <=? 90)) || ((97 <=? c) && (c <=? 122))).
(** isOption cpp 148-150. *)
Definition isOption (s : str) : outcome bool :=
  match s with
  | c :: d :: _ => if c =? 45 then is_alpha d else Ret false
  | _ => Ret false
  end.
(** read(argc, argv) cpp 73-97; argv[i] outside the vector is undefined. *)
Fixpoint args_loop (fuel : nat) (t : table) (argc : nat) (argv : list str) (argi : nat) : outcome table :=
  if (argi <? argc)%nat then
    match fuel with
    | O => Stuck
    | S f =>
      let! name := vread argv argi in
      let! o := if (argi + 1 <? argc)%nat then isOption name else Ret false in
      if o then
        let! value := vread argv (argi + 1) in
        let! ov := isOption value in
        args_loop f (if ov then t else setParamString t (tl name) value) argc argv (argi + 1)
      else args_loop f t argc argv (argi + 1)
    end
  else Ret t.
Definition read_args (t : table) (argc : nat) (argv : list str) : outcome table := args_loop argc t argc argv 1.

(** ** adaptTildeInPaths cpp 129-146 *)
(** second.rfind("~") == 0: the only tilde is the first character. *)
Definition tilde_first (s : str) : bool :=
  match s with c :: r => (c =? 126) && negb (existsb (Z.eqb 126) r) | [] => false end.
(** [home] is getenv("HOME"); building a string from a null pointer is undefined.  setParam erases the element the loop iterator
    points to, so the following ++it is undefined. *)
Fixpoint tilde_loop (home : option str) (rest : table) (t : table) : outcome table :=
  match rest with
  | [] => Ret t
  | (k, v) :: r =>
    match home with
    | None => UB
    | Some h => if tilde_first v then UB else tilde_loop home r t
    end
  end.
Definition adaptTildeInPaths (home : option str) (t : table) : outcome table := tilde_loop home t t.
