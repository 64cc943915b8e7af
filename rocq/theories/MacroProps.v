(** * Properties of the console and assertion macros. *)
From Coq Require Import List ZArith String Lia.
From Verif Require Import MacroModel MacroSpec MacroProofs.
Import ListNotations.
Open Scope string_scope.

(** C248: with seven arguments the sixth name is followed by the value of the seventh. *)
Theorem C248_var_refuted : exists (pl : place) (args : list (arg nat)) (w : nat), List.length args = 7%nat /\ Forall pure args /\
  run pl args (rofl_var 7) w <> Some (header pl ++ report (fst (evaluated args w)) ++ newline, snd (evaluated args w)).
Proof.
  exists (Place "/a.cpp" "a.cpp" 1), (map (fun s => Arg s (fun w => (s, w))) ["a"; "b"; "c"; "d"; "e"; "f"; "g"]), 0%nat.
  split; [reflexivity|]. split; [repeat constructor|]. vm_compute. discriminate.
Qed.
Print Assumptions C248_var_refuted.
Theorem C248_var_partial : forall W n pl (args : list (arg W)) w, (1 <= n <= 6)%nat -> List.length args = n ->
  run pl args (rofl_var n) w = Some (header pl ++ report (fst (evaluated args w)) ++ newline, snd (evaluated args w)).
Proof. exact var_lemma. Qed.
Print Assumptions C248_var_partial.
(** What ROFL_VAR7 does write: the value of the seventh argument, evaluated twice, under both names. *)
Theorem C248_seven_partial : forall W pl (a1 a2 a3 a4 a5 a6 a7 : arg W) w,
  run pl [a1; a2; a3; a4; a5; a6; a7] (rofl_var 7) w =
  let r := evaluated [a1; a2; a3; a4; a5; Arg (text a6) (eval a7); a7] w in Some (header pl ++ report (fst r) ++ newline, snd r).
Proof. exact var7_lemma. Qed.
Print Assumptions C248_seven_partial.
Example C248_case : run (Place "/a.cpp" "a.cpp" 12) [Arg "i++" (fun w => (put_nat w, S w)); Arg "i" (fun w => (put_nat w, w))] (rofl_var 2) 4%nat
  = Some ("a.cpp,12: i++ 4, i 5" ++ newline, 5%nat).
Proof. reflexivity. Qed.

(** C249 *)
Theorem C249_assert : forall W n pl c (cond : W -> bool * W) (args : list (arg W)) w, (n <= 5)%nat -> List.length args = n ->
  (fst (cond w) = true -> rofl_assert pl c cond (assert_var n) args w = Some ("", "", Goes (snd (cond w)))) /\
  (fst (cond w) = false ->
   rofl_assert pl c cond (assert_var n) args w =
   Some ((if Nat.eqb n 0 then "" else header pl ++ report (fst (evaluated args (snd (cond w)))) ++ newline),
         path pl ++ "," ++ put_nat (line pl) ++ ": assertion failed on " ++ c ++ newline,
         Stops (snd (evaluated args (snd (cond w)))) (-1))).
Proof.
  intros W n pl c cond args w B L. unfold rofl_assert. destruct (cond w) as [b w1]. cbn [fst snd]. split; intros E; subst b; cbn [negb]; [reflexivity|].
  destruct n as [|n]; [destruct args; [reflexivity|discriminate L]|].
  assert (V : run pl args (rofl_var (S n)) w1 = Some (header pl ++ report (fst (evaluated args w1)) ++ newline, snd (evaluated args w1)))
    by (apply var_lemma; [lia|exact L]).
  destruct n as [|[|[|[|[|n]]]]]; try lia; cbn [assert_var Nat.eqb]; cbn [rofl_var] in V; rewrite V; reflexivity.
Qed.
Print Assumptions C249_assert.
Example C249_case : rofl_assert (Place "/a.cpp" "a.cpp" 3) "n > 0" (fun w => (Nat.ltb 0 w, w)) (assert_var 1) [Arg "n" (fun w => (put_nat w, w))] 0%nat
  = Some ("a.cpp,3: n 0" ++ newline, "/a.cpp,3: assertion failed on n > 0" ++ newline, Stops 0%nat (-1)).
Proof. reflexivity. Qed.
