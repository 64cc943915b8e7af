(** * Proofs about the console macros. *)
From Coq Require Import List String Lia.
From Verif Require Import MacroModel MacroSpec.
Import ListNotations.
Open Scope string_scope.

Lemma app_assoc_s : forall a b c : string, (a ++ b) ++ c = a ++ b ++ c.
Proof. induction a; intros; simpl; [reflexivity|]. f_equal. apply IHa. Qed.
Lemma app_nil_s : forall a : string, a ++ "" = a.
Proof. induction a; simpl; congruence. Qed.

Ltac crunch := repeat match goal with |- context [eval ?a ?w] => let v := fresh "v" in let u := fresh "u" in destruct (eval a w) as [v u] end.

Lemma var_lemma : forall W n pl (args : list (arg W)) w, (1 <= n <= 6)%nat -> List.length args = n ->
  run pl args (rofl_var n) w = Some (header pl ++ report (fst (evaluated args w)) ++ newline, snd (evaluated args w)).
Proof.
  intros W n pl args w B L. unfold header, report.
  destruct n as [|[|[|[|[|[|[|n]]]]]]]; try lia;
    repeat (destruct args as [|? args]; cbn in L; try discriminate L);
    unfold rofl_var, ROFL_VAR1, ROFL_VAR2, ROFL_VAR3, ROFL_VAR4, ROFL_VAR5, ROFL_VAR6; cbn -[append put_nat newline];
    crunch; cbn -[append put_nat newline]; rewrite ?app_assoc_s, ?app_nil_s; reflexivity.
Qed.

(** ROFL_VAR7: the sixth value written is that of the seventh argument, which is evaluated twice; the sixth is never evaluated. *)
Lemma var7_lemma : forall W pl (a1 a2 a3 a4 a5 a6 a7 : arg W) w,
  run pl [a1; a2; a3; a4; a5; a6; a7] (rofl_var 7) w =
  let r := evaluated [a1; a2; a3; a4; a5; Arg (text a6) (eval a7); a7] w in Some (header pl ++ report (fst r) ++ newline, snd r).
Proof.
  intros. unfold header, report, rofl_var, ROFL_VAR7; cbn -[append put_nat newline]; crunch; cbn -[append put_nat newline];
    rewrite ?app_assoc_s, ?app_nil_s; reflexivity.
Qed.
