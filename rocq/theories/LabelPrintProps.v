(** * Property theorems: the printed text of a rofl::LabelSet (C220). *)
From Coq Require Import List ZArith Sorted String.
From Verif Require Import Base LabelSetModel LabelSetSpec LabelPrintModel LabelPrintSpec LabelPrintProofs.
Import ListNotations.
Open Scope Z_scope.

(** C220 *)
Theorem C220_reads_back : forall e, exists l, read_set (print (eval e)) = Some l /\ StronglySorted Z.lt l /\ (forall x, In x l <-> denote e x).
Proof. exact print_set_lemma. Qed.
Print Assumptions C220_reads_back.
Theorem C220_same_text : forall e1 e2, print (eval e1) = print (eval e2) <-> forall x, denote e1 x <-> denote e2 x.
Proof. exact same_text_lemma. Qed.
Print Assumptions C220_same_text.
Theorem C220_format : forall e, exists l, read_set (print (eval e)) = Some l /\
  print (eval e) = ("{" ++ String.concat ", " (map put_int l) ++ "}")%string /\ Forall (fun z => read_int (put_int z) = Some z) l.
Proof. intros e. exists (eval e). split; [apply read_print|]. split; [apply format_lemma|]. apply Forall_forall. intros z _. apply read_put. Qed.
Print Assumptions C220_format.
Example C220_case : print (eval (EDiff (ERange [10; -1; 12; 3]) (ERange [3]))) = "{-1, 10, 12}"%string /\ print (eval EEmpty) = "{}"%string /\ read_set "{1,2}" = None.
Proof. repeat split; vm_compute; reflexivity. Qed.
