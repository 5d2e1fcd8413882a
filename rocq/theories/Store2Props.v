(** Property C130: the names of the text files. *)
From Coq Require Import Ascii.
From Verif Require Import Base StoreModel.
Local Open Scope string_scope.

(** The file name of a gate has the characters of the gate, except that every colon
    is a dot. *)
Theorem C130_file_names : forall name i,
  String.length (dotted name) = String.length name
  /\ String.get i (dotted name)
     = match String.get i name with
       | Some c => Some (if Ascii.eqb c ":" then "." else c)%char
       | None => None
       end.
Proof.
  induction name as [|c r IH]; intro i; [destruct i; split; reflexivity|].
  destruct (IH 0) as [L _]. split; [cbn; rewrite L; reflexivity|].
  destruct i as [|i]; [reflexivity|]. exact (proj2 (IH i)).
Qed.
Print Assumptions C130_file_names.

Example C130_file_names_example : dotted "instr:crx[0,1]" = "instr.crx[0,1]".
Proof. reflexivity. Qed.
