(** Texts of parse errors (C99). *)
From Coq Require Import String.
From Verif Require Import Base ModelUtf8 ModelValue ModelText ModelRpc ModelParseErr ModelParser SpecParser.
Local Open Scope string_scope.
Local Open Scope list_scope.
Local Open Scope Z_scope.

Lemma text_same : forall L F,
  (exists e1 s1 e2 s2, p_source L F [255; 49] = Throws e1 s1 /\ p_source L F [] = Throws e2 s2 /\
    src (s_rd s1) = [49] /\ what e1 = what e2 /\
    what e1 = txt "Parse error: 'Unexpected end of stream' at <root>. Last input: -1(EOF).") /\
  (exists e s, p_source L F [-100] = Throws e s /\ e_last e = -100 /\
    what e = txt "Parse error: 'Unexpected data' at <root>. Last input not given.").
Proof.
  intros L F. split.
  - do 4 eexists. repeat (split; [vm_compute; reflexivity|]); vm_compute; reflexivity.
  - do 2 eexists. repeat (split; [vm_compute; reflexivity|]); vm_compute; reflexivity.
Qed.
