(** C136: the definition of definitions, validator.json. *)
From Coq Require Import String.
From Verif Require Import Base ModelKeyed SpecKeyed ModelValue ModelText ModelObject ModelEq ModelString ModelStreams ModelPath ModelRpc ModelValidator.
From Verif Require Import SpecValidator SpecTerm SpecTermCheck ModelOwnDef SpecOwnDef ProofOwnDef PropEq PropValidator PropTerm.
Local Open Scope Z_scope.
Local Open Scope list_scope.

(** The file is read as the definition the following theorems are about. *)
Theorem C136_read : forall L, from_stream L (mkPF false false) own_text = Ok own_def.
Proof. exact own_read. Qed.
Print Assumptions C136_read.

(** With it every object gets a verdict: accepted exactly when each member passes, that is when
    the version, if there is one, is 1 and every other member is something else than a text, or a
    text beginning with ' or #, or one of 21 names. *)
Theorem C136_verdict : forall V k d l, v_def V = own_def -> keys_increasing l -> (forall x, In x l -> fst x <> []) ->
  exists fuel b, (b = true <-> Forall (passes_member (v_L V)) l) /\
    forall g p s, (fuel <= g)%nat -> vs_vars s = [] -> exists t, validate V g (k, VObj d l) (txt "_root") p s = VDone b t.
Proof. exact own_verdict. Qed.
Print Assumptions C136_verdict.

(** What is no object is rejected. *)
Theorem C136_others : forall V m, v_def V = own_def -> (forall d l, snd m <> VObj d l) ->
  exists fuel, forall g p s, (fuel <= g)%nat -> vs_vars s = [] -> exists t, validate V g m (txt "_root") p s = VDone false t.
Proof. exact own_others. Qed.
Print Assumptions C136_others.

(** It lets itself pass. *)
Theorem C136_self : forall L, Forall (passes_member L) (members_of own_def).
Proof. exact own_self. Qed.
Print Assumptions C136_self.

(** *** Refuted readings *)
(** A definition it accepts need not be usable: here a class is missing, and the validator throws. *)
Theorem C136_usable_refuted : exists def t, def = pv "{`_root`:[`foo`]}" /\ Forall (passes_member eqL) (members_of def) /\
  validate (valV def) 9 ([], VNum (NUInt 1)) (txt "_root") [] v_init = VThrow t.
Proof. eexists. eexists. split; [reflexivity|]. split; [constructor; [exact I|constructor]|]. vm_compute. reflexivity. Qed.
Print Assumptions C136_usable_refuted.
(** A definition it rejects may be sound, with a verdict for every subject: here a class is another
    name of a class. *)
Theorem C136_needed_refuted : exists def rank, def = pv "{`_root`:`foo`,`foo`:`string`}" /\ sound_definition def rank /\
  ~ Forall (passes_member eqL) (members_of def) /\
  (exists t, validate (valV own_def) 60 ([], def) (txt "_root") [] v_init = VDone false t) /\
  (exists t, validate (valV def) 9 ([], VStr None (txt "x")) (txt "_root") [] v_init = VDone true t).
Proof.
  eexists. exists (fun w => if beqb w (txt "_root") then (1, 0)%nat else (0, 0)%nat). split; [reflexivity|].
  split; [apply C61_check; vm_compute; reflexivity|]. split.
  - assert (E : members_of (pv "{`_root`:`foo`,`foo`:`string`}") = [(txt "_root", VStr None (txt "foo")); (txt "foo", VStr None (txt "string"))]) by (vm_compute; reflexivity).
    rewrite E. intros H. inversion_clear H as [|? ? H1 _]. vm_compute in H1. destruct H1 as [H|[(t & H)|(t & H)]]; [|discriminate..].
    repeat (destruct H as [H|H]; [discriminate|]). exact H.
  - split; eexists; vm_compute; reflexivity.
Qed.
Print Assumptions C136_needed_refuted.

Definition case_items : list member :=
  [(txt "_root", VObj false [(txt "a", VArr [([], VStr None (txt "number")); ([], VStr None (txt "optional"))])]);
   (txt "_version", VNum (NUInt 1)); (txt "name", VStr None (txt "hex")); (txt "other", VStr None (txt "'x"))].
Example C136_case : keys_increasing case_items /\ (forall x, In x case_items -> fst x <> []) /\ Forall (passes_member eqL) case_items /\
  (exists t, validate (valV own_def) 60 ([], VObj false case_items) (txt "_root") [] v_init = VDone true t) /\
  (exists t, validate (valV own_def) 60 ([], VObj false [(txt "_version", VNum (NUInt 2))]) (txt "_root") [] v_init = VDone false t).
Proof.
  split; [repeat constructor|]. split; [apply Forall_forall; repeat constructor; discriminate|].
  split.
  { constructor; [exact I|]. constructor; [right; vm_compute; reflexivity|]. constructor; [left; vm_compute; tauto|].
    constructor; [right; left; eexists; reflexivity|constructor]. }
  split; eexists; vm_compute; reflexivity.
Qed.
