(** C62: character sets in the validator. *)
From Coq Require Import String Lia.
From Verif Require Import Base ModelValue ModelText SpecUtf8 ModelRpc ModelNumView ModelValidator SpecValidator SpecCharset ProofCharset PropEq PropValidator.
Local Open Scope Z_scope.
Local Open Scope list_scope.

(** "[...]" with a description of at least two characters: the non-empty texts
    made of characters of the set.  After a range at the end of the description the
    dash belongs to the set as well. *)
Theorem C62_set : forall V vars k e e' items cs, Forall is_cp (set_text items) -> Forall is_cp cs -> readable items ->
  (2 <= List.length (set_text items))%nat -> Z.of_nat (List.length (set_text items)) < 2 ^ 64 -> hd 0 (set_text items) <> 94 ->
  let holds := cs <> [] /\ Forall (in_set items) cs in
  let r := VStr e' (utf8_encode (91 :: set_text items ++ [93])) in
  (accepts V vars (k, VStr e (utf8_encode cs)) r <-> holds) /\ (rejects V vars (k, VStr e (utf8_encode cs)) r <-> ~ holds).
Proof. exact set_positive. Qed.
Print Assumptions C62_set.
(** "[^...]": the non-empty texts without characters of the set. *)
Theorem C62_negated : forall V vars k e e' items cs, Forall is_cp (set_text items) -> Forall is_cp cs -> readable items ->
  (2 <= List.length (set_text items))%nat -> Z.of_nat (List.length (set_text items)) < 2 ^ 64 ->
  let holds := cs <> [] /\ Forall (fun x => ~ in_set items x) cs in
  let r := VStr e' (utf8_encode (91 :: (94 :: set_text items) ++ [93])) in
  (accepts V vars (k, VStr e (utf8_encode cs)) r <-> holds) /\ (rejects V vars (k, VStr e (utf8_encode cs)) r <-> ~ holds).
Proof. exact set_negative. Qed.
Print Assumptions C62_negated.
Theorem C62_empty : forall V vars k e e' cs, Forall is_cp cs ->
  let r := VStr e' (utf8_encode [91; 93]) in
  (accepts V vars (k, VStr e (utf8_encode cs)) r <-> cs = []) /\ (rejects V vars (k, VStr e (utf8_encode cs)) r <-> cs <> []).
Proof. exact set_empty. Qed.
Print Assumptions C62_empty.
Theorem C62_only_strings : forall V vars m e' text, (forall e s, snd m <> VStr e s) -> rejects V vars m (VStr e' (utf8_encode (91 :: text ++ [93]))).
Proof. exact set_only_strings. Qed.
Print Assumptions C62_only_strings.
(** A description of one character: the code reads the rule beyond it.  Texts of
    that character and of the closing bracket are accepted, for any other text
    the rule is read beyond its end, which is undefined behaviour. *)
Theorem C62_single : forall V vars k e e' c cs, is_cp c -> Forall is_cp cs -> cs <> [] ->
  let r := VStr e' (utf8_encode [91; c; 93]) in
  (accepts V vars (k, VStr e (utf8_encode cs)) r <-> Forall (fun x => x = c \/ x = 93) cs) /\
  (~ Forall (fun x => x = c \/ x = 93) cs -> forall fuel p s, eval_rule V (S fuel) p (k, VStr e (utf8_encode cs)) r s = VBad).
Proof. exact set_single. Qed.
Print Assumptions C62_single.

(** *** Cases *)
Example C62_case :
  let items := [Range 97 122; One 48; One 45] in
  set_text items = txt "a-z0-" /\ readable items /\ hd 0 (set_text items) <> 94 /\ in_set items 109 /\ in_set items 45 /\ ~ in_set items 65 /\
  val_says "{`_root`:`[a-z0-]`}" "`m0-`" = Some true /\ val_says "{`_root`:`[a-z0-]`}" "`mA`" = Some false /\
  val_says "{`_root`:`[^a-z0-]`}" "`AB`" = Some true /\ val_says "{`_root`:`[^a-z0-]`}" "`Ab`" = Some false /\
  val_says "{`_root`:`[a-z0-]`}" "``" = Some false /\ val_says "{`_root`:`[]`}" "``" = Some true.
Proof.
  intros items. split; [reflexivity|]. split; [cbn; intuition (discriminate || lia)|]. split; [discriminate|].
  split; [left; constructor; cbn; lia|]. split; [left; right; right; constructor; reflexivity|].
  split.
  { intros [H|[H _]]; [|discriminate]. inversion H as [? ? A|? ? A]; subst; [cbn in A; lia|]. inversion A as [? ? B|? ? B]; subst; [discriminate|].
    inversion B as [? ? D|? ? D]; subst; [discriminate|inversion D]. }
  vm_compute. auto 6.
Qed.
(** The plain reading of a range at the end is wrong. *)
Theorem C62_dash_refuted : exists V r s, r = txt "[a-z]" /\ s = txt "a-z" /\ accepts V [] ([], VStr None s) (VStr None r).
Proof.
  exists (valV VUndef), (txt "[a-z]"), (txt "a-z"). split; [reflexivity|]. split; [reflexivity|].
  exists 1%nat, [], v_init. eexists. split; [reflexivity|vm_compute; reflexivity].
Qed.
Print Assumptions C62_dash_refuted.
