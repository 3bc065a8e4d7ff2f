(** C64: rules of the validator on one word. *)
From Coq Require Import String Lia.
From Verif Require Import Base ModelValue ModelText ModelEnc SpecEnc ModelString ModelRpc ModelNumView ModelValidator SpecValidator SpecTextRule
  ProofTextRule PropEq PropValidator.
Local Open Scope Z_scope.
Local Open Scope list_scope.

(** "hex", "uppercase", "lowercase", "alpha", "alnum", "digits": a non-empty text
    of these characters. *)
Theorem C64_characters : forall V vars k v e s w P, to_string (v_E V) (v_utf8 V) v = Some s -> In (w, P) char_words ->
  let holds := s <> [] /\ Forall P s in
  (accepts V vars (k, v) (VStr e (txt w)) <-> holds) /\ (rejects V vars (k, v) (VStr e (txt w)) <-> ~ holds).
Proof. exact word_text. Qed.
Print Assumptions C64_characters.
Theorem C64_base64 : forall V vars k v e s, to_string (v_E V) (v_utf8 V) v = Some s ->
  let holds := s <> [] /\ base64_form s in
  (accepts V vars (k, v) (VStr e (txt "base64")) <-> holds) /\ (rejects V vars (k, v) (VStr e (txt "base64")) <-> ~ holds).
Proof. exact base64_word. Qed.
Print Assumptions C64_base64.
Theorem C64_base64url : forall V vars k v e s, to_string (v_E V) (v_utf8 V) v = Some s ->
  let holds := s <> [] /\ base64url_form s in
  (accepts V vars (k, v) (VStr e (txt "base64url")) <-> holds) /\ (rejects V vars (k, v) (VStr e (txt "base64url")) <-> ~ holds).
Proof. exact base64url_word. Qed.
Print Assumptions C64_base64url.
(** The texts of binary data written by the library have these forms. *)
Theorem C64_encoded : forall d, is_bytes d -> base64_form (b64_text false true d) /\ base64url_form (b64_text true false d).
Proof. exact encoded_forms. Qed.
Print Assumptions C64_encoded.
(** The empty text is accepted as an identifier. *)
Theorem C64_identifier : forall V vars k v e s, to_string (v_E V) (v_utf8 V) v = Some s ->
  let holds := s = [] \/ identifier_form s in
  (accepts V vars (k, v) (VStr e (txt "identifier")) <-> holds) /\ (rejects V vars (k, v) (VStr e (txt "identifier")) <-> ~ holds).
Proof. exact identifier_word. Qed.
Print Assumptions C64_identifier.
(** Types of the value. *)
Theorem C64_types : forall V vars m e w (P : value -> Prop), In (w, P) (type_words (v_L V)) ->
  (accepts V vars m (VStr e (txt w)) <-> P (snd m)) /\ (rejects V vars m (VStr e (txt w)) <-> ~ P (snd m)).
Proof. exact type_word. Qed.
Print Assumptions C64_types.
(** 'text: this text.  The rule ' alone accepts everything without a text. *)
Theorem C64_constant : forall V vars m e w,
  (accepts V vars m (VStr e (39 :: w)) <-> text_is (snd m) w) /\
  (rejects V vars m (VStr e (39 :: w)) <-> ~ text_is (snd m) w).
Proof. exact constant_word. Qed.
Print Assumptions C64_constant.
(** #comment and the empty rule accept nothing. *)
Theorem C64_comment : forall V vars m e w, rejects V vars m (VStr e (35 :: w)) /\ rejects V vars m (VStr e []).
Proof. exact comment_word. Qed.
Print Assumptions C64_comment.

Example C64_case :
  base64_form (txt "Zm9vYg==") /\ base64url_form (txt "Zm9vYg") /\ identifier_form (txt "_a1") /\
  val_says "{`_root`:`base64`}" "`Zm9vYg==`" = Some true /\ val_says "{`_root`:`base64`}" "`Zm9vY===`" = Some false /\
  val_says "{`_root`:`base64url`}" "`Zm9vY`" = Some false /\ val_says "{`_root`:`hex`}" "`09aF`" = Some true /\
  val_says "{`_root`:`'ab`}" "`ab`" = Some true /\ val_says "{`_root`:`'ab`}" "`'ab`" = Some false /\
  val_says "{`_root`:`hex`}" "12" = Some true /\ val_says "{`_root`:`integer`}" "12" = Some true /\ val_says "{`_root`:`unsigned`}" "-12" = Some false.
Proof.
  split. { exists (txt "Zm9vYg"), 2%nat. split; [reflexivity|]. split; [|split; [lia|reflexivity]]. repeat (apply Forall_cons; [unfold b64_letter, letter_or_digit; cbn; lia|]). apply Forall_nil. }
  split. { split; [|discriminate]. repeat (apply Forall_cons; [unfold b64url_letter, letter_or_digit; cbn; lia|]). apply Forall_nil. }
  split. { exists 95, (txt "a1"). split; [reflexivity|]. split; [lia|]. repeat (apply Forall_cons; [unfold letter_or_digit; cbn; lia|]). apply Forall_nil. }
  vm_compute. auto 10.
Qed.
(** "identifier" is documented as starting with a letter or an underscore. *)
Theorem C64_identifier_refuted : exists V s, ~ identifier_form s /\ accepts V [] ([], VStr None s) (VStr None (txt "identifier")).
Proof.
  exists (valV VUndef), []. split; [intros (c & t & Q & _); discriminate|].
  exists 1%nat, [], v_init. eexists. split; [reflexivity|vm_compute; reflexivity].
Qed.
Print Assumptions C64_identifier_refuted.
