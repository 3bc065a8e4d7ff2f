(** C71: the language the parser reads; C08: malformed escapes. *)
From Verif Require Import Base SpecUtf8 SpecKeyed ModelValue ModelText SpecText SpecAccept ProofAccept2 ProofAccept3.
Local Open Scope Z_scope.

(** *** C71 *)
(** Whatever is accepted is white space, a text of the grammar and an unread
    rest; the value returned is what the text denotes, its objects put in key
    order, and no key occurs twice unless that was allowed. *)
Theorem C71_sound : forall L F s v r, Forall source_char s -> parse_source L F s = Ok (v, r) ->
  exists w t rest v0, s = w ++ t ++ rest /\ spaces w /\
    gval reads_as (if precise F then precise_value else plain_value) v0 t /\
    sorted_form v0 v /\ (allow_dup F = false -> ~ has_dup v0) /\ at_pos r rest.
Proof. exact parse_sound. Qed.
Print Assumptions C71_sound.

(** Ordinary mode: a text of the grammar whose numbers are not too large is
    accepted wherever it stands, with the value it denotes; if a key occurs
    twice and that is not allowed, it is rejected. *)
Theorem C71_complete : forall L F sg v0 t, precise F = false ->
  gval (denotes sg) (fun _ t => moderate t) v0 t ->
  exists v1, gval (denotes sg) plain_value v1 t /\ forall w rest, spaces w -> num_end rest ->
    ((allow_dup F = true \/ ~ has_dup v1) ->
      exists v' r', parse_source L F (w ++ t ++ rest) = Ok (v', r') /\ sorted_form v1 v' /\ at_pos r' rest) /\
    (allow_dup F = false -> has_dup v1 -> parse_source L F (w ++ t ++ rest) = Err).
Proof. exact moderate_outcome. Qed.
Print Assumptions C71_complete.

(** The same in precise mode, numbers of any size. *)
Theorem C71_complete_precise : forall L F sg v0 t, precise F = true ->
  gval (denotes sg) (fun _ t => precise_text t) v0 t ->
  exists v1, gval (denotes sg) precise_value v1 t /\ forall w rest, spaces w -> num_end rest ->
    ((allow_dup F = true \/ ~ has_dup v1) ->
      exists v' r', parse_source L F (w ++ t ++ rest) = Ok (v', r') /\ sorted_form v1 v' /\ at_pos r' rest) /\
    (allow_dup F = false -> has_dup v1 -> parse_source L F (w ++ t ++ rest) = Err).
Proof. exact precise_outcome. Qed.
Print Assumptions C71_complete_precise.

(** The exact language of whole sources (only white space after the value), in
    precise mode with keys allowed twice.  [-1] is the end of the source. *)
Theorem C71_language : forall L F s, allow_dup F = true -> precise F = true ->
  Forall source_char s -> ~ In (-1) s ->
  (exists v r rest, parse_source L F s = Ok (v, r) /\ at_pos r rest /\ spaces rest) <->
  (exists w t w', s = w ++ t ++ w' /\ spaces w /\ spaces w' /\ text_of precise_text t).
Proof. exact precise_language. Qed.
Print Assumptions C71_language.

(** In ordinary mode it lies between the grammar with moderate numbers and the
    grammar with all numbers. *)
Theorem C71_language_plain : forall L F s, allow_dup F = true -> precise F = false ->
  Forall source_char s -> ~ In (-1) s ->
  ((exists v r rest, parse_source L F s = Ok (v, r) /\ at_pos r rest /\ spaces rest) ->
   exists w t w', s = w ++ t ++ w' /\ spaces w /\ spaces w' /\ text_of plain_text t) /\
  ((exists w t w', s = w ++ t ++ w' /\ spaces w /\ spaces w' /\ text_of moderate t) ->
   exists v r rest, parse_source L F s = Ok (v, r) /\ at_pos r rest /\ spaces rest).
Proof. exact plain_language. Qed.
Print Assumptions C71_language_plain.

(** [ex_text] is [ +1,"\u00Z7é"]. *)
Example C71_case_grammar : gval (denotes false) (fun _ t => moderate t) ex_value ex_text.
Proof. exact ex_gval. Qed.
Example C71_case_parse : forall L, parse_source L (mkPF false false) ex_text = Ok (ex_value, mkR [] None).
Proof. exact ex_parse. Qed.
(** Precise mode: form feed, a point without digits, a key twice. *)
Example C71_case_precise : exists t, ex_text2 = [12] ++ t ++ [10] /\ spaces [12] /\ spaces [10] /\ text_of precise_text t.
Proof. exact ex_text2_of. Qed.
Example C71_case_precise_parse : forall L,
  parse_source L (mkPF true true) ex_text2 = Ok (VObj false [([107], VArr [])], mkR [10] None).
Proof. exact ex_parse2. Qed.
Example C71_case_trailing : forall L F, parse_source L F [91;49;44;93] = Err.
Proof. exact ex_trailing. Qed.

(** *** C08 *)
(** Which string literals are accepted.  The full property fails in exactly one
    clause of [body]: any four characters may follow \u, not only digits. *)
Theorem C08_literals_partial : forall L F w s, spaces w ->
  (exists v r, parse_source L F (w ++ 34 :: s) = Ok (v, r)) <-> (exists b rest, s = b ++ 34 :: rest /\ body b).
Proof. exact literal_language. Qed.
Print Assumptions C08_literals_partial.

Example C08_literals_case : forall L F, parse_source L F [34;92;117;48;48;34] = Err.
Proof. intros L F. reflexivity. Qed.
