(** C94: where a parse error is reported. *)
From Coq Require Import String.
From Verif Require Import Base ModelUtf8 SpecUtf8 ModelValue ModelText SpecText SpecAccept ModelRpc ModelParseErr SpecParseErr
  ProofParseErr ProofParseErr2 ProofParseErr3.
Local Open Scope string_scope.
Local Open Scope list_scope.
Local Open Scope Z_scope.

(** The model with the places reads exactly as the parser does. *)
Theorem C94_same : forall L F s, parse_source L F s =
  match parse_source_e L F s with POk x => Ok x | PErr _ _ => Err | PFuel => Fuel end.
Proof. exact same_outcome. Qed.
Print Assumptions C94_same.

(** Whenever parsing fails, the text can be cut where reading stops, at some place [p]
    the error is reported as [reported] says, and that many values stay behind. *)
Theorem C94_place : forall L F s n st, Forall source_char s -> parse_source_e L F s = PErr n st ->
  exists p m a b, s = a ++ b /\
    stops (allow_dup F)
      (value_text (allow_dup F) reads_as (if precise F then precise_value else plain_value)) reads_as
      (no_value (number_here (if precise F then precise_text else moderate)))
      (longest (if precise F then precise_text else moderate)) p m a b /\
    n = complete p m /\ st = rev (reported p m).
Proof. exact error_place. Qed.
Print Assumptions C94_place.

(** And back: a text in UTF-8 which stops at [p] is an error, reported so. *)
Theorem C94_back : forall L F sg p m a b, Forall source_char (a ++ b) ->
  stops (allow_dup F)
    (value_text (allow_dup F) (denotes sg) (fun _ t => (if precise F then precise_text else moderate) t)) (denotes sg)
    (no_value (number_begins (if precise F then precise_text else plain_text))) apart p m a b ->
  parse_source_e L F (a ++ b) = PErr (complete p m) (rev (reported p m)).
Proof. exact place_reported. Qed.
Print Assumptions C94_back.

(** The report is right exactly if nothing is complete further inside any item on the way;
    so it is if there is no array on the way. *)
Theorem C94_right : forall p m,
  reported p m = map place p <-> (forall q n r, p = q ++ LItem n :: r -> complete r m = 0%nat).
Proof. exact reported_right. Qed.
Print Assumptions C94_right.

(** It is not right in general: [ [1,[2,3,x]] ] fails at item 2 of item 1, and is reported
    at item 2 of item 3. *)
Theorem C94_index_refuted : forall L F, exists p m a b, a ++ b = txt "[1,[2,3,x]]" /\
  stops (allow_dup F)
    (value_text (allow_dup F) (denotes false) (fun _ t => (if precise F then precise_text else moderate) t)) (denotes false)
    (no_value (number_begins (if precise F then precise_text else plain_text))) apart p m a b /\
  map place p = [CIdx 1; CIdx 2] /\
  exists n st, parse_source_e L F (a ++ b) = PErr n st /\ rev st = [CIdx 3; CIdx 2] /\
    what_place st = txt "<root>/[3]/[2]".
Proof. exact wrong_index. Qed.
Print Assumptions C94_index_refuted.

(** Nor does the text tell places apart. *)
Theorem C94_text_refuted : exists s1 s2 n1 n2 st1 st2, st1 <> st2 /\ what_place st1 = what_place st2 /\
  forall L F, parse_source_e L F s1 = PErr n1 st1 /\ parse_source_e L F s2 = PErr n2 st2.
Proof. exact same_text. Qed.
Print Assumptions C94_text_refuted.

(** An error inside objects, after complete members. *)
Example C94_case : forall L F, exists n st,
  parse_source_e L F (txt "{""a"":true,""b"":{""c"":null,""d"":?}}") = PErr n st /\ what_place st = txt "<root>/b/d".
Proof. intros L F. do 2 eexists. split; vm_compute; reflexivity. Qed.
(** In a key the place is given as an empty name. *)
Example C94_case_key : forall L F, exists n st,
  parse_source_e L F (txt "{""a"":{""b"":[],""c") = PErr n st /\ what_place st = txt "<root>/a/".
Proof. intros L F. do 2 eexists. split; vm_compute; reflexivity. Qed.
