(** C96: several documents in one source. *)
From Coq Require Import String.
From Verif Require Import Base SpecUtf8 ModelUtf8 ModelValue ModelText ModelDocs SpecText SpecAccept SpecDocs
  ModelRpc ProofTextEx ProofDocs2.
Local Open Scope string_scope.
Local Open Scope list_scope.
Local Open Scope Z_scope.

(** *** C96 *)
(** What is read is settled by the characters consumed, whatever comes after them. *)
Theorem C96_exactly : forall L F s v r, parse_source L F s = Ok (v, r) -> cur r <> Some (-1) ->
  exists t, s = t ++ src r /\ forall e, parse_source L F (t ++ e) = Ok (v, mkR e (cur r)).
Proof. exact reads_exactly. Qed.
Print Assumptions C96_exactly.

(** One character more than the document is consumed exactly if the document begins as a
    number does. *)
Theorem C96_ahead : forall L F s v r, Forall source_char s -> parse_source L F s = Ok (v, r) ->
  exists w c rest, s = w ++ c :: rest /\ spaces w /\ ~ space c /\ (cur r <> None <-> number_start c).
Proof. exact looks_ahead. Qed.
Print Assumptions C96_ahead.

(** Calls of [Value::parse] on one source cut it into pieces, and pieces are read by such
    calls.  [-1] is the end of the source. *)
Theorem C96_calls : forall L F n s vs rest, Forall source_char s -> ~ In (-1) s ->
  parse_calls L F n s = Ok (vs, rest) -> pieces L F vs s rest /\ length vs = n.
Proof. exact calls_pieces. Qed.
Print Assumptions C96_calls.

Theorem C96_back : forall L F vs s rest, pieces L F vs s rest -> parse_calls L F (length vs) s = Ok (vs, rest).
Proof. exact pieces_calls. Qed.
Print Assumptions C96_back.

(** Values written one after another, at least one white space after each number, are read
    back in order; then only white space is left. *)
Theorem C96_written : forall L E F sg utf8 docs w0, precise F = false -> ws w0 ->
  Forall (fun m => doc_ok utf8 (fst m) /\ ws (snd m) /\ (numeric (fst m) -> snd m <> [])) docs ->
  exists vs rest,
    parse_calls L F (length docs) (w0 ++ written (fun v => map (as_source sg) (ser E utf8 v)) docs) = Ok (vs, rest) /\
    Forall2 same_json (map fst docs) vs /\ ws rest.
Proof. exact read_written. Qed.
Print Assumptions C96_written.

(** And the next call throws. *)
Theorem C96_end : forall L F s, spaces s -> parse_call L F s = Err.
Proof. exact nothing_left. Qed.
Print Assumptions C96_end.

(** A [Parser] used again goes on where it stopped, the loaded character included. *)
Theorem C96_parser : forall L F r s, at_pos r s -> parser_call L F r = parse_source L F s.
Proof. exact same_parser. Qed.
Print Assumptions C96_parser.

(** So it needs no white space where the text after a number does not extend it. *)
Theorem C96_parser_written : forall L E F sg utf8 docs w0 r, precise F = false -> ws w0 ->
  Forall (fun m => doc_ok utf8 (fst m) /\ ws (snd m)) docs ->
  separate (fun v => map (as_source sg) (ser E utf8 v)) docs ->
  at_pos r (w0 ++ written (fun v => map (as_source sg) (ser E utf8 v)) docs) ->
  exists vs r' rest, parser_calls L F (length docs) r = Ok (vs, r') /\
    Forall2 same_json (map fst docs) vs /\ at_pos r' rest /\ ws rest.
Proof. exact read_one_parser. Qed.
Print Assumptions C96_parser_written.

(** Calls of [Value::parse] do: after a number one character is lost. *)
Theorem C96_adjacent_refuted : exists docs, Forall (fun m => doc_ok true (fst m) /\ ws (snd m)) docs /\
  separate (ser ser0 true) docs /\ written (ser ser0 true) docs = txt "1[2]" /\
  forall L, parse_calls L (mkPF false false) (length docs) (txt "1[2]")
    = Ok ([VNum (NUInt 1); VNum (NUInt 2)], []) /\
  exists r, parser_calls L (mkPF false false) (length docs) (mkR (txt "1[2]") None)
    = Ok ([VNum (NUInt 1); VArr [([], VNum (NUInt 2))]], r).
Proof.
  exists [(VNum (NUInt 1), []); (VArr [([], VNum (NUInt 2))], [])].
  split; [repeat constructor; cbn; lia|]. split; [vm_compute; intuition congruence|]. split; [reflexivity|].
  intros L. split; [vm_compute; reflexivity|]. eexists. vm_compute. reflexivity.
Qed.
Print Assumptions C96_adjacent_refuted.

(** [7 {"a":true}null-8 ], the numbers with a blank after them. *)
Example C96_case : Forall (fun m => doc_ok true (fst m) /\ ws (snd m) /\ (numeric (fst m) -> snd m <> []))
  [(VNum (NUInt 7), [32]); (VObj false [(txt "a", VBool true)], []); (VNull, []); (VNum (NInt (-8)), [32])].
Proof.
  repeat constructor; cbn; try lia; try discriminate; try contradiction.
  all: try (exists [97]; split; [repeat constructor; cbn; lia|reflexivity]).
Qed.
Example C96_case_text :
  written (ser ser0 true) [(VNum (NUInt 7), [32]); (VObj false [(txt "a", VBool true)], []); (VNull, []); (VNum (NInt (-8)), [32])]
  = txt "7 {""a"":true}null-8 ".
Proof. vm_compute. reflexivity. Qed.
Example C96_case_read : forall L,
  parse_calls L (mkPF false false) 4 (txt "7 {""a"":true}null-8" ++ [10; 32])
  = Ok ([VNum (NUInt 7); VObj false [(txt "a", VBool true)]; VNull; VNum (NInt (-8))], [32]).
Proof. intros L. vm_compute. reflexivity. Qed.
(** A document which does not begin as a number leaves what follows alone. *)
Example C96_case_ahead : forall L,
  parse_source L (mkPF false false) (txt "[12]x") = Ok (VArr [([], VNum (NUInt 12))], mkR (txt "x") None).
Proof. intros L. vm_compute. reflexivity. Qed.
