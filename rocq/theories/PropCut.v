(** C113, C114: texts that break off. *)
From Coq Require Import Lia ZifyBool String.
From Verif Require Import Base SpecUtf8 ModelKeyed ModelValue ModelText SpecText SpecAccept SpecDocs ModelCompress SpecCompress ModelRpc ProofCut ProofUnclosed ProofTextEx.
Local Open Scope list_scope.
Local Open Scope Z_scope.

(** *** C113 *)
(** What a compressor has written before it is closed gives the beginning of the text, never
    the whole, and then end marks for ever; also if it breaks off within a character. *)
Theorem C113_unclosed : forall ext, mask ext -> forall t, printable t ->
  exists s o t1 t2, compress_text ext t c_init = COk (s, o) /\ t = t1 ++ t2 /\ (t <> [] -> t2 <> []) /\
  forall n, exists d i, decompress_calls ext (List.length t1 + n) d_init o = COk (t1 ++ repeat 255 n, d, i).
Proof. exact unclosed. Qed.
Print Assumptions C113_unclosed.

(** So a document packed without closing the compressor is refused when it is read back. *)
Theorem C113_document : forall ext, mask ext -> forall L E F utf8 v, precise F = false -> doc_ok utf8 v -> ~ numeric v ->
  exists s o t, compress_text ext (ser E utf8 v) c_init = COk (s, o) /\
    forall n, exists d i, decompress_calls ext (List.length t + n) d_init o = COk (t ++ repeat 255 n, d, i) /\
      parse_source L F (map schar (t ++ repeat 255 n)) = Err.
Proof. exact unclosed_document. Qed.
Print Assumptions C113_document.

(** A compressed text cut anywhere may give characters that were not there: the missing
    second byte of a code is taken as 255. *)
Definition long_text (a n : nat) : bytes := map (fun i => 33 + (Z.of_nat i / 7 * (Z.of_nat i mod 5 + 3)) mod 23) (seq a n).
Theorem C113_anywhere_refuted : exists t o o1 o2 l d i n, Forall (fun b => 32 <= b < 128) t /\ compress_all 128 t = COk o /\ o = o1 ++ o2 /\
  decompress_calls 128 n d_init o1 = COk (l, d, i) /\ ~ In 255 l /\ (forall t', t <> l ++ t').
Proof.
  exists (long_text 5 700). destruct (goes_wrong_spec 128 (long_text 5 700) 542 687) as (o & o1 & o2 & l & d & i & H); [vm_compute; reflexivity|].
  exists o, o1, o2, l, d, i, 687%nat. split; [|exact H].
  apply Forall_map. apply Forall_forall. intros x _. pose proof (Z.mod_pos_bound (Z.of_nat x / 7 * (Z.of_nat x mod 5 + 3)) 23). lia.
Qed.
Print Assumptions C113_anywhere_refuted.

Example C113_case : mask 128 /\ printable [97; 98; 97; 98; 195; 169] /\
  (exists s, compress_text 128 [97; 98; 97; 98; 195; 169] c_init = COk (s, [71; 72; 102; 1; 3])) /\
  (exists d, decompress_calls 128 7 d_init [71; 72; 102; 1; 3] = COk ([97; 98; 97; 98; 195; 255; 255], d, [])).
Proof.
  split; [left; reflexivity|]. split.
  { do 4 (apply pr_plain; [lia|]). apply (pr_seq 195 [169] []); [left; split; [lia|reflexivity]|repeat constructor; lia|constructor]. }
  split; eexists; vm_compute; reflexivity.
Qed.

(** *** C114 *)
(** Where a text is read to its last character as a value that is not written as a number, no
    shorter part of it is a document. [-1] is what a source delivers at its end. *)
Theorem C114_cut : forall L F t v, Forall source_char t -> parse_source L F t = Ok (v, mkR [] None) ->
  forall t1 t2 n, t = t1 ++ t2 -> t2 <> [] -> parse_source L F (t1 ++ repeat (-1) n) = Err.
Proof. exact cut_short. Qed.
Print Assumptions C114_cut.

Theorem C114_written : forall L E F sg utf8 v, precise F = false -> doc_ok utf8 v -> ~ numeric v ->
  forall t1 t2 n, ser E utf8 v = t1 ++ t2 -> t2 <> [] -> parse_source L F (map (as_source sg) t1 ++ repeat (-1) n) = Err.
Proof. exact written_cut. Qed.
Print Assumptions C114_written.

(** A number cut short is another number. *)
Theorem C114_numbers_refuted : exists v t1 t2, doc_ok true v /\ ser ser0 true v = t1 ++ t2 /\ t2 <> [] /\
  forall L, exists r, parse_source L (mkPF false false) t1 = Ok (VNum (NUInt 12), r) /\ v = VNum (NUInt 123).
Proof.
  exists (VNum (NUInt 123)), (txt "12"), (txt "3"). split; [constructor; lia|]. split; [vm_compute; reflexivity|]. split; [discriminate|].
  intros L. eexists. split; [vm_compute; reflexivity|reflexivity].
Qed.
Print Assumptions C114_numbers_refuted.

Example C114_case : forall L, Forall source_char [32; 123; 34; 97; 34; 58; 91; 49; 44; 123; 125; 93; 125] /\
  parse_source L (mkPF false false) [32; 123; 34; 97; 34; 58; 91; 49; 44; 123; 125; 93; 125]
    = Ok (VObj false [([97], VArr [([], VNum (NUInt 1)); ([], VObj false [])])], mkR [] None) /\
  ser ser0 true (VObj false [([97], VArr [([], VNum (NUInt 1)); ([], VObj false [])])]) = [123; 34; 97; 34; 58; 91; 49; 44; 123; 125; 93; 125].
Proof. intros L. split; [repeat constructor; lia|]. split; vm_compute; reflexivity. Qed.
