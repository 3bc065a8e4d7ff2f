(** C134, documents with floating point numbers. *)
From Coq Require Import ZArith Reals Lra Lia Floats.SpecFloat.
From Verif Require Import Base SpecUtf8 SpecCompress ModelValue ModelKeyed SpecKeyed ModelText SpecText ModelStreams ModelCompress ModelTools SpecDouble ProofDoubleEx ProofDoubleLem ProofTools3.
Local Open Scope Z_scope.
Local Open Scope list_scope.

(** What jsonpack wrote is written by jsonunpack as a document of the same structure, integers
    and strings unchanged, other numbers within about half a unit of the last digit written. *)
Theorem C134_doubles : forall L E digits s v, good_libm L -> doubles_by L digits E -> (3 <= digits)%nat -> from_stream L (mkPF false false) s = Ok v ->
  doc_of true (doc_number (fun x => x = 0%R \/ plain_range (Rabs x) \/ exp_range (Rabs x))) v ->
  exists o, json_pack L E s = Writes o /\
    forall n, (length (ser E true v) < n)%nat -> exists v', json_unpack L E n o = Writes (ser E true v') /\ like_json (reads_back digits) v v'.
Proof. exact pack_doubles. Qed.
Print Assumptions C134_doubles.

(** When no number needs an exponent the text is the same, and packing it gives the same file. *)
Theorem C134_doubles_same : forall L E digits s v, good_libm L -> doubles_by L digits E -> (3 <= digits)%nat -> from_stream L (mkPF false false) s = Ok v ->
  doc_of true (doc_number (fun x => x = 0%R \/ plain_range (Rabs x))) v ->
  exists o, json_pack L E s = Writes o /\
    (forall n, (length (ser E true v) < n)%nat -> json_unpack L E n o = Writes (ser E true v)) /\
    json_pack L E (ser E true v) = Writes o.
Proof. exact pack_doubles_same. Qed.
Print Assumptions C134_doubles_same.

(** A text that is not read gives status 1. *)
Theorem C134_pack_refused : forall L E s, from_stream L (mkPF false false) s = Err -> json_pack L E s = Fails.
Proof. exact pack_refused. Qed.
Print Assumptions C134_pack_refused.

(** Given what the compressor makes of any text of printable characters, jsonunpack does what the
    parser does with that text, and ends with status 1 if it is not read. *)
Theorem C134_unpack_text : forall L E t, printable t -> exists o, compress_all 128 t = COk o /\ forall n, (length t < n)%nat ->
  json_unpack L E n o = match from_stream L (mkPF false false) t with Ok v => Writes (ser E true v) | _ => Fails end.
Proof. exact unpack_text. Qed.
Print Assumptions C134_unpack_text.

(** jsonunbin ends with status 1 on a file that begins with a byte which is no tag. *)
Theorem C134_unbin_no_tag : forall J E b rest, b = 0 \/ 7 <= b < 15 -> json_unbin J E (b :: rest) = Fails.
Proof. exact unbin_no_tag. Qed.
Print Assumptions C134_unbin_no_tag.

(** Whatever the bytes, the run of jsonunpack is the same for all large numbers of calls. *)
Theorem C134_settles : forall L E inp, Forall is_byte inp -> exists N o, o <> Hangs /\ forall n, (N <= n)%nat -> json_unpack L E n inp = o.
Proof. exact unpack_settles. Qed.
Print Assumptions C134_settles.

Example C134_doubles_case : good_libm ref_libm /\ doubles_by ref_libm 9 ref_ser /\
  from_stream ref_libm (mkPF false false) text_sample = Ok back_sample /\
  doc_of true (doc_number (fun x => x = 0%R \/ plain_range (Rabs x))) back_sample /\
  ser ref_ser true back_sample = text_sample.
Proof.
  split; [exact ref_good|]. destruct sample_doc as (A & B & _ & _ & C). split; [exact A|]. split; [vm_compute; reflexivity|]. split; [|exact C].
  inversion B as [| | | | | |d l K F]; subst. constructor; [exact K|]. inversion F as [|x l' X F']; subst. constructor; [|exact F'].
  split; [exact (proj1 X)|]. destruct X as [_ X]. inversion X as [| | | | |l Y|]; subst. constructor.
  inversion Y as [|a1 l1 Y1 Z1]; subst. constructor; [exact Y1|]. inversion Z1 as [|a2 l2 Y2 Z2]; subst. constructor; [exact Y2|].
  inversion Z2 as [|a3 l3 Y3 Z3]; subst. constructor; [exact Y3|]. repeat constructor; cbn; lia.
Qed.
Example C134_refused_case : exists s, from_stream ref_libm (mkPF false false) s = Err.
Proof. exists [123]. vm_compute. reflexivity. Qed.
Example C134_settles_case : Forall is_byte [1; 2; 255] /\ forall L E, json_unpack L E 40 [] = Fails /\ json_unpack L E 41 [] = Fails.
Proof. split; [repeat constructor; unfold is_byte; lia|]. intros L E. split; vm_compute; reflexivity. Qed.
Example C134_unpack_text_case : printable [123; 125] /\ printable [123] /\
  forall L E, json_unpack L E 40 (match compress_all 128 [123; 125] with COk o => o | _ => [] end) = Writes [123; 125] /\
    json_unpack L E 40 (match compress_all 128 [123] with COk o => o | _ => [] end) = Fails.
Proof. split; [repeat (constructor; [lia|]); constructor|]. split; [repeat (constructor; [lia|]); constructor|]. intros L E. split; vm_compute; reflexivity. Qed.
