(** C27, C65, C66, C106: compression of texts. *)
From Coq Require Import Lia ZifyBool.
From Verif Require Import Base SpecUtf8 ModelKeyed SpecKeyed ModelValue ModelText SpecText ModelCompress SpecCompress ProofCompress2 ProofCompress3 ProofCompress4 ProofCompress5 ProofCompress6 ProofTextEx.
Local Open Scope Z_scope.
Local Open Scope list_scope.

(** *** C27 *)
(** Every text of printable characters, of any length, is compressed, and the
    decompressor gives back its bytes and then the end mark. *)
Theorem C27_round_trip : forall ext, mask ext -> forall t, printable t ->
  exists o d, compress_all ext t = COk o /\ decompress_calls ext (S (length t)) d_init o = COk (t ++ [255], d, []).
Proof. exact round_trip. Qed.
Print Assumptions C27_round_trip.

(** UTF-8 texts without control characters are such texts. *)
Theorem C27_utf8_printable : forall cs, Forall is_cp cs -> Forall (fun c => 32 <= c) cs -> printable (utf8_encode cs).
Proof. exact utf8_printable. Qed.
Print Assumptions C27_utf8_printable.

(** What is written are bytes. *)
Theorem C27_bytes : forall ext t o, compress_all ext t = COk o -> Forall is_byte o.
Proof. exact all_bytes. Qed.
Print Assumptions C27_bytes.

(** A document packed and unpacked has the same content. *)
Theorem C27_document : forall ext, mask ext -> forall L E F utf8 v, precise F = false -> doc_ok utf8 v ->
  exists o t d v' r, compress_all ext (ser E utf8 v) = COk o /\
    decompress_calls ext (S (length (ser E utf8 v))) d_init o = COk (t ++ [255], d, []) /\
    parse_source L F (map schar (t ++ [255])) = Ok (v', r) /\ same_json v v'.
Proof. exact packed_document. Qed.
Print Assumptions C27_document.

(** A control character, or a byte no character starts with, is refused wherever
    a character should start. *)
Theorem C27_refuses : forall ext, mask ext -> forall t b t', printable t -> stray b -> compress_all ext (t ++ b :: t') = CThrow.
Proof. exact stray_throws. Qed.
Print Assumptions C27_refuses.

(** Not so within a character: some broken texts are compressed without complaint
    and come back changed. *)
Theorem C27_broken_text_refuted : exists t o l d, Forall is_byte t /\ compress_all 128 t = COk o /\
  decompress_calls 128 (length t) d_init o = COk (l, d, [255; 255]) /\ l <> t.
Proof.
  exists [195; 40], [1; 3; 40; 255; 255], [195; 168]. eexists. split; [repeat constructor; unfold is_byte; lia|].
  split; [vm_compute; reflexivity|]. split; [vm_compute; reflexivity|discriminate].
Qed.
Print Assumptions C27_broken_text_refuted.

Example C27_case : mask 128 /\ printable [97; 98; 97; 98; 97; 98; 97; 195; 169; 32] /\
  compress_all 128 [97; 98; 97; 98; 97; 98; 97; 195; 169; 32] = COk [71; 72; 102; 104; 1; 3; 41; 6; 255; 255].
Proof.
  split; [left; reflexivity|]. split; [|vm_compute; reflexivity].
  do 7 (apply pr_plain; [lia|]). apply (pr_seq 195 [169] [32]); [left; split; [lia|reflexivity]|repeat constructor; lia|]. apply pr_plain; [lia|constructor].
Qed.
Example C27_document_case : doc_ok true doc1.
Proof. exact (proj1 doc1_ok). Qed.

(** *** C65 *)
(** Whatever the bytes, every call of the decompressor ends. *)
Theorem C65_ends : forall ext, mask ext -> forall n inp, Forall is_byte inp -> decompress_calls ext n d_init inp <> CFuel.
Proof. exact calls_end. Qed.
Print Assumptions C65_ends.

(** What a code does when no symbols are waiting, whatever was read before.  The
    dictionary holds the codes from 102 on, [102 + length] is the next one
    to be given.  Above it: an exception. *)
Theorem C65_code_above : forall ext, mask ext -> forall s inp cc rest, reached ext s -> ds_ready s = [] -> read_code ext inp = (cc, rest) ->
  cc <> flush_code ext -> cc <> optimize_code ext -> Z.of_nat (length (ds_db s)) < 2 ^ 31 -> 102 + Z.of_nat (length (ds_db s)) < cc ->
  decompress_one ext s inp = CThrow.
Proof. exact code_above. Qed.
Print Assumptions C65_code_above.
(** A code given before: symbols, with an entry more if a code came before. *)
Theorem C65_code_known : forall ext, mask ext -> forall s inp cc rest, reached ext s -> ds_ready s = [] -> read_code ext inp = (cc, rest) ->
  cc <> flush_code ext -> cc <> optimize_code ext -> Z.of_nat (length (ds_db s)) < 2 ^ 31 -> 0 <= cc < 102 + Z.of_nat (length (ds_db s)) ->
  exists c s', decompress_one ext s inp = COk (Some c, s', rest) /\ ds_prev s' = cc /\
    length (ds_db s') = if ds_prev s =? initial_code then length (ds_db s) else S (length (ds_db s)).
Proof. exact code_known. Qed.
Print Assumptions C65_code_known.
(** The code to be given next: symbols when a code came before, and otherwise an
    access out of range. *)
Theorem C65_code_next : forall ext, mask ext -> forall s inp cc rest, reached ext s -> ds_ready s = [] -> read_code ext inp = (cc, rest) ->
  cc <> flush_code ext -> cc <> optimize_code ext -> Z.of_nat (length (ds_db s)) < 2 ^ 31 -> cc = 102 + Z.of_nat (length (ds_db s)) ->
  (ds_prev s <> initial_code -> exists c s', decompress_one ext s inp = COk (Some c, s', rest) /\ ds_prev s' = cc /\ length (ds_db s') = S (length (ds_db s))) /\
  (ds_prev s = initial_code -> decompress_one ext s inp = CBad).
Proof. exact code_next. Qed.
Print Assumptions C65_code_next.

(** So there are inputs that make it read out of range: the byte 102 at the start. *)
Theorem C65_safe_refuted : exists inp, Forall is_byte inp /\ decompress_calls 128 1 d_init inp = CBad.
Proof. exists [102]. split; [repeat constructor; unfold is_byte; lia|exact byte_102]. Qed.
Print Assumptions C65_safe_refuted.

Example C65_case : reached 128 (mkDS [mkDI 71 None 72 false] [] 72 72 [] 0) /\
  decompress_calls 128 2 d_init [71; 72] = COk ([97; 98], mkDS [mkDI 71 None 72 false] [] 72 72 [] 0, []) /\ decompress_calls 128 3 d_init [71; 72; 104] = CThrow.
Proof.
  split; [|split; vm_compute; reflexivity]. exists 2%nat, [71; 72], [97; 98], []. split; [repeat constructor; unfold is_byte; lia|vm_compute; reflexivity].
Qed.

(** *** C66 *)
(** Texts compressed one by one and stored one after the other, none of them long
    enough to fill the dictionary: a single decompressor gives them all back,
    each followed by the end mark. *)
Theorem C66_short_streams : forall ext, mask ext -> forall ts,
  Forall (fun t => printable t /\ t <> [] /\ 2 * Z.of_nat (length t) + 102 <= (255 - ext) * 256 + 253 + ext) ts ->
  exists os d, Forall2 (fun t o => compress_all ext t = COk o) ts os /\
    decompress_calls ext (length (flat_map (fun t => t ++ [255]) ts)) d_init (concat os) = COk (flat_map (fun t => t ++ [255]) ts, d, []).
Proof. exact short_streams. Qed.
Print Assumptions C66_short_streams.

(** In general this fails, as the codes noted for the next dictionary are not
    dropped at the end of a stream. *)
Definition some_text (a n : nat) : bytes := map (fun i => 33 + (Z.of_nat i / 7 * (Z.of_nat i mod 5 + 3)) mod 23) (seq a n).
Theorem C66_streams_refuted : exists t1 t2 o1 o2 l d r, Forall (fun b => 32 <= b < 128) t1 /\ Forall (fun b => 32 <= b < 128) t2 /\
  compress_all 255 t1 = COk o1 /\ compress_all 255 t2 = COk o2 /\
  decompress_calls 255 (length (t1 ++ [255] ++ t2 ++ [255])) d_init (o1 ++ o2) = COk (l, d, r) /\ l <> t1 ++ [255] ++ t2 ++ [255].
Proof.
  exists (some_text 0 10), (some_text 5 1500).
  assert (G : forall a n, Forall (fun b => 32 <= b < 128) (some_text a n)).
  { intros a n. unfold some_text. apply Forall_map. apply Forall_forall. intros x _. pose proof (Z.mod_pos_bound (Z.of_nat x / 7 * (Z.of_nat x mod 5 + 3)) 23). lia. }
  destruct (streams_differ_spec 255 (some_text 0 10) (some_text 5 1500)) as (o1 & o2 & l & d & r & H); [vm_compute; reflexivity|].
  exists o1, o2, l, d, r. split; [apply G|]. split; [apply G|]. exact H.
Qed.
Print Assumptions C66_streams_refuted.

Example C66_case : mask 128 /\ (255 - 128) * 256 + 253 + 128 = 32893 /\ printable [104; 105] /\ printable [195; 169].
Proof.
  split; [left; reflexivity|]. split; [reflexivity|]. split.
  - apply pr_plain; [lia|]. apply pr_plain; [lia|constructor].
  - apply (pr_seq 195 [169] []); [left; split; [lia|reflexivity]|repeat constructor; lia|constructor].
Qed.

(** *** C106 *)
(** A compressor used for whole texts and then reset compresses a text not long
    enough to fill the dictionary as a new one does, and the text comes back. *)
Theorem C106_short : forall ext, mask ext -> forall s t, used ext s -> printable t -> 2 * Z.of_nat (length t) + 102 <= (255 - ext) * 256 + 253 + ext ->
  exists s' o d, compress_text ext t (c_reset s) = COk (s', o) /\ compress_all ext t = COk (o ++ compress_end ext s') /\
    decompress_calls ext (S (length t)) d_init (o ++ compress_end ext s') = COk (t ++ [255], d, []).
Proof. exact reset_again. Qed.
Print Assumptions C106_short.

(** Not so for a longer text: the codes noted for the next dictionary are those of
    the text before the reset too, and the decompressor, which knows nothing of
    that text, throws. *)
Theorem C106_long_refuted : exists t1 t2 s o1 s' o, Forall (fun b => 32 <= b < 128) t1 /\ Forall (fun b => 32 <= b < 128) t2 /\
  compress_text 255 t1 c_init = COk (s, o1) /\ compress_text 255 t2 (c_reset s) = COk (s', o) /\
  decompress_calls 255 (length t2) d_init (o ++ compress_end 255 s') = CThrow.
Proof.
  exists (some_text 0 10), (some_text 5 1500).
  assert (G : forall a n, Forall (fun b => 32 <= b < 128) (some_text a n)).
  { intros a n. unfold some_text. apply Forall_map. apply Forall_forall. intros x _. pose proof (Z.mod_pos_bound (Z.of_nat x / 7 * (Z.of_nat x mod 5 + 3)) 23). lia. }
  destruct (reset_fails_spec 255 (some_text 0 10) (some_text 5 1500)) as (s & o1 & s' & o & H); [vm_compute; reflexivity|].
  exists s, o1, s', o. split; [apply G|]. split; [apply G|]. exact H.
Qed.
Print Assumptions C106_long_refuted.

(** After a text that breaks off within a character the reset leaves the rest of
    the character expected: the next text is refused, or changed. *)
Theorem C106_within_refuted : exists t s o1, compress_text 128 [195] c_init = COk (s, o1) /\ printable t /\ compress_text 128 t (c_reset s) = CThrow.
Proof.
  exists [104; 105]. do 2 eexists. split; [vm_compute; reflexivity|]. split; [apply pr_plain; [lia|]; apply pr_plain; [lia|constructor]|vm_compute; reflexivity].
Qed.
Print Assumptions C106_within_refuted.

(** The text before the reset is not all written: its last code, and the mark of
    the end, are dropped, as the reset writes nothing. *)
Theorem C106_lost_refuted : exists t s o d r, printable t /\ compress_text 128 t c_init = COk (s, o) /\
  decompress_calls 128 (length t) d_init o = COk ([104; 255], d, r) /\ t = [104; 105].
Proof.
  exists [104; 105]. do 4 eexists. split; [apply pr_plain; [lia|]; apply pr_plain; [lia|constructor]|]. split; [vm_compute; reflexivity|]. split; [vm_compute; reflexivity|reflexivity].
Qed.
Print Assumptions C106_lost_refuted.

Example C106_case : exists s, used 128 s /\ cs_ndb s <> [] /\ compress_text 128 [97; 98; 97; 98] (c_reset s) = COk (mkCS [((71, 72), mkSI 102 (Some 103) true); ((72, 71), mkSI 103 None false)] 104 102 (Some 103) 0 (cs_ndb s) 104, [71; 72]).
Proof.
  eexists. split.
  - apply (used_text 128 c_init [97; 98; 97; 98] _ [71; 72] (used_new 128)); [do 4 (apply pr_plain; [lia|]); constructor|vm_compute; reflexivity].
  - split; [discriminate|vm_compute; reflexivity].
Qed.
