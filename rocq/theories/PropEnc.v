(** C23 to C26: binary encodings. *)
From Verif Require Import Base ModelUtf8 SpecUtf8 ModelValue ModelEnc SpecEnc ProofEnc.
Local Open Scope Z_scope.

(** C23.  The text is that of RFC 4648 and decodes to the same bytes. *)
Theorem C23_base64_round_trip : forall s, is_bytes s -> exists t, encode_value EncBase64 s = VStr None t /\ t = b64_text false true s /\
  get_binary EncBase64 (VStr None t) = Some s.
Proof. exact base64_value. Qed.
Print Assumptions C23_base64_round_trip.

(** C23.  Alphabet, padding, length. *)
Theorem C23_base64_shape : forall s, is_bytes s -> exists body,
  concat (encode_chunks EncBase64 s) = body ++ repeat 61 ((length s + 2) / 3 * 3 - length s) /\ Forall b64_letter body /\
  (length (concat (encode_chunks EncBase64 s)) = 4 * ((length s + 2) / 3))%nat.
Proof. exact b64_shape. Qed.
Print Assumptions C23_base64_shape.

(** C23.  A text whose length is not a multiple of four decodes to the empty
    string. *)
Theorem C23_base64_bad_length : forall t, (length t mod 4 <> 0)%nat -> decode_value EncBase64 t = Some (VStr None []).
Proof. exact (fun t H => f_equal Some (base64_bad_length t H)). Qed.
Print Assumptions C23_base64_bad_length.

(** C23, C24.  Neither loop leaves its buffer: 256 bytes for the encoder, the
    length of the text for the decoder. *)
Theorem C23_buffers : forall url tail s t,
  Forall (fun c => (length c <= 256)%nat) (b64_encode_core url tail s) /\
  (length (b64_decoder_core url t) <= length t)%nat.
Proof. exact (fun url tail s t => conj (b64_encode_chunks url tail s) (decoder_core_length url t)). Qed.
Print Assumptions C23_buffers.

(** C23-C26.  A decoded value gives its bytes under any encoding: it is not
    decoded again. *)
Theorem C23_decoded_once : forall e e' s, is_bytes s ->
  exists t v, encode_value e s = VStr None t /\ decode_value e t = Some v /\ get_binary e' v = Some s.
Proof. exact decoded_once. Qed.
Print Assumptions C23_decoded_once.

Example C23_case : is_bytes [102; 111; 111; 98; 97] /\
  encode_value EncBase64 [102; 111; 111; 98; 97] = VStr None [90; 109; 57; 118; 89; 109; 69; 61] /\
  b64_decode [90; 109; 57; 118; 89; 109; 69; 61] = VStr (Some EncBase64) [102; 111; 111; 98; 97].
Proof. split; [repeat constructor; unfold is_byte; lia|]. split; vm_compute; reflexivity. Qed.

(** C24. *)
Theorem C24_base64url_round_trip : forall s, is_bytes s -> exists t, encode_value EncBase64Url s = VStr None t /\ t = b64_text true false s /\
  get_binary EncBase64Url (VStr None t) = Some s.
Proof. exact base64url_value. Qed.
Print Assumptions C24_base64url_round_trip.
Theorem C24_base64url_letters : forall s, is_bytes s -> Forall b64url_letter (concat (encode_chunks EncBase64Url s)).
Proof. exact b64url_letters. Qed.
Print Assumptions C24_base64url_letters.
(** The decoded value does not remember base64url: it is tagged with base64. *)
Theorem C24_decoded_tag : forall s, is_bytes s -> 
  decode_value EncBase64Url (b64_text true false s) = Some (VStr (Some EncBase64) s).
Proof. exact base64url_retag. Qed.
Print Assumptions C24_decoded_tag.
Example C24_case : is_bytes [251; 255] /\ encode_value EncBase64Url [251; 255] = VStr None [45; 95; 56] /\
  b64url_decode [45; 95; 56] = VStr (Some EncBase64) [251; 255].
Proof. split; [repeat constructor; unfold is_byte; lia|]. split; vm_compute; reflexivity. Qed.

(** C25. *)
Theorem C25_url_round_trip : forall s, is_bytes s -> exists t, encode_value EncUrl s = VStr None t /\ percent s t /\
  get_binary EncUrl (VStr None t) = Some s.
Proof. exact url_value. Qed.
Print Assumptions C25_url_round_trip.
(** The size computed before decoding is the number of bytes written, for any
    text. *)
Theorem C25_decoded_size : forall t, is_bytes t -> let '(o, cut) := url_decode_loop t in
  length o = (if cut then url_count t 0 - 1 else url_count t 0)%nat /\ (cut = true -> url_count t 0 <> 0%nat).
Proof. exact url_decode_size. Qed.
Print Assumptions C25_decoded_size.
(** Texts the encoder does not write itself: + for a space, digits of either
    case. *)
Theorem C25_form_text : forall t s, form_text t s -> decode_value EncUrl t = Some (VStr (Some EncUrl) s).
Proof. exact url_decode_form. Qed.
Print Assumptions C25_form_text.
Example C25_form_case : form_text [97; 43; 37; 52; 97; 37; 52; 65] [97; 32; 74; 74].
Proof.
  apply F_plain; [lia|lia|]. apply F_plus. apply (F_hex 52 97 4 10); [apply (Hex_digit 4); lia|apply (Hex_lower 10); lia|].
  apply (F_hex 52 65 4 10); [apply (Hex_digit 4); lia|apply (Hex_upper 10); lia|]. constructor.
Qed.

Example C25_case : is_bytes [97; 32; 0; 255; 43; 126] /\
  encode_value EncUrl [97; 32; 0; 255; 43; 126] = VStr None [97; 37; 50; 48; 37; 48; 48; 37; 70; 70; 37; 50; 66; 126] /\
  url_decode [97; 43; 37; 50; 48; 37; 52] = VStr (Some EncUrl) [97; 32; 32].
Proof. split; [repeat constructor; unfold is_byte; lia|]. split; vm_compute; reflexivity. Qed.

(** C26.  Both forms of the encoder give the UTF-8 text of the bytes taken as
    code points, and decoding restores them. *)
Theorem C26_utf8_round_trip : forall s, is_bytes s -> exists t, encode_value EncUtf8 s = VStr None t /\ utf8_encode_value s = VStr None t /\
  t = utf8_encode s /\ get_binary EncUtf8 (VStr None t) = Some s.
Proof. exact utf8_value. Qed.
Print Assumptions C26_utf8_round_trip.
(** Decoding any valid UTF-8 text gives the code points modulo 256. *)
Theorem C26_valid_text : forall cs, Forall is_cp cs -> decode_value EncUtf8 (utf8_encode cs) = Some (VStr (Some EncUtf8) (map (fun c => c mod 256) cs)).
Proof. exact utf8_decode_valid. Qed.
Print Assumptions C26_valid_text.
(** On text that is not valid UTF-8 the two passes may disagree, so the buffer
    overflows: the converter keeps its state between them. *)
Theorem C26_invalid_text_refuted : exists t, is_bytes t /\ decode_value EncUtf8 t = None.
Proof. exact utf8_overflow. Qed.
Print Assumptions C26_invalid_text_refuted.
Example C26_case : is_bytes [65; 0; 255] /\ encode_value EncUtf8 [65; 0; 255] = VStr None [65; 0; 195; 191] /\
  utf8_decode [65; 0; 195; 191] = Some (VStr (Some EncUtf8) [65; 0; 255]).
Proof. split; [repeat constructor; unfold is_byte; lia|]. split; vm_compute; reflexivity. Qed.
