(** C01: UTF-8 conversion. *)
From Verif Require Import Base ModelUtf8 SpecUtf8 ProofUtf8.
Local Open Scope Z_scope.

(** The encoder emits the standard UTF-8 bytes for each code point. *)
Theorem C01_encoder_emits_standard_utf8 : forall cs,
  Forall is_cp cs -> wide_to_utf8 cs = utf8_encode cs.
Proof. exact wide_to_utf8_spec. Qed.
Print Assumptions C01_encoder_emits_standard_utf8.

(** Decoding what the encoder wrote gives the same code points, whether the
    byte source delivers signed or unsigned chars. *)
Theorem C01_utf8_round_trip : forall sg cs,
  Forall is_cp cs ->
  snd (utf8_to_wide u_init (map (as_source sg) (wide_to_utf8 cs))) = cs.
Proof. exact wide_utf8_roundtrip. Qed.
Print Assumptions C01_utf8_round_trip.

(** The decoder keeps its state between calls, so input may be supplied in
    blocks cut anywhere, also inside a sequence. *)
Theorem C01_decoder_resumable : forall a b st,
  Forall (fun c => c <> -1) a ->
  utf8_to_wide st (a ++ b) =
  let '(st1, o1) := utf8_to_wide st a in
  let '(st2, o2) := utf8_to_wide st1 b in (st2, o1 ++ o2).
Proof. exact utf8_to_wide_app. Qed.
Print Assumptions C01_decoder_resumable.

Example C01_case :
  Forall is_cp [0x41; 0; 0x7FF; 0x800; 0xFFFF; 0x10000; 0x10FFFF] /\
  wide_to_utf8 [0x41; 0; 0x7FF; 0x800; 0x10FFFF] =
    [0x41; 0; 0xDF; 0xBF; 0xE0; 0xA0; 0x80; 0xF4; 0x8F; 0xBF; 0xBF] /\
  utf8_to_wide u_init [0xE0; 0xA0] = (mkU 0x20 1, []) /\
  utf8_to_wide (mkU 0x20 1) [0x80] = (mkU 0x800 0, [0x800]).
Proof. unfold is_cp. repeat split; try reflexivity. repeat constructor; lia. Qed.
