(** C02-C08, C47: JSON text.
    [L] stands for the libm results and [E] for the text of finite doubles and
    binary strings, which none of these properties depends on. *)
From Coq Require Import Sorted.
From Verif Require Import Base ModelUtf8 SpecUtf8 ModelKeyed SpecKeyed ModelValue ModelText SpecText
  ProofText1 ProofText4 ProofText5 ProofTextEx.
Local Open Scope Z_scope.

(** *** C02 *)
(** A valid UTF-8 string written in UTF-8 mode parses back to the same bytes,
    except exactly the two words reserved for infinity.  [sg] tells whether the
    byte source delivers signed or unsigned chars. *)
Theorem C02_string_round_trip_utf8 : forall L E F sg s w rest,
  text_ok true s -> ws w ->
  (parse_source L F (w ++ map (as_source sg) (ser E true (VStr None s)) ++ rest) =
     Ok (VStr None s, mkR rest None) <-> s <> word_inf /\ s <> word_neg_inf).
Proof. exact utf8_exact. Qed.
Print Assumptions C02_string_round_trip_utf8.

Example C02_case :
  text_ok true (utf8_encode [0; 9; 34; 92; 0x41; 0xE1; 0x2028; 0x20AC; 0x1F600]) /\
  ser ser0 true (VStr None (utf8_encode [0; 9; 34; 0x2028; 0x1F600])) =
    [34; 92;117;48;48;48;48; 92;116; 92;34; 92;117;50;48;50;56; 0xF0;0x9F;0x98;0x80; 34].
Proof. split; [|reflexivity]. eexists. split; [|reflexivity]. repeat constructor; discriminate. Qed.

(** *** C03 *)
(** Escaped output is printable ASCII (0x7F is passed through). *)
Theorem C03_escaped_output_ascii : forall E s,
  Forall (fun b => 32 <= b < 128) (ser E false (VStr None s)).
Proof. exact ser_string_ascii. Qed.
Print Assumptions C03_escaped_output_ascii.

(** The escaped form parses back to the same bytes exactly when no code point
    is above U+FFFF. *)
Theorem C03_string_round_trip_escaped : forall L E F sg cs w rest,
  Forall is_cp cs -> utf8_encode cs <> word_inf -> utf8_encode cs <> word_neg_inf -> ws w ->
  (parse_source L F (w ++ map (as_source sg) (ser E false (VStr None (utf8_encode cs))) ++ rest) =
     Ok (VStr None (utf8_encode cs), mkR rest None) <-> Forall (fun c => c <= 0xFFFF) cs).
Proof. exact escaped_exact. Qed.
Print Assumptions C03_string_round_trip_escaped.

(** The round trip for every valid string is false: U+1F600 comes back as
    U+F600. *)
Theorem C03_supplementary_planes_refuted : exists s, text_ok true s /\ s <> word_inf /\ s <> word_neg_inf /\
  forall L E F, parse_source L F (ser E false (VStr None s)) = Ok (VStr None (utf8_encode [0xF600]), mkR [] None) /\
  utf8_encode [0xF600] <> s.
Proof. exact escaped_refuted. Qed.
Print Assumptions C03_supplementary_planes_refuted.

Example C03_case :
  ser ser0 false (VStr None (utf8_encode [0x41; 0xE1; 0xFFFF])) =
    [34; 65; 92;117;48;48;69;49; 92;117;70;70;70;70; 34] /\
  Forall is_cp [0x41; 0xE1; 0xFFFF] /\ utf8_encode [0x41; 0xE1; 0xFFFF] <> word_inf.
Proof. split; [reflexivity|split; [repeat constructor; discriminate|discriminate]]. Qed.

(** *** C04 *)
(** Integers are written in shortest decimal form. *)
Theorem C04_integer_text : forall E utf8 n z,
  (n = NUInt z /\ 0 <= z < 2 ^ 64) \/ (n = NInt z /\ - 2 ^ 63 < z < 2 ^ 63) ->
  exists ds, ser E utf8 (VNum n) = (if z <? 0 then [45] else []) ++ ds /\
    ds <> [] /\ Forall digit_char ds /\ dec_value ds = Z.abs z /\
    (ds = [48] \/ hd 0 ds <> 48).
Proof. exact integer_text. Qed.
Print Assumptions C04_integer_text.

(** ... and parse back to an integer of the same value, stopping right after
    the last digit. *)
Theorem C04_integer_round_trip : forall L E F utf8 n z w rest,
  (n = NUInt z /\ 0 <= z < 2 ^ 64) \/ (n = NInt z /\ - 2 ^ 63 < z < 2 ^ 63) ->
  precise F = false -> ws w -> num_end rest ->
  exists n' r', parse_source L F (w ++ ser E utf8 (VNum n) ++ rest) = Ok (VNum n', r') /\
    int_of n' = Some z /\ at_pos r' rest.
Proof. exact integer_round_trip. Qed.
Print Assumptions C04_integer_round_trip.

Example C04_case : forall L,
  ser ser0 true (VNum (NUInt (2 ^ 64 - 1))) = [49;56;52;52;54;55;52;52;48;55;51;55;48;57;53;53;49;54;49;53] /\
  ser ser0 true (VNum (NInt (-(2 ^ 63 - 1)))) = [45;57;50;50;51;51;55;50;48;51;54;56;53;52;55;55;53;56;48;55] /\
  num_end [44] /\
  parse_source L (mkPF false false) [49;50;44] = Ok (VNum (NUInt 12), mkR [] (Some 44)).
Proof. intros L. split; [reflexivity|split; [reflexivity|split; [unfold num_end, digit_char; lia|reflexivity]]]. Qed.

(** *** C05 *)
(** A digit run below 2^64 (any length, any leading zeros) is read exactly. *)
Theorem C05_digits_exact : forall L F w ds rest,
  precise F = false -> ws w -> ds <> [] -> Forall digit_char ds -> dec_value ds < 2 ^ 64 -> num_end rest ->
  exists r', parse_source L F (w ++ ds ++ rest) = Ok (VNum (NUInt (dec_value ds)), r') /\ at_pos r' rest.
Proof. exact parse_source_digits. Qed.
Print Assumptions C05_digits_exact.

Theorem C05_negative_digits_exact : forall L F w ds rest,
  precise F = false -> ws w -> ds <> [] -> Forall digit_char ds -> dec_value ds < 2 ^ 63 -> num_end rest ->
  exists r', parse_source L F (w ++ 45 :: ds ++ rest) = Ok (VNum (int_num (- dec_value ds)), r') /\ at_pos r' rest.
Proof. exact parse_source_neg_digits. Qed.
Print Assumptions C05_negative_digits_exact.

(** A negative number whose magnitude needs 64 bits becomes the double of that
    magnitude with the sign changed. *)
Theorem C05_negative_large : forall L F w ds rest,
  precise F = false -> ws w -> ds <> [] -> Forall digit_char ds -> 2 ^ 63 <= dec_value ds < 2 ^ 64 -> num_end rest ->
  exists r', parse_source L F (w ++ 45 :: ds ++ rest) =
    Ok (VNum (NDbl (SFopp (f_of_Z (dec_value ds)))), r') /\ at_pos r' rest.
Proof. exact parse_source_neg_big_double. Qed.
Print Assumptions C05_negative_large.

Example C05_negative_case : 2 ^ 63 <= dec_value [57;57;57;57;57;57;57;57;57;57;57;57;57;57;57;57;57;57;57] < 2 ^ 64.
Proof. split; vm_compute; [discriminate|reflexivity]. Qed.

(** A larger one becomes a double, whatever follows: no integer but zero,
    which is what a double that an exponent brought to zero is held as. *)
Theorem C05_overflow_detected : forall L F w sgn ds rest v r',
  precise F = false -> ws w -> (sgn = [] \/ sgn = [43] \/ sgn = [45]) ->
  Forall digit_char ds -> 2 ^ 64 <= dec_value ds ->
  parse_source L F (w ++ sgn ++ ds ++ rest) = Ok (v, r') -> exists f, v = VNum (dbl_num f).
Proof. exact parse_source_overflow. Qed.
Print Assumptions C05_overflow_detected.

Example C05_case : forall L,
  dec_value [48;49;56;52;52;54;55;52;52;48;55;51;55;48;57;53;53;49;54;49;54] = 2 ^ 64 /\
  dec_value [48;49;56;52;52;54;55;52;52;48;55;51;55;48;57;53;53;49;54;49;53] = 2 ^ 64 - 1 /\
  exists f, parse_source (mkLibm (fun _ _ => f_ten) (lm_log10 L) (lm_strtod L)) (mkPF false false)
    [49;56;52;52;54;55;52;52;48;55;51;55;48;57;53;53;49;54;49;54] = Ok (VNum (NDbl f), mkR [] (Some (-1))).
Proof. intros L. split; [reflexivity|split; [reflexivity|]]. eexists. vm_compute. reflexivity. Qed.

(** *** C06 *)
Theorem C06_document_round_trip : forall L E F sg utf8 v w rest,
  precise F = false -> doc_ok utf8 v -> ws w -> num_end rest ->
  exists v' r', parse_source L F (w ++ map (as_source sg) (ser E utf8 v) ++ rest) = Ok (v', r') /\
    same_json v v' /\ at_pos r' rest.
Proof. exact document_round_trip. Qed.
Print Assumptions C06_document_round_trip.

Example C06_case : doc_ok true doc1 /\
  ser ser0 true doc1 = [123;34;97;34;58;91;49;44;110;117;108;108;44;34;92;110;34;44;45;55;93;44;34;98;34;58;123;125;125].
Proof. exact doc1_ok. Qed.

(** *** C07 *)
(** Every object in every successfully parsed document is sorted with unique
    keys. *)
Theorem C07_parsed_objects_sorted : forall L F s v r,
  parse_source L F s = Ok (v, r) -> all_sorted v.
Proof. exact parse_source_sorted. Qed.
Print Assumptions C07_parsed_objects_sorted.

(** A document (any JSON text, in either number mode) with a duplicate key in
    any of its objects is rejected unless duplicates were allowed. *)
Theorem C07_duplicates_rejected : forall L F sg v t w rest,
  allow_dup F = false ->
  jval any_number v t -> ws w -> num_end rest -> has_dup v ->
  parse_source L F (w ++ map (as_source sg) t ++ rest) = Err.
Proof. exact reject_dup. Qed.
Print Assumptions C07_duplicates_rejected.

(** With integers only, everything else is accepted, and the result is the
    document with its objects sorted. *)
Theorem C07_accepted_documents : forall L F sg v t w rest,
  precise F = false -> jval int_literal v t -> ws w -> num_end rest ->
  (allow_dup F = true \/ ~ has_dup v) ->
  exists v' r', parse_source L F (w ++ map (as_source sg) t ++ rest) = Ok (v', r') /\
    sorted_form v v' /\ at_pos r' rest.
Proof. exact parse_source_accepts. Qed.
Print Assumptions C07_accepted_documents.

Example C07_case : exists v, jval any_number v dup_text /\ has_dup v.
Proof. exact dup_text_ok. Qed.

(** *** C08 *)
(** False: four characters that are not hexadecimal digits are accepted. *)
Theorem C08_malformed_escape_refuted : exists a b c d,
  (forall x, ~ hex_char a x) /\ (forall x, ~ hex_char b x) /\ a <> 34 /\ a <> 92 /\ b <> 34 /\ b <> 92 /\
  forall L F, exists s, parse_source L F [34; 92; 117; a; b; c; d; 34] = Ok (VStr None s, mkR [] None).
Proof. exact malformed_refuted. Qed.
Print Assumptions C08_malformed_escape_refuted.

(** What does hold: any escape other than the eight letters and u is rejected
    wherever it stands in the literal. *)
Theorem C08_unknown_escape_rejected_partial : forall L F s b sg e w rest,
  jstr s b -> ws w -> e <> 117 -> (forall x, ~ In (e, x) escape_pairs) ->
  parse_source L F (w ++ 34 :: map (as_source sg) b ++ 92 :: e :: rest) = Err.
Proof. exact parse_bad_escape. Qed.
Print Assumptions C08_unknown_escape_rejected_partial.

Example C08_case : forall x, ~ In (120, x) escape_pairs.
Proof. exact escape_x. Qed.

(** *** C47 *)
(** In precise mode every number literal keeps its text, and the serialiser
    writes that text again. *)
Theorem C47_precise_text_kept : forall L E utf8 F t w rest,
  precise F = true -> number_text t -> ws w -> num_end rest ->
  exists n r', parse_source L F (w ++ t ++ rest) = Ok (VNum n, r') /\ at_pos r' rest /\
    ser E utf8 (VNum n) = t.
Proof. exact precise_text_kept. Qed.
Print Assumptions C47_precise_text_kept.

(** Integers that fit 64 bits are also held exactly. *)
Theorem C47_precise_integer_exact : forall L F k t w rest,
  precise F = true -> kind_literal k t -> ws w -> num_end rest ->
  exists r', parse_source L F (w ++ t ++ rest) = Ok (VNum (NPrec t k), r') /\ at_pos r' rest.
Proof. exact precise_integer_exact. Qed.
Print Assumptions C47_precise_integer_exact.

(** Integers just beyond the 64-bit range (by less than a tenth of it), and
    negative ones whose magnitude needs 64 bits, are recognised and held as
    precise doubles. *)
Theorem C47_precise_overflow_detected : forall L F sg ds w rest,
  precise F = true -> (sg = [] \/ sg = [45]) -> ds <> [] -> Forall digit_char ds ->
  2 ^ 64 <= dec_value ds < 2 ^ 64 + 2 ^ 64 / 10 \/ (sg = [45] /\ 2 ^ 63 <= dec_value ds < 2 ^ 64) ->
  ws w -> num_end rest ->
  exists r', parse_source L F (w ++ (sg ++ ds) ++ rest) = Ok (VNum (NPrec (sg ++ ds) PkDbl), r') /\ at_pos r' rest.
Proof. exact precise_parse_over. Qed.
Print Assumptions C47_precise_overflow_detected.

Example C47_overflow_case :
  2 ^ 64 <= dec_value [50;48;48;48;48;48;48;48;48;48;48;48;48;48;48;48;48;48;48;48] < 2 ^ 64 + 2 ^ 64 / 10.
Proof. split; vm_compute; [discriminate|reflexivity]. Qed.

(** Beyond 64 bits the overflow test is not sufficient: 30000000000000000000
    gets an integer value that is not the number in the text. *)
Theorem C47_precise_overflow_refuted : exists ds, ds <> [] /\ Forall digit_char ds /\ 2 ^ 64 <= dec_value ds /\
  forall L, exists z r', parse_source L (mkPF false true) ds = Ok (VNum (NPrec ds (PkUInt z)), r') /\ z <> dec_value ds.
Proof. exact precise_refuted. Qed.
Print Assumptions C47_precise_overflow_refuted.

Example C47_case : number_text [45;49;46;53;48;69;43;51] /\ kind_literal (PkInt (-7)) [45;48;55].
Proof. exact number_cases. Qed.
