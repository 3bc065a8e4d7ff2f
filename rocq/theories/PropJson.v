(** C104: what is written is JSON and JSON is read. *)
From Coq Require Import Reals.
From Verif Require Import Base SpecUtf8 SpecKeyed ModelValue ModelText SpecText SpecBin SpecAccept SpecDouble SpecJson
  ProofText1 ProofJson ProofJson2 ProofJson3.
Local Open Scope Z_scope.

(** ** C104 *)
(** Escaped output: whatever bytes the strings, keys and binary pieces are, the
    text is one of RFC 8259, of ASCII characters, without white space between
    tokens, provided the numbers are written as numbers. *)
Theorem C104_escaped : forall E v,
  writable (fun f => json_num (se_double E false f)) (fun _ => True) (fun _ _ => True) v ->
  json_value no_ws ascii json_num (ser E false v).
Proof. exact escaped_json. Qed.
Print Assumptions C104_escaped.

(** UTF-8 output: whatever bytes the strings are, the text is one of RFC 8259
    whose characters are code points, that is, it is UTF-8 except that
    surrogates may occur. *)
Theorem C104_utf8 : forall E v,
  writable (fun f => json_num (se_double E true f)) short (fun e s => Forall short (se_binary E e s)) v ->
  json_value no_ws is_cp json_num (ser E true v).
Proof. exact utf8_json. Qed.
Print Assumptions C104_utf8.

(** When the strings are UTF-8 (of any length) the text is. *)
Theorem C104_unicode : forall E v,
  writable (fun f => json_num (se_double E true f)) proper (fun e s => Forall proper (se_binary E e s)) v ->
  json_value no_ws scalar json_num (ser E true v).
Proof. exact scalar_json. Qed.
Print Assumptions C104_unicode.

(** Such a text is one line of printable characters. *)
Theorem C104_one_line : forall t,
  (json_value no_ws is_cp json_num t -> Forall (fun c => 32 <= c < 256) t) /\
  (json_value no_ws ascii json_num t -> Forall (fun c => 32 <= c < 128) t).
Proof. intros t. exact (conj (one_line_utf8 t) (one_line_ascii t)). Qed.
Print Assumptions C104_one_line.

(** The library's own texts of finite doubles are numbers. *)
Theorem C104_doubles : forall L digits E utf8 d, good_libm L -> doubles_by L digits E -> finite d ->
  (real_of d = 0 \/ powerRZ 10 (-307) <= Rabs (real_of d))%R -> json_num (se_double E utf8 d).
Proof. exact doubles_num. Qed.
Print Assumptions C104_doubles.

(** Every text of RFC 8259 is read to its end, with the value it denotes; the
    one exception is a key occurring twice when that is not allowed.  In
    ordinary mode the digits before the point and those of exponents must be
    below 2^64. *)
Theorem C104_accepts : forall L F t,
  json_value json_ws is_cp (fun x => json_num x /\ (precise F = false -> moderate x)) t ->
  exists v, gval (denotes false) (if precise F then precise_value else plain_value) v t /\
    forall w w', json_ws w -> json_ws w' ->
    ((allow_dup F = true \/ ~ has_dup v) ->
      exists v' r', parse_source L F (w ++ t ++ w') = Ok (v', r') /\ sorted_form v v' /\ at_pos r' w') /\
    (allow_dup F = false -> has_dup v -> parse_source L F (w ++ t ++ w') = Err).
Proof. exact accepts. Qed.
Print Assumptions C104_accepts.

(** Reading in precise mode and writing again gives JSON again, whatever the
    number formatter does. *)
Theorem C104_reformat : forall L F E w t w', precise F = true -> allow_dup F = true ->
  json_value json_ws is_cp json_num t -> json_ws w -> json_ws w' ->
  exists v r, parse_source L F (w ++ t ++ w') = Ok (v, r) /\ at_pos r w' /\ json_value no_ws ascii json_num (ser E false v).
Proof. exact reformat. Qed.
Print Assumptions C104_reformat.

(** UTF-8 output of a string which is not UTF-8 need not be UTF-8. *)
Theorem C104_surrogate_refuted : exists s, is_bytes s /\
  forall E, ~ json_value json_ws scalar json_num (ser E true (VStr None s)).
Proof.
  exists [237; 160; 128]. split; [repeat constructor; unfold is_byte; lia|]. intros E.
  replace (ser E true (VStr None [237; 160; 128])) with [34; 237; 160; 128; 34] by (vm_compute; reflexivity). exact surrogate_text.
Qed.
Print Assumptions C104_surrogate_refuted.

(** What is read in precise mode need not be JSON, nor then what is written. *)
Theorem C104_plus_refuted : exists t v r, (forall L, parse_source L (mkPF false true) t = Ok (v, r)) /\
  forall E utf8, ~ json_value json_ws is_cp json_num (ser E utf8 v).
Proof.
  exists [43; 49], (VNum (NPrec [43; 49] (PkUInt 1))), (mkR [] (Some (-1))). split; [intros L; vm_compute; reflexivity|].
  intros E utf8. exact plus_value.
Qed.
Print Assumptions C104_plus_refuted.

(** An object with an array, a precise number, infinity and a binary string. *)
Definition c104_value : value :=
  VObj false [([97; 10], VArr [([], VStr None [195; 169]); ([], VBool true); ([], VNum (NInt (-12)))]);
              ([98], VNum (NPrec [49; 46; 53; 101; 51] PkDbl)); ([99], VNum (NDbl (S754_infinity false))); ([100], VStr (Some EncUrl) [255; 0])].
Example C104_case_writable : forall E, writable (fun f => json_num (se_double E false f)) (fun _ => True) (fun _ _ => True) c104_value.
Proof.
  intros E. repeat first [constructor | discriminate]; try (cbn; lia).
  exists [], [49], [46; 53], [101; 51]. split; [reflexivity|]. split; [auto|]. unfold json_int, json_frac, json_exp, some_digits, is_digit.
  split; [right; exists 49, []; repeat constructor; lia|]. split; right; [exists [53]; repeat constructor; try discriminate; lia|].
  exists 101, [], [51]. split; [reflexivity|]. split; [lia|]. split; [auto|]. repeat constructor; try discriminate; lia.
Qed.
Example C104_case_text : forall E, (forall e s, se_binary E e s = [s]) ->
  ser E false c104_value =
  [123;34;97;92;110;34;58;91;34;92;117;48;48;69;57;34;44;116;114;117;101;44;45;49;50;93;44;34;98;34;58;49;46;53;101;51;44;
   34;99;34;58;34;92;117;50;50;49;69;34;44;34;100;34;58;34;92;117;48;48;70;70;92;117;48;48;48;48;34;125].
Proof. intros [d b] H. cbn in H. unfold c104_value. cbn [ser map fst snd se_binary]. rewrite H. vm_compute. reflexivity. Qed.
(** [[ "\u00e9" , {"a":1} ]]. *)
Definition c104_text : bytes := [91;32;34;92;117;48;48;101;57;34;32;44;32;123;34;97;34;58;49;125;32;93].
Example C104_case_json : json_value json_ws is_cp (fun x => json_num x /\ moderate x) c104_text.
Proof.
  apply (j_arr _ _ _ [32;34;92;117;48;48;101;57;34;32;44;32;123;34;97;34;58;49;125;32]).
  apply (j_more _ _ _ [32] [34;92;117;48;48;101;57;34] [32] [32;123;34;97;34;58;49;125;32]).
  - repeat constructor.
  - apply j_str. exists [[92;117;48;48;101;57]]. split; [|reflexivity]. constructor; [|constructor]. apply jc_hex; unfold is_hex; lia.
  - repeat constructor.
  - apply (j_one _ _ _ [32] [123;34;97;34;58;49;125] [32]); [repeat constructor| |repeat constructor].
    apply (j_obj _ _ _ [34;97;34;58;49]). apply (j_mone _ _ _ [] [34;97;34] [] [] [49] []); try (repeat constructor; fail).
    + exists [[97]]. split; [|reflexivity]. constructor; [|constructor]. apply (jc_self is_cp 97); [unfold is_cp; lia|lia|lia|lia].
    + apply j_num. split.
      * exists [], [49], [], []. split; [reflexivity|]. split; [auto|]. split; [right; exists 49, []; repeat constructor; lia|]. split; left; reflexivity.
      * exists [], [49], [], []. split; [reflexivity|]. split.
        { unfold plain_number, sign, exponent, digits, digit_char. repeat split; auto. repeat constructor; lia. discriminate. }
        split; [vm_compute; reflexivity|]. intros e s ds H. discriminate.
Qed.
Example C104_case_read : forall L, parse_source L (mkPF false false) c104_text =
  Ok (VArr [([], VStr None [195; 169]); ([], VObj false [([97], VNum (NUInt 1))])], mkR [] None).
Proof. intros L. vm_compute. reflexivity. Qed.
