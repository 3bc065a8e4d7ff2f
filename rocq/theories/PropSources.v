(** C78: sources of the parser. *)
From Verif Require Import Base SpecUtf8 ModelValue ModelText ModelStreams SpecSources ProofSources.
Local Open Scope Z_scope.

(** A text without the bytes 248..255 reads the same, value or error, whether
    the source delivers numbers 0..255 or [char]s. *)
Theorem C78_agree : forall L F s, low_text s ->
  from_string L F s = parse_bytes L F s /\ from_stream L F s = parse_bytes L F s.
Proof. exact sources_agree. Qed.
Print Assumptions C78_agree.

(** UTF-8 is such a text. *)
Theorem C78_utf8 : forall s, valid_utf8 s -> low_text s.
Proof. exact utf8_low. Qed.
Print Assumptions C78_utf8.

(** The bound is exact: from 248 on every byte in a string is read differently. *)
Theorem C78_bound_refuted : forall L F c, 248 <= c < 256 ->
  exists s, parse_bytes L F [34; c; 34] = Ok (VStr None s) /\ from_string L F [34; c; 34] <> Ok (VStr None s).
Proof. exact sources_differ. Qed.
Print Assumptions C78_bound_refuted.
(** The last of them ends the text. *)
Theorem C78_end_refuted : exists L F s v, parse_bytes L F s = Ok v /\ from_string L F s = Err /\ from_stream L F s = Err.
Proof. exists (mkLibm (fun _ _ => S754_nan) (fun _ => S754_nan) (fun _ => S754_nan)), (mkPF false false), [34; 97; 255; 34], (VStr None [97; 195; 191]). vm_compute. repeat split. Qed.
Print Assumptions C78_end_refuted.

(** [{"k":"(broken UTF-8)",}] and its correct form. *)
Example C78_case : forall L F,
  low_text [123;34;107;34;58;34;192;226;97;244;34;125] /\
  (exists v, from_string L F [123;34;107;34;58;34;192;226;97;244;34;125] = Ok v) /\
  from_string L F [123;34;107;34;58;34;192;34;44;125] = Err /\
  parse_bytes L F [34;226;130;172;34] = Ok (VStr None [226;130;172]) /\ from_string L F [34;226;130;172;34] = Ok (VStr None [226;130;172]).
Proof.
  intros L [d p]. split; [repeat constructor; unfold low_byte; lia|]. split; [eexists; destruct d; reflexivity|]. split; [destruct d; reflexivity|]. split; reflexivity.
Qed.
