(** C105: binary strings through JSON text. *)
From Verif Require Import Base SpecUtf8 ModelValue ModelText SpecText SpecAccept ModelEnc SpecBinText ProofText1 ProofTextEx ProofBinText.
Local Open Scope Z_scope.

(** ** C105 *)
(** Written with its encoding, read back and decoded with the same encoding, a
    binary string gives the bytes [carried]: all of them, except under the UTF-8
    encoding those which stand across the end of a block. *)
Theorem C105_read : forall L E F sg utf8 e s w rest,
  (forall e s, se_binary E e s = encode_chunks e s) -> is_bytes s -> spaces w -> num_end rest ->
  exists t r', parse_source L F (w ++ map (as_source sg) (ser E utf8 (VStr (Some e) s)) ++ rest) = Ok (VStr None t, r') /\
    at_pos r' rest /\ get_binary e (VStr None t) = Some (carried e s).
Proof. exact binary_read. Qed.
Print Assumptions C105_read.

(** They all arrive exactly when the encoding is another one or no byte from 128
    on begins at the end of a block; so always when there are at most 128. *)
Theorem C105_exact : forall e s, is_bytes s ->
  (carried e s = s <-> e <> EncUtf8 \/ unbroken s) /\ ((length s <= 128)%nat -> carried e s = s).
Proof.
  exact (fun e s H => conj (carried_all e s H) (fun L => proj2 (carried_all e s H) (or_intror (short_unbroken s H L)))).
Qed.
Print Assumptions C105_exact.

(** In a document: the text is that of the document with plain strings in place
    of the binary ones. *)
Theorem C105_document : forall E utf8 v, (forall e s, se_binary E e s = encode_chunks e s) -> bin_bytes v ->
  ser E utf8 v = ser E utf8 (as_text v).
Proof. exact document_text. Qed.
Print Assumptions C105_document.

(** A byte is lost: 255 letters and a byte from 128 on. *)
Theorem C105_lost_refuted : exists s, is_bytes s /\ forall L E F, (forall e s, se_binary E e s = encode_chunks e s) ->
  exists t r, parse_source L F (ser E true (VStr (Some EncUtf8) s)) = Ok (VStr None t, r) /\
    get_binary EncUtf8 (VStr None t) = Some (firstn 255 s) /\ length s = 256%nat.
Proof.
  exists (repeat 97 255 ++ [233]). split; [apply Forall_app; split; [apply Forall_forall; intros c Hc; apply repeat_spec in Hc; unfold is_byte; lia|repeat constructor; lia]|].
  intros L E F HE. destruct (binary_read L E F false true EncUtf8 (repeat 97 255 ++ [233]) [] [] HE) as (t & r & P & _ & G).
  - apply Forall_app; split; [apply Forall_forall; intros c Hc; apply repeat_spec in Hc; unfold is_byte; lia|repeat constructor; lia].
  - constructor.
  - exact I.
  - exists t, r. cbn [app] in P. rewrite app_nil_r in P. replace (map (as_source false) (ser E true (VStr (Some EncUtf8) (repeat 97 255 ++ [233]))))
      with (ser E true (VStr (Some EncUtf8) (repeat 97 255 ++ [233]))) in P by (symmetry; apply map_id).
    split; [exact P|]. split; [exact G|reflexivity].
Qed.
Print Assumptions C105_lost_refuted.

(** Bytes and their texts. *)
Definition c105_env : serenv := mkSer (fun _ _ => []) encode_chunks.
Example C105_case : is_bytes [0; 34; 255] /\ (forall e s, se_binary c105_env e s = encode_chunks e s) /\
  ser c105_env true (VStr (Some EncBase64) [0; 34; 255]) = [34; 65; 67; 76; 47; 34] /\
  ser c105_env true (VStr (Some EncUrl) [0; 34; 255]) = [34; 37; 48; 48; 37; 50; 50; 37; 70; 70; 34] /\
  ser c105_env true (VStr (Some EncUtf8) [0; 34; 255]) = [34; 92; 117; 48; 48; 48; 48; 92; 34; 195; 191; 34] /\
  ser c105_env false (VStr (Some EncUtf8) [0; 34; 255]) = [34; 92; 117; 48; 48; 48; 48; 92; 34; 92; 117; 48; 48; 70; 70; 34].
Proof. split; [repeat constructor; unfold is_byte; lia|]. split; [reflexivity|]. vm_compute. repeat split. Qed.
