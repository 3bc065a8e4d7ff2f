(** C126: documents kept in the binary form. *)
From Coq Require Import String Floats.SpecFloat.
From Verif Require Import Base ModelValue ModelEnc ModelText ModelBin SpecText SpecBin SpecStored ModelRpc ProofTextEx ProofStored PropBin.
Local Open Scope string_scope.
Local Open Scope list_scope.
Local Open Scope Z_scope.

(** What an ordinary parser read from a text, stored in the binary form, is read back as the
    very same value, not just an equal one. *)
Theorem C126_exact : forall J L F PF pe s v r k rest, (forall n, is_bytes (J n)) -> precise PF = false -> parse_source L PF s = Ok (v, r) ->
  bf_32 F = false -> bin_text F k -> bin_ok L F v -> members_in v < 2 ^ 32 - 257 ->
  exists p', parse_item J (Some pe) (bin_fuel (serialize_binary L F (k, v) ++ rest)) (ps_init (serialize_binary L F (k, v) ++ rest))
    = Ok ((k, v), p') /\ ps_in p' = rest.
Proof. exact stored_exact. Qed.
Print Assumptions C126_exact.

(** Any value without numbers kept as text and without floating zeros, wherever it came from,
    has the same text after it was stored, if its binary strings are of the encoding
    given to the reader. *)
Theorem C126_text : forall J L E F utf8 pe v k rest, (forall n, is_bytes (J n)) -> bf_32 F = false -> bin_text F k -> bin_ok L F v ->
  members_in v < 2 ^ 32 - 257 -> text_kept pe v ->
  exists w p', parse_item J (Some pe) (bin_fuel (serialize_binary L F (k, v) ++ rest)) (ps_init (serialize_binary L F (k, v) ++ rest))
    = Ok ((k, w), p') /\ ps_in p' = rest /\ ser E utf8 w = ser E utf8 v.
Proof. exact stored_kept. Qed.
Print Assumptions C126_text.

(** A document read in precise mode loses the text of its numbers. *)
Theorem C126_precise_refuted : exists s v w, forall J L F pe, exists r p',
  parse_source L (mkPF false true) s = Ok (v, r) /\
  parse_binary J (Some pe) (serialize_binary L F ([], v)) = Ok (([], w), p') /\ ser ser0 true w <> ser ser0 true v.
Proof.
  exists (txt "[+7]"), (VArr [([], VNum (NPrec (txt "+7") (PkUInt 7)))]), (VArr [([], VNum (NUInt 7))]).
  intros J L [a b c] pe. eexists. eexists. split; [vm_compute; reflexivity|].
  split; [destruct a, b, c; vm_compute; reflexivity|]. vm_compute. discriminate.
Qed.
Print Assumptions C126_precise_refuted.

(** With a reader of another encoding a binary string is written otherwise. *)
Theorem C126_encoding_refuted : exists v w, forall J L F, exists p',
  parse_binary J (Some EncUrl) (serialize_binary L F ([], v)) = Ok (([], w), p') /\ forall D, ser (mkSer D encode_chunks) true w <> ser (mkSer D encode_chunks) true v.
Proof.
  exists (VStr (Some EncBase64) [255; 32]), (VStr (Some EncUrl) [255; 32]).
  intros J L [a b c]. eexists. split; [destruct a, b, c; vm_compute; reflexivity|]. intros D. vm_compute. discriminate.
Qed.
Print Assumptions C126_encoding_refuted.

Definition source126 : bytes := txt "{""b"":[+15, -0, 0e3, -7, 18446744073709551615, null, ""é""],""a"":{""b"":true}} ".
Definition value126 : value := VObj false
  [([97], VObj false [([98], VBool true)]);
   ([98], VArr [([], VNum (NUInt 15)); ([], VNum (NUInt 0)); ([], VNum (NUInt 0)); ([], VNum (NInt (-7)));
     ([], VNum (NUInt (2 ^ 64 - 1))); ([], VNull); ([], VStr None [195; 169])])].
Definition mixed126 : value := VArr
  [([], VNum (NInt 5)); ([], VNum (NDbl (S754_infinity true))); ([], VStr (Some EncBase64) [255; 32]); ([120], VUndef)].

Example C126_case : (forall n, is_bytes (binJ n)) /\
  (exists r, parse_source binL (mkPF false false) source126 = Ok (value126, r)) /\
  bin_text (mkBF true false true) [107] /\ bin_ok binL (mkBF true false true) value126 /\ members_in value126 < 2 ^ 32 - 257 /\
  bin_ok binL (mkBF true false true) mixed126 /\ text_kept EncBase64 mixed126 /\
  (exists w p', parse_binary binJ (Some EncBase64) (serialize_binary binL (mkBF true false true) ([], mixed126)) = Ok (([], w), p') /\ w <> mixed126).
Proof.
  split; [intros n; apply Forall_forall; intros x Hx; apply repeat_spec in Hx; unfold is_byte; lia|].
  split; [eexists; vm_compute; reflexivity|].
  assert (T : forall s, forallb (fun x => (0 <=? x) && (x <? 256)) s = true -> Z.of_nat (length s) < 2 ^ 32 ->
    match s with c :: _ => ~ (128 <= c < 192) | [] => True end -> bin_text (mkBF true false true) s).
  { intros s H1 H2 H3. split; [|split; [unfold size_limit; cbn; lia|exact H3]]. apply Forall_forall. intros x Hx. rewrite forallb_forall in H1.
    specialize (H1 x Hx). apply andb_true_iff in H1 as [A B]. unfold is_byte. lia. }
  split; [apply T; [reflexivity|cbn; lia|lia]|].
  split; [|split; [cbn; lia|]].
  2: split; [|split; [cbn; repeat split; try discriminate; intros []; discriminate|eexists; eexists; split; [vm_compute; reflexivity|discriminate]]].
  all: unfold value126, mixed126; cbn [bin_ok]; cbn [length];
  repeat match goal with
  | |- _ /\ _ => split
  | |- True => exact I
  | |- bin_text _ _ => apply T; [reflexivity|cbn; lia|try exact I; cbn; lia]
  | |- is_bytes _ => repeat constructor; unfold is_byte; lia
  | |- bin_num _ _ => try (cbn [bin_num]; lia); try (vm_compute; reflexivity)
  | |- _ < size_limit _ => unfold size_limit; cbn [Z.of_nat Pos.of_succ_nat Pos.succ]; cbn; lia
  | |- _ => progress cbn [bin_ok fst snd length]
  end.
Qed.
