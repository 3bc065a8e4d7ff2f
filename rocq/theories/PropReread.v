(** C06 continued: equality and text of what is read back.  C97: writing and reading again
    what was read. *)
From Coq Require Import String Floats.SpecFloat.
From Verif Require Import Base SpecUtf8 ModelUtf8 ModelValue ModelText ModelEq SpecText SpecReread
  ModelRpc ProofTextEx ProofReread.
Local Open Scope string_scope.
Local Open Scope list_scope.
Local Open Scope Z_scope.

(** *** C06 *)
(** The value read back compares equal by the library's own operator, however the two share
    their parts. *)
Theorem C06_equal : forall L E F sg utf8 v w rest,
  precise F = false -> doc_ok utf8 v -> ws w -> num_end rest ->
  exists v' r', parse_source L F (w ++ map (as_source sg) (ser E utf8 v) ++ rest) = Ok (v', r') /\
    at_pos r' rest /\ op_eq L v v' true /\ (forall b, op_eq L v v' b -> b = true).
Proof. exact document_equal. Qed.
Print Assumptions C06_equal.

(** Written again, it gives the same text. *)
Theorem C06_text : forall L E F sg utf8 v w rest,
  precise F = false -> doc_ok utf8 v -> ws w -> num_end rest ->
  exists v' r', parse_source L F (w ++ map (as_source sg) (ser E utf8 v) ++ rest) = Ok (v', r') /\
    at_pos r' rest /\ ser E utf8 v' = ser E utf8 v.
Proof. exact document_text. Qed.
Print Assumptions C06_text.

(** *** C97 *)
(** Any document read in precise mode, written and read in precise mode again, gives exactly
    the value first read. *)
Theorem C97_precise : forall L E F F' sg utf8 s v r w rest,
  precise F = true -> precise F' = true -> parse_source L F s = Ok (v, r) -> made_of (text_ok utf8) any_num v ->
  ws w -> num_end rest ->
  exists r', parse_source L F' (w ++ map (as_source sg) (ser E utf8 v) ++ rest) = Ok (v, r') /\ at_pos r' rest.
Proof. exact reread_precise. Qed.
Print Assumptions C97_precise.

(** In ordinary mode the same holds of documents without finite doubles. *)
Theorem C97_plain : forall L E F F' sg utf8 s v r w rest,
  precise F = false -> precise F' = false -> parse_source L F s = Ok (v, r) -> made_of (text_ok utf8) no_double v ->
  ws w -> num_end rest ->
  exists r', parse_source L F' (w ++ map (as_source sg) (ser E utf8 v) ++ rest) = Ok (v, r') /\ at_pos r' rest.
Proof. exact reread_plain. Qed.
Print Assumptions C97_plain.

(** However it is written, a zero read in ordinary mode is the unsigned integer zero. *)
Theorem C97_zero : forall L F s v r,
  precise F = false -> parse_source L F s = Ok (v, r) -> made_of (fun _ => True) one_zero v.
Proof. exact read_zero. Qed.
Print Assumptions C97_zero.

Definition flags_precise : pflags := mkPF false true.
Definition flags_plain : pflags := mkPF false false.

Definition source97 : bytes := txt "{""b"":[+1.50e3, -0, 18446744073709551616, ""é""],""a"":""x""} ".
Definition value97 : value := VObj false
  [([97], VStr None [120]);
   ([98], VArr [([], VNum (NPrec (txt "+1.50e3") PkDbl)); ([], VNum (NPrec (txt "-0") (PkInt 0)));
     ([], VNum (NPrec (txt "18446744073709551616") PkDbl)); ([], VStr None [195; 169])])].

Example C97_precise_case : forall L,
  (exists r, parse_source L flags_precise source97 = Ok (value97, r)) /\ made_of (text_ok true) any_num value97 /\
  ser ser0 true value97 = txt "{""a"":""x"",""b"":[+1.50e3,-0,18446744073709551616,""" ++ [195; 169] ++ txt """]}".
Proof.
  intros L. split; [eexists; vm_compute; reflexivity|]. split; [|vm_compute; reflexivity].
  assert (forall c, 0 <= c < 128 -> text_ok true [c]) as Hc.
  { intros c H. exists [c]. split; [repeat constructor; unfold is_cp; lia|]. unfold utf8_encode. cbn. unfold utf8_bytes.
    replace (c <? 128) with true by lia. reflexivity. }
  apply mo_obj. constructor; [split; [apply Hc; lia|apply mo_str, Hc; lia]|]. constructor; [|constructor].
  split; [apply Hc; lia|]. apply mo_arr. repeat (constructor; [apply mo_num; exact I|]). constructor; [|constructor].
  apply mo_str. exists [0xE9]. split; [repeat constructor; unfold is_cp; lia|reflexivity].
Qed.

Example C97_plain_case : forall L,
  exists v r, parse_source L flags_plain (txt "[ {} ,-7, -0 ]") = Ok (v, r) /\ made_of (text_ok true) no_double v /\
    ser ser0 true v = txt "[{},-7,0]".
Proof.
  intros L. do 2 eexists. split; [vm_compute; reflexivity|].
  split; [|vm_compute; reflexivity]. apply mo_arr.
  constructor; [apply mo_obj; constructor|]. constructor; [apply mo_num; exact I|]. constructor; [apply mo_num; exact I|constructor].
Qed.

Example C97_zero_case : exists r, parse_source (mkLibm (fun _ _ => f_of_Z 10) (fun a => a) (fun a => S754_nan)) flags_plain
    (txt "[-0,0.0,-00.0e5,-5,0.5]") =
  Ok (VArr [([], VNum (NUInt 0)); ([], VNum (NUInt 0)); ([], VNum (NUInt 0)); ([], VNum (NInt (-5)));
    ([], VNum (NDbl (S754_finite false 4503599627370496 (-53))))], r).
Proof. eexists. vm_compute. reflexivity. Qed.
