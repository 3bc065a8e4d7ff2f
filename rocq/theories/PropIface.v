(** Handles, keys, wrapped objects, binary strings and truth (C87-C89). *)
From Verif Require ModelJwt.
From Verif Require Import Base ModelKeyed SpecKeyed ModelValue ModelObject ModelEq SpecEq ModelEnc ModelIface SpecIface ProofIface.
Local Open Scope Z_scope.

(** A library for the examples. *)
Definition lib : libm := mkLibm (fun a _ => a) (fun a => a) (fun _ => S754_zero false).
(** [{"a": wrapped 5, "b": [true, "x" cut from another string]}], with a key. *)
Definition sample : obj :=
  bind_key [107] (OObj false [bind_key [97] (make_value 7 1 (of_uint 5)); bind_key [98] (OArr [OBool true; OSubStr [120]])]).

(** *** C87 *)
(** Whatever classes a value is made of, it reads as the JSON value it stands for. *)
Theorem C87_reads : forall L o, made L o -> wraps not_binary o -> forall v, sees L o v <-> v = denote o.
Proof. exact reading. Qed.
Print Assumptions C87_reads.
Example C87_reads_case : made lib sample /\ wraps not_binary sample /\
  denote sample = VObj false [([97], VNum (NUInt 5)); ([98], VArr [([], VBool true); ([], VStr None [120])])].
Proof. vm_compute. intuition congruence. Qed.
(** But nobody can read a wrapped binary string: its encoding is asked of the wrong class. *)
Theorem C87_reads_binary_refuted : exists L o, made L o /\ (forall v, ~ sees L o v) /\ o = make_value 7 1 (of_bytes [1; 2] EncBase64).
Proof. exact wrapped_binary. Qed.
Print Assumptions C87_reads_binary_refuted.

Theorem C87_member : forall o name, denote (o_member o name) = value_member (denote o) name.
Proof. exact member_denote. Qed.
Print Assumptions C87_member.
Theorem C87_item : forall o n v, nth_error (match denote o with VArr l | VObj _ l => l | _ => [] end) n = Some v ->
  (o_name (o_item o n), denote (o_item o n)) = v.
Proof. exact item_name. Qed.
Print Assumptions C87_item.
(** Past the last item there is undefined. *)
Theorem C87_past : forall o n, (length (match denote o with VArr l | VObj _ l => l | _ => [] end) <= n)%nat -> denote (o_item o n) = VUndef.
Proof. exact past_end. Qed.
Print Assumptions C87_past.
(** The text handed out is that of strings and of numbers kept as text, nothing otherwise. *)
Theorem C87_string : forall o, o_string o = ModelJwt.get_string (denote o) /\
  o_string o = match denote o with VStr _ s => s | VNum (NPrec s _) => s | _ => [] end.
Proof. exact strings. Qed.
Print Assumptions C87_string.
Example C87_string_case : denote (OKey [107] (OPrecUInt [49; 46; 48] 1)) = VNum (NPrec [49; 46; 48] (PkUInt 1)) /\
  o_string (OKey [107] (OPrecUInt [49; 46; 48] 1)) = [49; 46; 48].
Proof. vm_compute. auto. Qed.
(** Integers are given as unsigned and as signed of 64 bits, wrapped round. *)
Theorem C87_integers : forall L o n z, made L o -> denote o = VNum n ->
  (n = NUInt z \/ n = NInt z \/ exists t, n = NPrec t (PkUInt z) \/ n = NPrec t (PkInt z)) ->
  o_uint o = z mod 2 ^ 64 /\ - 2 ^ 63 <= o_int o < 2 ^ 63 /\ (o_int o - z) mod 2 ^ 64 = 0.
Proof. exact whole_numbers. Qed.
Print Assumptions C87_integers.
Example C87_integers_case : made lib (OInt (-1)) /\ o_uint (OInt (-1)) = 18446744073709551615 /\ o_int (OUInt 18446744073709551615) = -1 /\
  denote (o_item sample 2) = VUndef.
Proof. vm_compute. intuition congruence. Qed.
Example C87_member_case : denote (o_member sample [97]) = VNum (NUInt 5) /\ o_name (o_item sample 1) = [98].
Proof. vm_compute. auto. Qed.

(** Ordering depends on the values alone. *)
Theorem C87_compare : forall L a b, made L a -> made L b -> forall c, o_compare L a b c <-> c = vcmp L (denote a) (denote b).
Proof. exact comparing. Qed.
Print Assumptions C87_compare.
Example C87_compare_case : made lib sample /\ made lib (OObj true []) /\ vcmp lib (denote sample) (denote (OObj true [])) = Gt.
Proof. vm_compute. intuition congruence. Qed.

(** Equality too, unless a number is wrapped: then integers are compared as doubles. *)
Theorem C87_equal : forall L a b, made L a -> made L b -> matched L b a ->
  (exists r, o_op_eq L a b r) /\ (forall r, o_op_eq L a b r -> op_eq L (denote a) (denote b) r).
Proof. exact equality. Qed.
Print Assumptions C87_equal.
Example C87_equal_case : matched lib sample (OArr [make_value 7 1 ONull; OUInt (2 ^ 60)]) /\ matched lib (of_uint 5) (make_value 7 1 (of_uint 5)).
Proof. split; [left; cbn; intuition|right; split; constructor; vm_compute; intuition congruence]. Qed.
Theorem C87_equal_refuted : exists L a b, made L a /\ made L b /\ o_equal L a b true /\ ~ o_equal L b a true /\ ~ equal_run L (denote a) (denote b) true.
Proof. exact equality_wrapped. Qed.
Print Assumptions C87_equal_refuted.

Theorem C87_key : forall L o k, made L o ->
  o_name (bind_key k o) = k /\ denote (bind_key k o) = denote o /\ made L (bind_key k o) /\ o_unproxy (bind_key k o) = o_unproxy o.
Proof. exact keys. Qed.
Print Assumptions C87_key.
Example C87_key_case : bind_key [98] sample <> sample /\ bind_key [107] sample = sample /\ o_name (bind_key [] sample) = [].
Proof. vm_compute. intuition congruence. Qed.

(** A wrapped object is found again by its type, with any key; the value is that of the substitute. *)
Theorem C87_wrap : forall L caught ty id o k, made L o ->
  let h := bind_key k (make_value ty id o) in
  made L h /\ denote h = denote o /\ o_name h = k /\
  o_cast caught ty h = Some id /\
  (forall ty', ty' <> ty -> o_cast caught ty' h = if caught ty' ty then Some id else None) /\
  o_cast caught ty (make_value ty id (bind_key k o)) = Some id.
Proof. exact wrapping. Qed.
Print Assumptions C87_wrap.
Theorem C87_wrap_member : forall L caught ty id o k d l, made L o -> keys_increasing (keyed l) ->
  In (bind_key k (make_value ty id o)) l -> o_cast caught ty (o_member (OObj d l) k) = Some id.
Proof. exact wrapped_member. Qed.
Print Assumptions C87_wrap_member.
Theorem C87_no_wrap : forall caught ty o, wraps (fun _ => False) o -> o_cast caught ty o = None.
Proof. exact not_wrapped. Qed.
Print Assumptions C87_no_wrap.
Example C87_wrap_case : o_cast (fun a b => (a =? 3) && (b =? 7)) 3 (o_member sample [97]) = Some 1 /\
  o_cast (fun _ _ => false) 9 (o_member sample [97]) = None /\ wraps (fun _ => False) (OArr [OUInt 1]).
Proof. vm_compute. intuition. Qed.

(** *** C88 *)
Theorem C88_data : forall e o en s, denote o = VStr en s -> option_map bin_data (o_get_binary e o) = get_binary e (denote o).
Proof. exact binary_data. Qed.
Print Assumptions C88_data.
(** A binary string without a key keeps its encoding, whichever encoding is offered; a text is decoded with
    the one offered and marked with it. *)
Theorem C88_encoding : forall e o b, no_key o -> plain o -> o_get_binary e o = Some b ->
  (forall en s, denote o = VStr (Some en) s -> s <> [] -> binary_encoding b = Some (Some en) /\ of_binary b = o) /\
  (forall s, denote o = VStr None s -> bin_data b <> [] -> binary_encoding b = Some (Some (decoded_as e)) /\
     denote (of_binary b) = VStr (Some (decoded_as e)) (bin_data b)).
Proof. exact binary_kept. Qed.
Print Assumptions C88_encoding.
Theorem C88_bytes : forall e e' d b, o_get_binary e' (of_bytes d e) = Some b ->
  bin_data b = d /\ (d <> [] -> binary_encoding b = Some (Some e) /\ denote (of_binary b) = VStr (Some e) d).
Proof. exact binary_made. Qed.
Print Assumptions C88_bytes.
Example C88_case : option_map bin_data (o_get_binary EncBase64 (OStr None [81; 81; 61; 61])) = Some [65] /\
  option_map binary_encoding (o_get_binary EncBase64 (OStr None [81; 81; 61; 61])) = Some (Some (Some EncBase64)) /\
  option_map bin_data (o_get_binary EncUrl (of_bytes [37] EncBase64)) = Some [37].
Proof. vm_compute. auto. Qed.
(** With a key the encoding is asked of the wrong class, and an empty string forgets it. *)
Theorem C88_encoding_refuted : exists o b b', made_ok o /\ denote o = VStr (Some EncBase64) [1; 2; 3] /\
  (forall e, o_get_binary e o = Some b) /\ bin_data b = [1; 2; 3] /\ binary_encoding b = None /\
  (forall e, o_get_binary e (of_bytes [] EncBase64) = Some b') /\ binary_encoding b' = Some None.
Proof. exact binary_lost. Qed.
Print Assumptions C88_encoding_refuted.

(** *** C89 *)
Theorem C89_truth : forall L o, made L o -> ~ odd o -> o_bool o = truth (denote o) L.
Proof. exact truth_right. Qed.
Print Assumptions C89_truth.
Theorem C89_numbers : forall n f,
  o_bool (of_uint n) = negb (n =? 0) /\ o_bool (of_int n) = negb (n =? 0) /\ o_bool (of_dbl f) = negb (SFeqb f (S754_zero false)) /\
  ~ odd (of_uint n) /\ ~ odd (of_int n) /\ ~ odd (of_dbl f).
Proof. exact truth_made. Qed.
Print Assumptions C89_numbers.
Example C89_case : made lib sample /\ ~ odd sample /\ o_bool sample = true /\ o_bool (of_dbl (S754_zero true)) = false /\ o_bool (of_dbl S754_nan) = true.
Proof. vm_compute. intuition congruence. Qed.
Theorem C89_empty_refuted : exists L a b, made L a /\ made L b /\ denote a = denote b /\ o_bool a <> o_bool b /\ denote a = VArr [].
Proof. exact truth_odd. Qed.
Print Assumptions C89_empty_refuted.
Theorem C89_unread_refuted : exists L t f g, made L (OPrecDbl t (Junk f)) /\ made L (OPrecDbl t (Read g)) /\
  o_bool (OPrecDbl t (Junk f)) = false /\ o_bool (OPrecDbl t (Read g)) = true.
Proof. exact truth_unread. Qed.
Print Assumptions C89_unread_refuted.
