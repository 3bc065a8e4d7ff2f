(** C125: binary documents of any origin. *)
From Verif Require Import Base ModelKeyed ModelValue ModelObject ModelEq ModelEnc ModelBin SpecEq SpecBin SpecWire SpecRelay ProofRelay.
Local Open Scope Z_scope.

(** Whatever bytes are read, in however many documents and with whatever keys preloaded: texts
    and keys never start inside a UTF-8 sequence, binary strings are not empty and have the
    encoding of the parser, numbers are in range (but for the overflow below), doubles are doubles. *)
Theorem C125_received : forall J pe ops s l p, (forall n, is_bytes (J n)) -> is_bytes s -> Forall received_text (preloaded ops) ->
  read_session J (Some pe) ops (ps_init s) = Ok (l, p) ->
  Forall (fun m => received_text (fst m) /\ received pe (snd m)) l.
Proof.
  exact (fun J pe ops s l p HJ Hs Hk E => session_sane J pe HJ ops (ps_init s) l p (conj Hs (Forall_nil _)) Hk E).
Qed.
Print Assumptions C125_received.

(** So all that was received can be sent on by any serializer (without [maintain32BitComp]), and
    the next parser reads it as it is, followed by anything. *)
Theorem C125_relay : forall J J2 L F pe pe2 ops s l p rest, (forall n, is_bytes (J n)) -> (forall n, is_bytes (J2 n)) ->
  bf_32 F = false -> is_bytes s ->
  Forall received_text (preloaded ops) -> read_session J (Some pe) ops (ps_init s) = Ok (l, p) -> Forall (fun m => no_overflow (snd m)) l ->
  session_keys (map BSend l) < 2 ^ 32 - 256 ->
  exists p', read_session J2 (Some pe2) (map BSend l) (ps_init (fst (write_session L F (map BSend l) ws_init) ++ rest)) =
    Ok (map (fun m => (fst m, relayed pe2 (snd m))) l, p') /\ ps_in p' = rest.
Proof. exact relay_ok. Qed.
Print Assumptions C125_relay.

(** What comes out compares equal. *)
Theorem C125_equal : forall L pe pe2 v, received pe v -> no_overflow v -> proper L v -> veq L v (relayed pe2 v) = true.
Proof. exact relayed_equal. Qed.
Print Assumptions C125_equal.

(** Sent on once more, the bytes are the same. *)
Theorem C125_again : forall L F pe l st, bf_32 F = false ->
  write_session L F (map BSend (map (fun m => (fst m, relayed pe (snd m))) l)) st = write_session L F (map BSend l) st.
Proof. exact relayed_bytes. Qed.
Print Assumptions C125_again.

(** A negative integer of more than 2^63 is read as a positive number; 2^63 itself overflows
    (the number of the model is out of range, in C++ the behaviour is undefined). *)
Theorem C125_sign_refuted : forall J pe n s rest, sized k_negative n s -> 2 ^ 63 <= n ->
  exists p', parse_binary J (Some pe) (s ++ rest) = Ok (([], VNum (NInt (2 ^ 64 - n))), p') /\ ps_in p' = rest.
Proof. exact too_negative. Qed.
Print Assumptions C125_sign_refuted.

(** The members of an object are left in the order received, so one that is there may not be
    found. *)
Theorem C125_lookup_refuted : exists s l k v, is_bytes s /\ (forall J pe, exists p, parse_binary J pe s = Ok (([], VObj false l), p) /\ ps_in p = []) /\
  In (k, v) l /\ is_undef v = false /\ value_member (VObj false l) k = VUndef.
Proof.
  exists [0x53; 0x71; 99; 1; 0x71; 98; 1; 0x71; 97; 1], [([99], VNull); ([98], VNull); ([97], VNull)], [97], VNull.
  split; [repeat constructor; unfold is_byte; lia|]. split; [intros J pe; eexists; split; [vm_compute; reflexivity|reflexivity]|].
  split; [right; right; left; reflexivity|]. split; [reflexivity|]. vm_compute. reflexivity.
Qed.
Print Assumptions C125_lookup_refuted.

Definition rjunk (n : nat) : bytes := repeat 0 n.
(** A diff with a packed text, a float, a negative zero, an integer written with eight bytes, a
    binary string cut off by the end of the input. *)
Definition foreign : bytes := [0x0F; 0x54; 0x73; 107; 101; 121; 0x42; 0x80; 0; 0x80; 5; 0; 0; 0x80; 0x3F; 0x71; 122; 0x30;
  0x80; 0x3D; 7; 0; 0; 0; 0; 0; 0; 0; 0x13; 200].
Definition foreign_value : value := VObj true [([107; 101; 121], VStr None [65; 65]); ([107; 101; 121], VNum (NDbl (S754_finite false (2 ^ 52) (-52))));
  ([122], VNum (NUInt 0)); ([122], VNum (NInt (-7)))].
Example C125_case : is_bytes foreign /\ (forall n, is_bytes (rjunk n)) /\
  (exists p, read_session rjunk (Some EncUrl) [BPreload [97]; BSend ([], VNull); BSend ([], VNull)] (ps_init foreign) =
     Ok ([([], foreign_value); ([], VStr (Some EncUrl) [200; 255; 255])], p)) /\
  no_overflow foreign_value /\ received EncUrl foreign_value /\
  relayed EncBase64 foreign_value = VObj false [([107; 101; 121], VStr None [65; 65]); ([107; 101; 121], VNum (NDbl (S754_finite false (2 ^ 52) (-52))));
    ([122], VNum (NUInt 0)); ([122], VNum (NInt (-7)))].
Proof.
  split; [repeat constructor; unfold is_byte; lia|].
  split; [intros n; apply Forall_forall; intros x Hx; apply repeat_spec in Hx; subst; unfold is_byte; lia|].
  split; [eexists; vm_compute; reflexivity|]. split; [cbn; repeat split; lia|].
  split; [|reflexivity].
  assert (R := C125_received rjunk EncUrl [BPreload [97]; BSend ([], VNull)] foreign [([], foreign_value)]).
  eapply Forall_inv in R; [exact (proj2 R)| | | |].
  - intros n; apply Forall_forall; intros x Hx; apply repeat_spec in Hx; subst; unfold is_byte; lia.
  - repeat constructor; unfold is_byte; lia.
  - constructor; [|constructor]. split; [repeat constructor; unfold is_byte; lia|]. split; [cbn; lia|lia].
  - vm_compute. reflexivity.
Qed.
Example C125_sign : forall J pe, exists p, sized k_negative (2 ^ 64 - 1) (0x3D :: repeat 255 8) /\
  parse_binary J pe (0x3D :: repeat 255 8) = Ok (([], VNum (NInt 1)), p).
Proof.
  intros J pe. eexists. split; [|vm_compute; reflexivity]. apply (SzLong k_negative 13 (repeat 255 8)); [cbn; tauto|].
  repeat constructor; unfold is_byte; lia.
Qed.
