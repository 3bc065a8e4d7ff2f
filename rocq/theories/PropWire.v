(** C112: the binary form, byte by byte. *)
From Verif Require Import Base ModelKeyed ModelValue ModelObject ModelEq ModelEnc ModelBin SpecEnc SpecBin SpecWire SpecTold
  ProofBin PropBin ProofWire ProofWire2.
Local Open Scope Z_scope.

(** Any byte string of the format, whoever wrote it, is read as the values it
    denotes, and no byte more is taken. *)
Theorem C112_reads : forall J pe l b ks' rest, (forall n, is_bytes (J n)) -> items pe [] l b ks' ->
  exists p', read_session J (Some pe) (map BSend l) (ps_init (b ++ rest)) = Ok (l, p') /\ ps_in p' = rest.
Proof. exact stream_ok. Qed.
Print Assumptions C112_reads.

(** What a serializer writes, with any flags, is of the format and denotes the
    values given to it. *)
Theorem C112_written : forall L F pe l, Forall (fun m => bin_text F (fst m) /\ bin_ok L F (snd m)) l ->
  session_keys (map BSend l) < 2 ^ 32 - 256 ->
  exists ks', items pe [] (map (fun m => (fst m, decoded L F pe (snd m))) l) (fst (write_session L F (map BSend l) ws_init)) ks'.
Proof. exact stream_written. Qed.
Print Assumptions C112_written.

(** If the parser's side preloads exactly the keys for which the serializer's
    [preloadKey] returns [true], the two stay in step, however often keys are
    preloaded and used. *)
Theorem C112_preloads : forall J L F pe ops rest, (forall n, is_bytes (J n)) ->
  Forall (fun m => bin_text F (fst m) /\ bin_ok L F (snd m)) (sent ops) -> session_keys ops < 2 ^ 32 - 256 ->
  exists p', read_session J (Some pe) (told L F ops ws_init) (ps_init (fst (write_session L F ops ws_init) ++ rest)) =
    Ok (map (fun m => (fst m, decoded L F pe (snd m))) (sent ops), p') /\ ps_in p' = rest.
Proof. exact told_ok. Qed.
Print Assumptions C112_preloads.

(** Forms the serializer never uses: a size in two bytes where four bits would
    do, a float, a diff, a packed text of two characters with stray bits. *)
Definition wire_bytes : bytes :=
  [0x6B; 4; 0;  0x72; 97; 98; 5; 0; 0; 192; 63;  0x80; 15; 0x50;  0x3C; 44; 1; 0; 0;  0x42; 128 + 26; 27 * 4 + 3].
Definition wire_value : value :=
  VArr [([97; 98], VNum (NDbl (S754_finite false (3 * 2 ^ 51) (-52)))); ([97; 98], VObj true []); ([], VNum (NInt (-300))); ([], VStr None [97; 98])].
Example C112_case : items EncUrl [] [([], wire_value)] wire_bytes [[97; 98]] /\
  option_map fst (match parse_binary binJ (Some EncUrl) wire_bytes with Ok r => Some r | _ => None end) = Some ([], wire_value).
Proof.
  split; [|vm_compute; reflexivity].
  apply (IScons EncUrl [] _ [] wire_bytes [] [[97; 98]]); [|apply ISnil]. apply INoKey.
  apply (BArray EncUrl [] _ [0x6B; 4; 0]).
  { apply (SzLong k_array 11 [4; 0]); [cbn; tauto|repeat constructor; unfold is_byte; lia]. }
  apply (IScons EncUrl [] _ _ [0x72; 97; 98; 5; 0; 0; 192; 63] [0x80; 15; 0x50; 0x3C; 44; 1; 0; 0; 0x42; 128 + 26; 27 * 4 + 3] [[97; 98]]).
  { apply (IKey EncUrl [] [97; 98] _ [0x72; 97; 98] [5; 0; 0; 192; 63]).
    - apply (TPlain k_key [97; 98] [0x72]); [repeat constructor; unfold is_byte; lia|lia|]. apply (SzSmall k_key 2). lia.
    - apply (BFloat EncUrl _ [0; 0; 192; 63] (S754_finite false (3 * 2 ^ 51) (-52))); [repeat constructor; unfold is_byte; lia|reflexivity|].
      exists false, 127, 4194304. cbn. repeat split; lia. }
  apply (IScons EncUrl _ _ _ [0x80; 15; 0x50] [0x3C; 44; 1; 0; 0; 0x42; 128 + 26; 27 * 4 + 3] [[97; 98]]).
  { apply (IBack EncUrl [[97; 98]] [97; 98] _ 0); [lia|reflexivity|]. apply (BDiff EncUrl _ [] [0x50] []); [|apply ISnil]. apply (SzSmall k_object 0). lia. }
  apply (IScons EncUrl _ _ _ [0x3C; 44; 1; 0; 0] [0x42; 128 + 26; 27 * 4 + 3] [[97; 98]]).
  { apply INoKey. apply (BNegative EncUrl _ 300); [|lia]. apply (SzLong k_negative 12 [44; 1; 0; 0]); [cbn; tauto|repeat constructor; unfold is_byte; lia]. }
  apply (IScons EncUrl _ _ _ [0x42; 128 + 26; 27 * 4 + 3] [] [[97; 98]]); [|apply ISnil]. apply INoKey. apply BText.
  apply (TPacked k_text 1 26 [27 * 4 + 3] [0x42]); [lia|repeat constructor; unfold is_byte; lia|reflexivity|]. apply (SzSmall k_text 2). lia.
Qed.

(** A key preloaded twice, used, and preloaded again. *)
Definition told_ops : list bin_op := [BPreload [97]; BPreload [98]; BPreload [97]; BSend ([98], VNull); BPreload [98]; BSend ([97], VBool true)].
Example C112_told_case : told binL (mkBF true false false) told_ops ws_init =
    [BPreload [97]; BPreload [98]; BSend ([98], VNull); BSend ([97], VBool true)] /\
  fst (write_session binL (mkBF true false false) told_ops ws_init) = [0x80; 1; 0x81; 3].
Proof. vm_compute. split; reflexivity. Qed.
