(** C19-C22: the binary form of values. *)
From Verif Require Import Base ModelKeyed ModelValue ModelObject ModelEq ModelEnc ModelBin SpecEnc SpecEq SpecBin
  ProofFloat ProofBin ProofBin2 ProofBin3.
Local Open Scope Z_scope.

(** A serialised value with its key, followed by anything, is read back as
    [decoded] and exactly its bytes are consumed.  [J] is whatever the parser's
    uninitialised buffers hold. *)
Theorem C19_round_trip : forall J L F pe k v rest, (forall n, is_bytes (J n)) -> bin_text F k -> bin_ok L F v ->
  members_in v < 2 ^ 32 - 257 ->
  exists p', parse_item J (Some pe) (bin_fuel (serialize_binary L F (k, v) ++ rest)) (ps_init (serialize_binary L F (k, v) ++ rest))
    = Ok ((k, decoded L F pe v), p') /\ ps_in p' = rest.
Proof. exact document_ok. Qed.
Print Assumptions C19_round_trip.

(** What is read back compares equal. *)
Theorem C19_equal : forall L F pe v, bf_32 F = false -> bin_ok L F v -> proper L v -> veq L v (decoded L F pe v) = true.
Proof. exact decoded_eq. Qed.
Print Assumptions C19_equal.

(** Doubles come back bit for bit. *)
Theorem C19_doubles : forall f, is_double f -> bits_dbl (dbl_bits f) = f /\ 0 <= dbl_bits f < 2 ^ 64.
Proof. exact bits_round_trip. Qed.
Print Assumptions C19_doubles.

(** A text that starts inside a UTF-8 sequence does not come back. *)
Theorem C19_continuation_byte_refuted : exists s, is_bytes s /\ forall J L F pe,
  bf_tokens F = false ->
  exists r p', parse_binary J (Some pe) (serialize_binary L F ([], VStr None s)) = Ok (r, p') /\ r <> ([], VStr None s).
Proof.
  exists [0x85; 97]. split; [repeat constructor; unfold is_byte; lia|]. intros J L [k t c] pe H. cbn [bf_tokens] in H. subst c.
  eexists. eexists. split; [destruct k, t; vm_compute; reflexivity|]. discriminate.
Qed.
Print Assumptions C19_continuation_byte_refuted.

(** The diff mark of an object does not come back. *)
Theorem C19_diff_refuted : exists v, forall J L F pe, exists r p',
  parse_binary J (Some pe) (serialize_binary L F ([], v)) = Ok (r, p') /\ r <> ([], v).
Proof.
  exists (VObj true [([97], VNull)]). intros J L [k t c] pe. eexists. eexists.
  split; [destruct k, t, c; vm_compute; reflexivity|]. discriminate.
Qed.
Print Assumptions C19_diff_refuted.

Definition binJ : nat -> bytes := fun n => repeat 0 n.
Definition binL : libm := mkLibm (fun a _ => a) (fun a => a) (fun _ => S754_finite false (2 ^ 52 + 1) (-52)).
Definition bin_example : value := VObj false
  [([], VUndef);
   ([97; 98; 99; 100; 101; 102], VArr [([], VNum (NUInt 300)); ([107; 101; 121], VNum (NInt (-70000))); ([107; 101; 121], VStr (Some EncUrl) [255; 0; 200])]);
   ([107; 101; 121], VStr None [104; 101; 108; 108; 111; 45; 119; 111; 114; 108; 100]);
   ([122], VNum (NDbl (S754_finite true (2 ^ 52 + 7) (-60)))); ([122], VNum (NPrec [49; 46; 53] PkDbl)); ([195; 169], VNum (NUInt (2 ^ 64 - 1)))].

Example C19_case : (forall n, is_bytes (binJ n)) /\
  forall k t c, bin_text (mkBF k t c) [107] /\ bin_ok binL (mkBF k t c) bin_example /\ members_in bin_example < 2 ^ 32 - 257 /\
  option_map fst (match parse_binary binJ (Some EncBase64) (serialize_binary binL (mkBF k false c) ([107], bin_example)) with Ok r => Some r | _ => None end)
  = Some ([107], VObj false
     [([], VUndef);
      ([97; 98; 99; 100; 101; 102], VArr [([], VNum (NUInt 300)); ([107; 101; 121], VNum (NInt (-70000))); ([107; 101; 121], VStr (Some EncBase64) [255; 0; 200])]);
      ([107; 101; 121], VStr None [104; 101; 108; 108; 111; 45; 119; 111; 114; 108; 100]);
      ([122], VNum (NDbl (S754_finite true (2 ^ 52 + 7) (-60)))); ([122], VNum (NDbl (S754_finite false (2 ^ 52 + 1) (-52)))); ([195; 169], VNum (NUInt (2 ^ 64 - 1)))]).
Proof.
  split; [intros n; apply Forall_forall; intros x Hx; apply repeat_spec in Hx; unfold is_byte; lia|].
  intros k t c. assert (S : 2 ^ 32 <= size_limit (mkBF k t c)) by (unfold size_limit; destruct t; cbn; lia).
  assert (T : forall s, forallb (fun x => (0 <=? x) && (x <? 256)) s = true -> Z.of_nat (length s) < 2 ^ 32 ->
    match s with c :: _ => ~ (128 <= c < 192) | [] => True end -> bin_text (mkBF k t c) s).
  { intros s H1 H2 H3. split; [|split; [lia|exact H3]]. apply Forall_forall. intros x Hx. rewrite forallb_forall in H1.
    specialize (H1 x Hx). apply andb_true_iff in H1 as [A B]. unfold is_byte. lia. }
  split; [apply T; [reflexivity|cbn; lia|lia]|]. split; [|split; [cbn; lia|destruct k, c; vm_compute; reflexivity]].
  unfold bin_example. cbn [bin_ok]. cbn [length].
  repeat match goal with
  | |- _ /\ _ => split
  | |- True => exact I
  | |- bin_text _ _ => apply T; [reflexivity|cbn; lia|try exact I; cbn; lia]
  | |- is_bytes _ => repeat constructor; unfold is_byte; lia
  | |- bin_num _ _ => try (cbn [bin_num]; lia); try (vm_compute; reflexivity)
  | |- _ < size_limit _ => cbn [Z.of_nat Pos.of_succ_nat Pos.succ]; lia
  | |- _ => progress cbn [bin_ok fst snd length]
  end.
Qed.

(** A serializer and a parser that stay in use stay in step through any sequence
    of values, preloaded keys and clearings, for 2^32 - 257 keys. *)
Theorem C20_session : forall J L F pe ops rest, (forall n, is_bytes (J n)) ->
  Forall (fun m => bin_text F (fst m) /\ bin_ok L F (snd m)) (sent ops) -> fresh_preloads [] ops ->
  session_keys ops < 2 ^ 32 - 256 ->
  exists p', read_session J (Some pe) ops (ps_init (fst (write_session L F ops ws_init) ++ rest)) =
    Ok (map (fun m => (fst m, decoded L F pe (snd m))) (sent ops), p') /\ ps_in p' = rest.
Proof. exact session_ok. Qed.
Print Assumptions C20_session.

(** Preloading a key twice on both sides puts them out of step. *)
Theorem C20_preload_twice_refuted : exists ops m, sent ops = [m] /\ forall J L pe c, exists r p',
  read_session J (Some pe) ops (ps_init (fst (write_session L (mkBF true false c) ops ws_init))) = Ok ([r], p') /\ fst r <> fst m.
Proof.
  exists [BPreload [97]; BPreload [98]; BPreload [97]; BSend ([98], VNull)], ([98], VNull). split; [reflexivity|].
  intros J L pe c. eexists. eexists. split; [destruct c; vm_compute; reflexivity|]. discriminate.
Qed.
Print Assumptions C20_preload_twice_refuted.

(** After 2^32 - 255 distinct keys the serializer takes a key it never saw for
    the one stored last. *)
Theorem C20_wraparound_refuted : exists ks k, NoDup ks /\ ~ In k ks /\
  exists st', fold_left (fun st k => snd (preload_writer st k)) ks ws_init = st' /\ try_compress_key st' k = (Some 0, st').
Proof. exact wrapped. Qed.
Print Assumptions C20_wraparound_refuted.

(** 200 distinct keys, some used again near and far, and one preloaded. *)
Definition bin_ops : list bin_op :=
  BPreload [112; 113] :: BSend ([], VObj false (map (fun i => ([i / 100 + 48; i / 10 mod 10 + 48; i mod 10 + 48], VNum (NUInt i))) (zrange 0 200))) ::
  BSend ([48; 48; 48], VArr [([49; 57; 57], VNull); ([48; 48; 49], VBool true); ([112; 113], VNull); ([49; 57; 57], VNull)]) ::
  BClear :: BPreload [49; 57; 57] :: [BSend ([49; 57; 57], VNum (NInt (-1)))].
Example C20_case : fresh_preloads [] bin_ops /\ session_keys bin_ops < 2 ^ 32 - 256 /\ length (sent bin_ops) = 3%nat /\
  option_map fst (match read_session binJ (Some EncUrl) bin_ops (ps_init (fst (write_session binL (mkBF true false true) bin_ops ws_init))) with Ok r => Some r | _ => None end)
  = Some (map (fun m => (fst m, decoded binL (mkBF true false true) EncUrl (snd m))) (sent bin_ops)) /\
  length (fst (write_session binL (mkBF true false true) bin_ops ws_init)) = 1212%nat.
Proof.
  split; [|split; [vm_compute; reflexivity|split; [reflexivity|split; vm_compute; reflexivity]]].
  cbn [fresh_preloads bin_ops]. split; [tauto|]. split; tauto.
Qed.

(** With [maintain32BitComp], integers up to 32 bits are kept; a larger one
    becomes a nearest double. *)
Theorem C21_small : forall J L k c pe n z, (forall i, is_bytes (J i)) -> Z.abs z < 2 ^ 32 ->
  n = NInt z \/ (0 <= z /\ n = NUInt z) ->
  exists p', parse_binary J (Some pe) (serialize_binary L (mkBF k true c) ([], VNum n))
    = Ok (([], VNum (if z <? 0 then NInt z else NUInt z)), p') /\ ps_in p' = [].
Proof. exact comp32_small. Qed.
Print Assumptions C21_small.

Theorem C21_large : forall J L k c pe n z, (forall i, is_bytes (J i)) -> 2 ^ 32 <= z < 2 ^ 64 ->
  (z < 2 ^ 63 /\ n = NInt z) \/ n = NUInt z ->
  exists m e p', parse_binary J (Some pe) (serialize_binary L (mkBF k true c) ([], VNum n))
    = Ok (([], VNum (NDbl (S754_finite false m e))), p') /\ ps_in p' = [] /\ nearest_double z m e.
Proof. exact comp32_large. Qed.
Print Assumptions C21_large.

(** A large negative one loses its sign: [- n] is read back as the double
    nearest to [n]. *)
Theorem C21_sign_refuted : forall J L k c pe n, (forall i, is_bytes (J i)) -> 2 ^ 32 <= n < 2 ^ 63 ->
  exists m e p', parse_binary J (Some pe) (serialize_binary L (mkBF k true c) ([], VNum (NInt (- n))))
    = Ok (([], VNum (NDbl (S754_finite false m e))), p') /\ ps_in p' = [] /\ nearest_double n m e.
Proof. exact comp32_negative. Qed.
Print Assumptions C21_sign_refuted.

Example C21_case :
  let doc n := option_map fst (match parse_binary binJ (Some EncUrl) (serialize_binary binL (mkBF false true false) ([], VNum n)) with Ok r => Some r | _ => None end) in
  doc (NUInt (2 ^ 32 - 1)) = Some ([], VNum (NUInt (2 ^ 32 - 1))) /\
  doc (NUInt (2 ^ 32)) = Some ([], VNum (NDbl (S754_finite false (2 ^ 52) (-20)))) /\
  doc (NUInt (2 ^ 63 + 1025)) = Some ([], VNum (NDbl (S754_finite false (2 ^ 52 + 1) 11))) /\
  doc (NInt (- 5)) = Some ([], VNum (NInt (- 5))) /\
  doc (NInt (- (2 ^ 32))) = Some ([], VNum (NDbl (S754_finite false (2 ^ 52) (-20)))).
Proof. vm_compute. repeat split. Qed.

(** On an input of [n] bytes followed by the end of the stream, the parser either
    returns or throws within [2 * n + 3] nested calls ... *)
Theorem C22_bounded : forall J pe s, parse_binary J pe s <> Fuel ->
  forall f, (2 * List.length s + 3 <= f)%nat -> parse_item J pe f (ps_init s) = parse_binary J pe s.
Proof. exact parse_stable. Qed.
Print Assumptions C22_bounded.

(** ... or it never does. *)
Theorem C22_otherwise_never : forall J pe s, parse_binary J pe s = Fuel -> forall f, parse_item J pe f (ps_init s) = Fuel.
Proof. exact parse_fuel. Qed.
Print Assumptions C22_otherwise_never.

(** It never does when an item is wanted after the end: whatever was read before. *)
Theorem C22_end_of_stream_refuted : forall J pe f h i, parse_item J pe f (mkPS [] h i) = Fuel.
Proof. exact past_end. Qed.
Print Assumptions C22_end_of_stream_refuted.

(** So an array cut off between two of its items is never reported. *)
Theorem C22_cut_array_refuted : forall J L F pe l1 l2, (forall n, is_bytes (J n)) -> bin_ok L F (VArr (l1 ++ l2)) -> l2 <> [] ->
  members_in (VArr (l1 ++ l2)) < 2 ^ 32 - 256 ->
  exists s1 s2, serialize_binary L F ([], VArr (l1 ++ l2)) = s1 ++ s2 /\
    s2 = fst (write_items L F l2 (snd (write_items L F l1 ws_init))) /\
    forall fuel, parse_item J (Some pe) fuel (ps_init s1) = Fuel.
Proof. exact array_cut. Qed.
Print Assumptions C22_cut_array_refuted.

(** A text cut off is filled up with 0xFF bytes and accepted. *)
Theorem C22_cut_text_refuted : exists s1 s2 v, s2 <> [] /\ forall J L pe k t, exists r p',
  serialize_binary L (mkBF k t false) ([], v) = s1 ++ s2 /\ parse_binary J (Some pe) s1 = Ok (r, p') /\ r = ([], VStr None [97; 255; 255]).
Proof.
  exists [0x43; 97], [98; 99], (VStr None [97; 98; 99]). split; [discriminate|]. intros J L pe k t. eexists. eexists.
  split; [destruct k, t; vm_compute; reflexivity|]. split; [vm_compute; reflexivity|reflexivity].
Qed.
Print Assumptions C22_cut_text_refuted.

Example C22_case :
  parse_binary binJ (Some EncUrl) [0x62; 0x21; 0x22] <> Fuel /\ parse_binary binJ (Some EncUrl) [0x62; 0x21] = Fuel /\
  parse_binary binJ (Some EncUrl) [0x62; 0x21; 0x00] = Err /\ bin_ok binL (mkBF true false true) (VArr [([], VNull); ([], VBool true)]).
Proof.
  split; [vm_compute; discriminate|]. split; [vm_compute; reflexivity|]. split; [vm_compute; reflexivity|].
  assert (T : bin_text (mkBF true false true) []) by (split; [constructor|split; [reflexivity|exact I]]).
  cbn [bin_ok fst snd]. split; [reflexivity|]. tauto.
Qed.
