(** What the serializer writes is of the format. *)
From Coq Require Import ZifyBool.
From Verif Require Import Base ModelKeyed ModelValue ModelObject ModelEq ModelEnc ModelBin SpecEnc SpecBin SpecWire SpecTold
  ProofEnc ProofFloat ProofBin ProofBin2 ProofBin3 ProofWire ProofValue.
Local Open Scope Z_scope.

Lemma or_sum : forall kind c, 1 <= kind <= 7 -> 0 <= c < 16 -> Z.lor (16 * kind) c = 16 * kind + c.
Proof.
  intros kind c Hk Hc.
  assert (S : forallb (fun kind => forallb (fun c => Z.lor (16 * kind) c =? 16 * kind + c) (zrange 0 16)) (zrange 1 7) = true)
    by (vm_compute; reflexivity).
  rewrite forallb_forall in S. specialize (S kind). rewrite forallb_forall in S.
  assert (A : In kind (zrange 1 7)) by (apply zrange_in; lia). assert (B : In c (zrange 0 16)) by (apply zrange_in; lia).
  specialize (S A c B). lia.
Qed.

Lemma le_sized : forall kind n c k, 1 <= kind <= 7 -> In (c, k) [(10, 1%nat); (11, 2%nat); (12, 4%nat); (13, 8%nat)] ->
  0 <= n < 256 ^ Z.of_nat k -> sized kind n (Z.lor (16 * kind) c :: le_bytes k n).
Proof.
  intros kind n c k Hk Hc Hn. rewrite or_sum by (auto; destruct Hc as [E|[E|[E|[E|[]]]]]; inversion E; lia).
  pose proof (le_round_trip k n Hn) as R. rewrite little_value in R. rewrite <- R at 1.
  apply SzLong; [rewrite le_length; exact Hc|apply le_is_bytes].
Qed.

Lemma integer_sized : forall F n kind, 1 <= kind <= 7 -> 0 <= n < size_limit F -> sized kind n (write_integer F n (16 * kind)).
Proof.
  intros F n kind Hk Hn. unfold write_integer.
  destruct (n <? 10) eqn:E1; [rewrite or_sum by lia; apply SzSmall; lia|].
  destruct (n <=? 0xFF) eqn:E2; [apply le_sized; [auto|cbn; tauto|change (256 ^ Z.of_nat 1) with 256; lia]|].
  destruct (n <=? 0xFFFF) eqn:E3; [apply le_sized; [auto|cbn; tauto|change (256 ^ Z.of_nat 2) with 65536; lia]|].
  destruct (n <=? 0xFFFFFFFF) eqn:E4; [apply le_sized; [auto|cbn; tauto|change (256 ^ Z.of_nat 4) with 4294967296; lia]|].
  unfold size_limit in Hn. destruct (bf_32 F); [lia|]. apply le_sized; [auto|cbn; tauto|change (256 ^ Z.of_nat 8) with (2 ^ 64); lia].
Qed.

Lemma string_text : forall F s kind, kind = k_text \/ kind = k_key -> bin_text F s -> text kind s (write_string_bin F s (16 * kind)).
Proof.
  intros F s kind Hkind (Hs & Hl & Hc). assert (Hk : 1 <= kind <= 7) by (unfold k_text, k_key in *; lia).
  unfold write_string_bin. pose proof (integer_sized F (Z.of_nat (length s)) kind Hk ltac:(lia)) as Hz.
  destruct s as [|c s]; [exact (TPlain kind [] _ Hs Hc Hz)|].
  replace (16 * kind =? op_binstring) with false by (unfold op_binstring, k_text, k_key in *; lia).
  destruct (bf_tokens F && can_compress (c :: s)) eqn:Et.
  - apply andb_true_iff in Et as [_ Et]. unfold can_compress in Et. apply andb_true_iff in Et as [_ Et].
    cbn [forallb] in Et. apply andb_true_iff in Et as [Et1 Et2].
    destruct (token_digit c Et1) as (d & Hd & ->). destruct (token_digits s Et2) as (ds & Hds & ->).
    rewrite b64_table_digit by auto. unfold b64_decoder_core. rewrite decode_pack by auto. cbn [app].
    pose proof (text_pack ds [] Hds (Forall_nil _)) as T. rewrite app_nil_r in T. rewrite <- T.
    assert (E : Z.lor d 0x80 = 128 + d).
    { assert (S : forallb (fun d => Z.lor d 0x80 =? 128 + d) (zrange 0 64) = true) by (vm_compute; reflexivity).
      rewrite forallb_forall in S. apply Z.eqb_eq, S, zrange_in. unfold six in Hd. lia. }
    rewrite E. apply TPacked; [exact Hd|apply pack_bytes; auto|rewrite pack_length; f_equal; lia|].
    cbn [length] in Hz. rewrite map_length in Hz. rewrite T. cbn [length]. rewrite map_length. exact Hz.
  - inversion Hs as [|? ? Hc0 Hs0]; subst. destruct (first_plain c Hc0 Hc) as [-> _].
    exact (TPlain kind (c :: s) _ Hs Hc Hz).
Qed.

Lemma double_written : forall f, is_double f -> ieee 52 11 (dbl_bits f) f.
Proof.
  intros f Hf. unfold ieee. change (2 ^ 11) with 2048. change (2 ^ (11 + 52)) with (2 ^ 63). change (2 ^ (11 - 1)) with 1024.
  destruct f as [s|s| |s m e]; cbn [dbl_bits]; unfold sign_bit.
  - exists s, 0, 0. repeat split; lia.
  - exists s, 2047, 0. repeat split; lia.
  - exists false, 2047, (2 ^ 51). repeat split; lia.
  - destruct (finite_parts _ _ _ Hf) as (A1 & A2 & A3). destruct (Z.pos m <? 2 ^ 52) eqn:Em.
    + assert (e = -1074) as -> by lia. exists s, 0, (Z.pos m). split; [lia|]. split; [lia|]. split; [lia|].
      split; [reflexivity|]. split; [lia|]. split; [exact Hf|]. reflexivity.
    + exists s, (e + 1075), (Z.pos m - 2 ^ 52). split; [lia|]. split; [lia|]. split; [lia|].
      split; [reflexivity|]. split; [lia|]. split; [exact Hf|]. replace (e + 1075 =? 0) with false by lia.
      f_equal; [lia|]. f_equal. lia.
Qed.

Section Writer.
Variables (L : libm) (F : bflags) (pe : enc).
Notation item := (item pe).
Notation body := (body pe).
Notation items := (items pe).

Lemma double_body : forall ks f, is_double f -> body ks (VNum (decoded_double f)) (op_double :: le_bytes 8 (dbl_bits f)) ks.
Proof.
  intros ks f Hf. destruct (bits_round_trip f Hf) as [_ B]. apply (BDouble pe ks (le_bytes 8 (dbl_bits f)) f).
  - apply le_is_bytes.
  - apply le_length.
  - rewrite <- little_value, le_round_trip by (change (256 ^ Z.of_nat 8) with (2 ^ 64); lia). apply double_written. exact Hf.
Qed.

Lemma int_body : forall ks n b, - 2 ^ 63 < n < 2 ^ 64 -> (n < 0 -> sized k_negative (- n) b) -> (0 <= n -> sized k_positive n b) ->
  body ks (VNum (decoded_int n)) b ks.
Proof.
  intros ks n b Hn H1 H2. unfold decoded_int. destruct (n <? 0) eqn:E.
  - pose proof (BNegative pe ks (- n) b (H1 ltac:(lia)) ltac:(lia)) as B. replace (- n =? 0) with false in B by lia.
    rewrite Z.opp_involutive in B. exact B.
  - apply BPositive. apply H2. lia.
Qed.

Lemma big_body : forall ks n type, bf_32 F = true -> 2 ^ 32 <= n < 2 ^ 64 -> body ks (VNum (NDbl (f_of_Z n))) (write_integer F n type) ks.
Proof.
  intros ks n type HF Hn. unfold write_integer.
  replace (n <? 10) with false by lia. replace (n <=? 255) with false by lia. replace (n <=? 65535) with false by lia.
  replace (n <=? 4294967295) with false by lia. rewrite HF.
  destruct (f_of_Z_double n ltac:(lia)) as (Hv & m & e & E). pose proof (double_body ks (f_of_Z n) Hv) as B. rewrite E in B |- *. exact B.
Qed.

Lemma sized64 : forall kind n, 1 <= kind <= 7 -> 0 <= n < 2 ^ 64 -> sized kind n (write_64bit n (16 * kind)).
Proof. intros kind n Hk Hn. apply le_sized; [exact Hk|cbn; tauto|exact Hn]. Qed.

Lemma number_body : forall ks n, bin_num L n -> body ks (VNum (decoded_num L F n)) (write_number L F n) ks.
Proof.
  assert (Kp : 1 <= k_positive <= 7) by (unfold k_positive; lia). assert (Kn : 1 <= k_negative <= 7) by (unfold k_negative; lia).
  assert (S : forall n, (bf_32 F && (2 ^ 32 <=? n)) = false -> 0 <= n < 2 ^ 64 -> 0 <= n < size_limit F)
    by (intros n; unfold size_limit; destruct (bf_32 F); cbn [andb]; lia).
  intros ks n Hn. destruct n as [n|n|f|t [|n|n]]; cbn [write_number bin_num decoded_num get_number] in *.
  - replace (Z.abs n) with n by lia. destruct (bf_32 F && (2 ^ 32 <=? n)) eqn:E.
    + apply andb_true_iff in E as [E1 E2]. apply big_body; auto; lia.
    + apply int_body; [lia|lia|]. intros _. apply (integer_sized F n k_positive Kp). auto.
  - destruct (bf_32 F && (2 ^ 32 <=? Z.abs n)) eqn:E.
    + apply andb_true_iff in E as [E1 E2]. destruct (n <? 0) eqn:En.
      * replace (Z.abs n) with (- n) in * by lia. apply big_body; auto; lia.
      * replace (Z.abs n) with n in * by lia. apply big_body; auto; lia.
    + destruct (n <? 0) eqn:En; (apply int_body; [lia| |]; intros H; try lia).
      * replace (Z.abs n) with (- n) in * by lia. apply (integer_sized F (- n) k_negative Kn). apply S; auto. lia.
      * replace (Z.abs n) with n in * by lia. apply (integer_sized F n k_positive Kp). apply S; auto. lia.
  - apply double_body. exact Hn.
  - apply double_body. exact Hn.
  - apply int_body; [lia|lia|]. intros _. apply (sized64 k_positive); [exact Kp|lia].
  - destruct (n <? 0) eqn:En; (apply int_body; [lia| |]; intros H; try lia).
    + apply (sized64 k_negative); [exact Kn|lia].
    + apply (sized64 k_positive); [exact Kp|lia].
Qed.

(** The keys written so far, as the dictionary of the serializer has them. *)
Definition listed (st : wstate) (ks : list bytes) : Prop := bf_keys F = true ->
  ws_next st = 256 + Z.of_nat (length ks) /\ ws_next st < 2 ^ 32 /\
  forall k, let id := key_id (ws_map st) k in
    id = 0 \/ (256 <= id < ws_next st /\ nth_error ks (Z.to_nat (ws_next st - id - 1)) = Some k).

Lemma key_written : forall k st ks v, bin_text F k -> listed st ks -> (bf_keys F = true -> ws_next st + 1 < 2 ^ 32) ->
  let '(kb, st1) := write_key F k st in
  ws_next st <= ws_next st1 <= ws_next st + 1 /\
  exists ks1, listed st1 ks1 /\ forall vb ks2, body ks1 v vb ks2 -> item ks (k, v) (kb ++ vb) ks2.
Proof.
  intros k st ks v Hk Hs Hn. unfold write_key. destruct k as [|c k0]; [split; [lia|]; exists ks; split; [exact Hs|intros; apply INoKey; auto]|].
  set (k := c :: k0) in *. destruct (bf_keys F) eqn:Eb.
  2:{ split; [lia|]. exists (k :: ks). split; [intros H; congruence|]. intros vb ks2 B. apply IKey; [|exact B]. apply (string_text F k k_key); auto. }
  destruct (Hs Eb) as (Hl & Hlt & Hid). specialize (Hn eq_refl).
  unfold try_compress_key. cbv zeta. pose proof (Hid k) as Ik. cbv zeta in Ik. set (id := key_id (ws_map st) k) in *.
  destruct (u32 (ws_next st - id - 1) <? 128) eqn:Ed.
  - split; [lia|]. exists ks. split; [exact Hs|]. intros vb ks2 B. destruct Ik as [Z0|[Hr Hn']].
    + exfalso. rewrite Z0 in Ed. unfold u32 in Ed. rewrite Z.mod_small in Ed by lia. lia.
    + unfold u32 in *. rewrite Z.mod_small in * by lia. set (d := ws_next st - id - 1) in *.
      destruct (short_tag d) as [T _]; [lia|]. cbn [app]. rewrite T.
      replace d with (Z.of_nat (Z.to_nat d)) by lia. apply IBack; [lia|exact Hn'|exact B].
  - cbn [ws_next]. unfold u32. rewrite Z.mod_small by lia. split; [lia|]. exists (k :: ks). split.
    + intros _. cbn [ws_next ws_map length]. split; [lia|]. split; [lia|]. intros k'. cbv zeta. rewrite key_id_cons.
      destruct (beqb k k') eqn:Ek.
      * apply beqb_eq in Ek. subst k'. right. split; [lia|]. replace (ws_next st + 1 - ws_next st - 1) with 0 by lia. reflexivity.
      * destruct (Hid k') as [H|[H H']]; [left; exact H|right]. split; [lia|].
        replace (Z.to_nat (ws_next st + 1 - key_id (ws_map st) k' - 1)) with (S (Z.to_nat (ws_next st - key_id (ws_map st) k' - 1))) by lia.
        exact H'.
    + intros vb ks2 B. apply IKey; [|exact B]. apply (string_text F k k_key); auto.
Qed.

Definition W_value (v : value) : Prop := forall st ks, bin_ok L F v -> listed st ks -> (bf_keys F = true -> ws_next st + members_in v < 2 ^ 32) ->
  let '(b, st') := write_value L F v st in
  ws_next st <= ws_next st' <= ws_next st + members_in v /\ exists ks', listed st' ks' /\ body ks (decoded L F pe v) b ks'.

Lemma item_written : forall v k st ks, W_value v -> bin_text F k -> bin_ok L F v -> listed st ks ->
  (bf_keys F = true -> ws_next st + 1 + members_in v < 2 ^ 32) ->
  let '(b, st') := write_item L F k v st in
  ws_next st <= ws_next st' <= ws_next st + 1 + members_in v /\ exists ks', listed st' ks' /\ item ks (k, decoded L F pe v) b ks'.
Proof.
  intros v k st ks Hw Hk Hv Hs Hn. pose proof (members_nonneg v) as M. rewrite write_item_eq.
  pose proof (key_written k st ks (decoded L F pe v) Hk Hs ltac:(intros H; specialize (Hn H); lia)) as K.
  destruct (write_key F k st) as [kb st1]. destruct K as (B & ks1 & L1 & Hb).
  specialize (Hw st1 ks1 Hv L1). destruct (write_value L F v st1) as [vb st2].
  destruct Hw as (B2 & ks2 & L2 & Bd); [intros H; specialize (Hn H); lia|].
  split; [lia|]. exists ks2. split; [exact L2|]. apply Hb. exact Bd.
Qed.

Definition decoded_items (l : list member) : list member := map (fun x => (fst x, decoded L F pe (snd x))) l.

Lemma items_written : forall l st ks, Forall (fun m => W_value (snd m)) l -> all_ok L F l -> listed st ks ->
  (bf_keys F = true -> ws_next st + members_of_list l < 2 ^ 32) ->
  let '(b, st') := write_items L F l st in
  ws_next st <= ws_next st' <= ws_next st + members_of_list l /\ exists ks', listed st' ks' /\ items ks (decoded_items l) b ks'.
Proof.
  induction l as [|[k v] l IH]; intros st ks Hw Hok Hs Hn; cbn [write_items].
  - split; [cbn; lia|]. exists ks. split; [exact Hs|apply ISnil].
  - inversion_clear Hw as [|? ? Hv Hw']. destruct Hok as (Hk & Hb & Hok). cbn [fst snd] in *.
    cbn [members_of_list fold_right snd] in *. fold (members_of_list l) in *.
    assert (M : 0 <= members_of_list l). { clear. induction l as [|x l IH]; [cbn; lia|]. pose proof (members_nonneg (snd x)).
      change (members_of_list (x :: l)) with (1 + members_in (snd x) + members_of_list l). lia. }
    pose proof (item_written v k st ks Hv Hk Hb Hs ltac:(intros H; specialize (Hn H); lia)) as I.
    destruct (write_item L F k v st) as [b st1]. destruct I as (B1 & ks1 & L1 & I1).
    specialize (IH st1 ks1 Hw' Hok L1 ltac:(intros H; specialize (Hn H); lia)).
    fold (write_items L F). destruct (write_items L F l st1) as [b' st2]. destruct IH as (B2 & ks2 & L2 & I2).
    split; [lia|]. exists ks2. split; [exact L2|]. cbn [decoded_items map]. eapply IScons; [exact I1|exact I2].
Qed.

Lemma value_written : forall v, W_value v.
Proof.
  induction v as [| |b|n|e s|l IH|d l IH] using value_ind'; intros st ks Hv Hs Hn; cbn [write_value members_in decoded] in *.
  - split; [lia|]. exists ks. split; [exact Hs|apply BUndef].
  - split; [lia|]. exists ks. split; [exact Hs|apply BNull].
  - split; [lia|]. exists ks. split; [exact Hs|]. destruct b; [apply BTrue|apply BFalse].
  - split; [lia|]. exists ks. split; [exact Hs|]. apply number_body. exact Hv.
  - destruct e as [e|]; (split; [lia|]); exists ks; (split; [exact Hs|]).
    + destruct Hv as [Hb Hl]. pose proof (integer_sized F (Z.of_nat (length s)) k_binary ltac:(unfold k_binary; lia) ltac:(lia)) as Z.
      pose proof (BBinary pe ks s _ Hb Z) as B. unfold write_string_bin. destruct s; exact B.
    + apply BText. apply (string_text F s k_text); [left; reflexivity|exact Hv].
  - destruct Hv as [Hl Hok]. pose proof (items_written l st ks IH Hok Hs Hn) as I.
    change (fix items (l : list member) (st : wstate) {struct l} : bytes * wstate := _) with (write_items L F).
    destruct (write_items L F l st) as [b st2]. destruct I as (B & ks2 & L2 & I). split; [exact B|]. exists ks2. split; [exact L2|].
    apply (BArray pe ks (decoded_items l)); [|exact I]. unfold decoded_items. rewrite map_length.
    apply (integer_sized F _ k_array); [unfold k_array; lia|lia].
  - destruct Hv as [Hl Hok]. pose proof (items_written l st ks IH Hok Hs Hn) as I.
    destruct (write_items L F l st) as [b st2]. destruct I as (B & ks2 & L2 & I). split; [exact B|]. exists ks2. split; [exact L2|].
    apply (BObject pe ks (decoded_items l)); [|exact I]. unfold decoded_items. rewrite map_length.
    apply (integer_sized F _ k_object); [unfold k_object; lia|lia].
Qed.

Lemma stream_written_gen : forall l st ks, Forall (fun m => bin_text F (fst m) /\ bin_ok L F (snd m)) l -> listed st ks ->
  ws_next st + session_keys (map BSend l) < 2 ^ 32 -> exists ks', items ks (decoded_items l) (fst (write_session L F (map BSend l) st)) ks'.
Proof.
  assert (NN : forall ops, 0 <= session_keys ops).
  { induction ops as [|[m|k|] ops IH]; cbn [session_keys]; try lia. pose proof (members_nonneg (snd m)). lia. }
  induction l as [|[k v] l IH]; intros st ks Hok Hs Hn; cbn [map write_session session_keys] in *.
  - exists ks. apply ISnil.
  - inversion_clear Hok as [|? ? [Hk Hv] Hok']. cbn [fst snd] in *. pose proof (NN (map BSend l)).
    pose proof (item_written v k st ks (value_written v) Hk Hv Hs ltac:(intros _; lia)) as I.
    destruct (write_item L F k v st) as [b st1]. destruct I as (B1 & ks1 & L1 & I1).
    destruct (IH st1 ks1 Hok' L1 ltac:(lia)) as [ks2 I2]. destruct (write_session L F (map BSend l) st1) as [b' st2]. cbn [fst] in *.
    exists ks2. cbn [decoded_items map]. eapply IScons; [exact I1|exact I2].
Qed.
End Writer.

Lemma stream_written : forall L F pe l, Forall (fun m => bin_text F (fst m) /\ bin_ok L F (snd m)) l ->
  session_keys (map BSend l) < 2 ^ 32 - 256 ->
  exists ks', items pe [] (map (fun m => (fst m, decoded L F pe (snd m))) l) (fst (write_session L F (map BSend l) ws_init)) ks'.
Proof.
  intros L F pe l Hok Hn. apply (stream_written_gen L F pe l ws_init []); auto; [|cbn [ws_init ws_next]; lia].
  intros _. cbn [ws_init ws_next ws_map length]. split; [reflexivity|]. split; [lia|]. intros k. left. reflexivity.
Qed.

(** *** Preloading what the serializer says it stored *)
Lemma told_gen : forall J L F pe, (forall n, is_bytes (J n)) -> forall ops st h i rest,
  Forall (fun m => bin_text F (fst m) /\ bin_ok L F (snd m)) (sent ops) -> in_step F st h i -> ws_next st + session_keys ops < 2 ^ 32 ->
  256 <= ws_next st ->
  exists p', read_session J (Some pe) (told L F ops st) (mkPS (fst (write_session L F ops st) ++ rest) h i) =
    Ok (map (fun m => (fst m, decoded L F pe (snd m))) (sent ops), p') /\ ps_in p' = rest.
Proof.
  intros J L F pe HJ. assert (NN : forall ops, 0 <= session_keys ops).
  { induction ops as [|[m|k|] ops IH]; cbn [session_keys]; try lia. pose proof (members_nonneg (snd m)). lia. }
  induction ops as [|[m|k|] ops IH]; intros st h i rest Hok Hs Hn Hn0; cbn [write_session read_session told sent session_keys] in *;
    try pose proof (NN ops).
  - exists (mkPS rest h i). split; reflexivity.
  - inversion_clear Hok as [|? ? [Hk Hv] Hok']. destruct m as [k v]. cbn [fst snd] in *. pose proof (members_nonneg v).
    pose proof (fun r => item_ok J L F pe HJ v k st h i r Hk Hv Hs ltac:(lia)) as I.
    destruct (write_item L F k v st) as [b st1].
    destruct (write_session L F ops st1) as [b' st2] eqn:Ew. destruct (I (b' ++ rest)) as (Hn1 & h1 & i1 & Hs1 & R).
    destruct (IH st1 h1 i1 rest) as (p' & E & Ep); auto; try lia.
    rewrite Ew in E. cbn [fst snd] in *. exists p'. split; [|exact Ep]. rewrite <- app_assoc. cbn [ps_in].
    rewrite (reads_fuel _ _ _ _ _ _ _ _ _ R). cbn [bind]. rewrite E. reflexivity.
  - unfold preload_writer. destruct (try_compress_key st k) as [[c|] st1] eqn:Et.
    + assert (st1 = st) as ->.
      { unfold try_compress_key in Et. cbv zeta in Et. destruct (u32 (ws_next st - key_id (ws_map st) k - 1) <? 128); [|discriminate]. congruence. }
      cbn [snd]. apply IH; auto. lia.
    + cbn [snd read_session]. unfold preload_reader.
      assert (E1 : ws_next st1 = ws_next st + 1).
      { unfold try_compress_key in Et. cbv zeta in Et. destruct (u32 (ws_next st - key_id (ws_map st) k - 1) <? 128); [discriminate|].
        injection Et as <-. cbn [ws_next]. unfold u32. apply Z.mod_small. lia. }
      unfold store_key. cbn [ps_in ps_hist ps_idx]. cbv zeta.
      match goal with |- context [mkPS _ ?h2 ?i2] => apply (IH _ h2 i2) end; auto; try lia.
      intros Hb. specialize (Hs Hb). destruct (history_miss _ _ _ _ Hs Et ltac:(lia)) as [Hs' _]. exact Hs'.
  - unfold clear_reader, clear_writer. cbn [ps_in]. apply IH; auto.
    + intros _. apply history_init.
    + cbn [ws_init ws_next]. lia.
    + cbn. lia.
Qed.
Lemma told_ok : forall J L F pe ops rest, (forall n, is_bytes (J n)) ->
  Forall (fun m => bin_text F (fst m) /\ bin_ok L F (snd m)) (sent ops) -> session_keys ops < 2 ^ 32 - 256 ->
  exists p', read_session J (Some pe) (told L F ops ws_init) (ps_init (fst (write_session L F ops ws_init) ++ rest)) =
    Ok (map (fun m => (fst m, decoded L F pe (snd m))) (sent ops), p') /\ ps_in p' = rest.
Proof.
  intros J L F pe ops rest HJ Hok Hn. apply (told_gen J L F pe HJ ops ws_init [] 0 rest); auto.
  - intros _. apply history_init.
  - cbn [ws_init ws_next]. lia.
  - cbn. lia.
Qed.
