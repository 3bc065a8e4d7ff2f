(** The binary form: integers, strings, keys, values. *)
From Coq Require Import ZifyBool.
From Verif Require Import Base ModelUtf8 ModelKeyed ModelValue ModelObject ModelEq ModelEnc ModelBin SpecEnc SpecBin
  ProofUtf8 ProofValue ProofEnc ProofFloat.
Local Open Scope Z_scope.
Ltac Zify.zify_post_hook ::= Z.div_mod_to_equations.

(** *** Reading *)
Lemma read_n_app : forall s rest h i, read_n (length s) (mkPS (s ++ rest) h i) = (s, mkPS rest h i).
Proof.
  induction s as [|c s IH]; intros; [reflexivity|]. cbn [length read_n app]. unfold read1. cbn [ps_in ps_hist ps_idx].
  rewrite IH. reflexivity.
Qed.
Lemma read_le_app : forall n v rest h i, 0 <= v < 256 ^ Z.of_nat n ->
  read_le n (mkPS (le_bytes n v ++ rest) h i) = (v, mkPS rest h i).
Proof.
  intros n v rest h i H. unfold read_le. pose proof (read_n_app (le_bytes n v) rest h i) as R. rewrite le_length in R.
  rewrite R, le_round_trip by auto. reflexivity.
Qed.

(** *** Tags *)
Definition tag_types : list Z := [op_binstring; op_posint; op_negint; op_string; op_object; op_array; op_key].
Lemma tag_parts : forall type n, In type tag_types -> 0 <= n < 16 ->
  Z.land (Z.lor type n) 0xF0 = type /\ Z.land (Z.lor type n) 0xF = n.
Proof.
  intros type n Ht Hn.
  assert (H : forallb (fun t => forallb (fun n => (Z.land (Z.lor t n) 0xF0 =? t) && (Z.land (Z.lor t n) 0xF =? n)) (zrange 0 16)) tag_types = true)
    by (vm_compute; reflexivity).
  rewrite forallb_forall in H. specialize (H type Ht). rewrite forallb_forall in H. specialize (H n (zrange_in 0 16 n Hn)). lia.
Qed.

Lemma integer_ok : forall F n type, In type tag_types -> 0 <= n < size_limit F -> exists tag tl,
  write_integer F n type = tag :: tl /\ Z.land tag 0xF0 = type /\
  forall rest h i, parse_integer tag (mkPS (tl ++ rest) h i) = (n, mkPS rest h i).
Proof.
  intros F n type Ht Hn. unfold write_integer.
  assert (T : forall l, 0 <= l < 16 -> Z.land (Z.lor type l) 0xF0 = type /\ Z.land (Z.lor type l) 0xF = l) by (intros; apply tag_parts; auto).
  destruct (n <? 10) eqn:E1.
  { exists (Z.lor type n), []. destruct (T n) as [T1 T2]; [lia|]. split; [reflexivity|]. split; [exact T1|]. intros.
    unfold parse_integer. rewrite T2. unfold op_size8, op_size16, op_size32, op_size64.
    replace (n =? 10) with false by lia. replace (n =? 11) with false by lia.
    replace (n =? 12) with false by lia. replace (n =? 13) with false by lia. reflexivity. }
  destruct (n <=? 255) eqn:E2.
  { eexists _, _. destruct (T op_size8) as [T1 T2]; [unfold op_size8; lia|]. split; [reflexivity|]. split; [exact T1|]. intros.
    unfold parse_integer. rewrite T2. cbn [Z.eqb op_size8 Pos.eqb]. apply read_le_app. cbn. lia. }
  destruct (n <=? 65535) eqn:E3.
  { eexists _, _. destruct (T op_size16) as [T1 T2]; [unfold op_size16; lia|]. split; [reflexivity|]. split; [exact T1|]. intros.
    unfold parse_integer. rewrite T2. change (op_size16 =? op_size8) with false. change (op_size16 =? op_size16) with true.
    cbv iota. apply read_le_app. change (256 ^ Z.of_nat 2) with 65536. lia. }
  destruct (n <=? 4294967295) eqn:E4.
  { eexists _, _. destruct (T op_size32) as [T1 T2]; [unfold op_size32; lia|]. split; [reflexivity|]. split; [exact T1|]. intros.
    unfold parse_integer. rewrite T2. change (op_size32 =? op_size8) with false. change (op_size32 =? op_size16) with false.
    change (op_size32 =? op_size32) with true.
    cbv iota. apply read_le_app. change (256 ^ Z.of_nat 4) with 4294967296. lia. }
  unfold size_limit in Hn. destruct (bf_32 F); [lia|].
  eexists _, _. destruct (T op_size64) as [T1 T2]; [unfold op_size64; lia|]. split; [reflexivity|]. split; [exact T1|]. intros.
  unfold parse_integer. rewrite T2. change (op_size64 =? op_size8) with false. change (op_size64 =? op_size16) with false.
  change (op_size64 =? op_size32) with false. change (op_size64 =? op_size64) with true.
  cbv iota. apply read_le_app. change (256 ^ Z.of_nat 8) with (2 ^ 64). lia.
Qed.

Lemma int64_ok : forall n type, In type tag_types -> 0 <= n < 2 ^ 64 -> exists tag tl,
  write_64bit n type = tag :: tl /\ Z.land tag 0xF0 = type /\
  forall rest h i, parse_integer tag (mkPS (tl ++ rest) h i) = (n, mkPS rest h i).
Proof.
  intros n type Ht Hn. eexists _, _. destruct (tag_parts type op_size64 Ht) as [T1 T2]; [unfold op_size64; lia|].
  split; [reflexivity|]. split; [exact T1|]. intros.
  unfold parse_integer. rewrite T2. change (op_size64 =? op_size8) with false. change (op_size64 =? op_size16) with false.
  change (op_size64 =? op_size32) with false. change (op_size64 =? op_size64) with true.
  cbv iota. apply read_le_app. change (256 ^ Z.of_nat 8) with (2 ^ 64). lia.
Qed.

(** *** Token strings *)
Lemma four_ind : forall (A : Type) (P : list A -> Prop), P [] -> (forall a, P [a]) -> (forall a b, P [a; b]) -> (forall a b c, P [a; b; c]) ->
  (forall a b c d s, P s -> P (a :: b :: c :: d :: s)) -> forall s, P s.
Proof.
  intros A P H0 H1 H2 H3 H4 s.
  enough (P s /\ (forall a, P (a :: s)) /\ (forall a b, P (a :: b :: s)) /\ (forall a b c, P (a :: b :: c :: s))) by tauto.
  induction s as [|x s (I1 & I2 & I3 & I4)]; auto.
Qed.

(** Six-bit digits packed into bytes. *)
Fixpoint pack (ds : list Z) : bytes :=
  match ds with
  | [] => []
  | [a] => [a * 4]
  | [a; b] => [a * 4 + b / 16; b mod 16 * 16]
  | [a; b; c] => [a * 4 + b / 16; b mod 16 * 16 + c / 4; c mod 4 * 64]
  | a :: b :: c :: d :: ds' => [a * 4 + b / 16; b mod 16 * 16 + c / 4; c mod 4 * 64 + d] ++ pack ds'
  end.
Definition six (d : Z) : Prop := 0 <= d < 64.

Ltac six_inv := repeat match goal with H : Forall six (_ :: _) |- _ => inversion H; clear H; subst end; unfold six in *.

Lemma decode_pack : forall ds rd out cur, Forall six ds -> rd mod 4 = 0 ->
  b64_decode_loop true (map (b64_digit true) ds) rd out cur = out ++ pack ds.
Proof.
  induction ds as [| a | a b | a b c | a b c d ds IH] using four_ind; intros rd out cur Hd Hr; six_inv.
  - cbn [map b64_decode_loop pack]. rewrite Hr, app_nil_r. reflexivity.
  - cbn [map b64_decode_loop]. rewrite land3, Hr, b64_table_digit by auto. cbn [Z.eqb].
    replace ((rd + 1) mod 4) with 1 by lia. cbn [Z.eqb Pos.eqb pack]. rewrite shl2. unfold to_byte. f_equal. f_equal. apply Z.mod_small. lia.
  - cbn [map b64_decode_loop]. rewrite !land3, Hr, !b64_table_digit by auto. cbn [Z.eqb].
    replace ((rd + 1) mod 4) with 1 by lia. replace ((rd + 1 + 1) mod 4) with 2 by lia. cbn [Z.eqb Pos.eqb pack].
    rewrite shl2, shr4, shl4. unfold to_byte. replace (a * 4 mod 256) with (a * 4) by lia.
    rewrite lor4 by lia. rewrite <- app_assoc. cbn [app]. f_equal. f_equal. f_equal. lia.
  - cbn [map b64_decode_loop]. rewrite !land3, Hr, !b64_table_digit by auto. cbn [Z.eqb].
    replace ((rd + 1) mod 4) with 1 by lia. replace ((rd + 1 + 1) mod 4) with 2 by lia.
    replace ((rd + 1 + 1 + 1) mod 4) with 3 by lia. cbn [Z.eqb Pos.eqb pack].
    rewrite shl2, shr4, shl4, shr2, shl6. unfold to_byte. replace (a * 4 mod 256) with (a * 4) by lia.
    replace (b * 16 mod 256) with (b mod 16 * 16) by lia.
    rewrite lor4, lor16 by lia. rewrite <- !app_assoc. cbn [app]. f_equal. do 3 f_equal. lia.
  - change (map (b64_digit true) (a :: b :: c :: d :: ds)) with (quad true a b c d ++ map (b64_digit true) ds).
    rewrite decode_quad by auto. rewrite IH by (auto; lia). cbn [pack]. rewrite <- app_assoc. reflexivity.
Qed.

Lemma pack_bytes : forall ds, Forall six ds -> is_bytes (pack ds).
Proof.
  induction ds as [| a | a b | a b c | a b c d ds IH] using four_ind; intros Hd; six_inv; cbn [pack app];
    repeat constructor; unfold is_byte; try lia. apply IH. auto.
Qed.
Lemma pack_length : forall ds, length (pack ds) = ((length ds * 3 + 3) / 4)%nat.
Proof.
  induction ds as [| a | a b | a b c | a b c d ds IH] using four_ind; try reflexivity.
  cbn [pack app length]. rewrite IH.
  replace (S (S (S (S (length ds)))) * 3 + 3)%nat with ((length ds * 3 + 3) + 3 * 4)%nat by lia.
  rewrite Nat.div_add by lia. lia.
Qed.

(** Whatever follows in the buffer, the digits come back. *)
Lemma text_pack : forall ds junk, Forall six ds -> is_bytes junk ->
  firstn (length ds) (b64_text true false (pack ds ++ junk)) = map (b64_digit true) ds.
Proof.
  induction ds as [| a | a b | a b c | a b c d ds IH] using four_ind; intros junk Hd Hj; six_inv; [reflexivity| | | |].
  - unfold is_bytes in Hj. destruct junk as [|x [|y junk]]; cbn [pack app length map];
      repeat match goal with H : Forall is_byte (_ :: _) |- _ => inversion H; clear H; subst end; unfold is_byte in *;
      cbn [b64_text app firstn]; apply cons_eq; auto; f_equal; lia.
  - unfold is_bytes in Hj. destruct junk as [|x junk]; cbn [pack app length map];
      repeat match goal with H : Forall is_byte (_ :: _) |- _ => inversion H; clear H; subst end; unfold is_byte in *;
      cbn [b64_text app firstn]; (apply cons_eq; [f_equal; lia|]); (apply cons_eq; [f_equal; lia|]); reflexivity.
  - cbn [pack app length map]. cbn [b64_text app firstn].
    (apply cons_eq; [f_equal; lia|]); (apply cons_eq; [f_equal; lia|]); (apply cons_eq; [f_equal; lia|]); reflexivity.
  - cbn [pack app length map]. cbn [b64_text app firstn].
    (apply cons_eq; [f_equal; lia|]); (apply cons_eq; [f_equal; lia|]); (apply cons_eq; [f_equal; lia|]); (apply cons_eq; [f_equal; lia|]).
    apply IH; auto.
Qed.

Lemma token_digit : forall c, is_alnum c || (c =? 95) || (c =? 45) = true -> exists d, six d /\ c = b64_digit true d.
Proof.
  intros c H.
  assert (0 <= c < 128) as Hc by (unfold is_alnum in H; lia).
  assert (S : forallb (fun c => negb (is_alnum c || (c =? 95) || (c =? 45)) || existsb (fun d => c =? b64_digit true d) (zrange 0 64)) (zrange 0 128) = true)
    by (vm_compute; reflexivity).
  pose proof (sweep _ 0 128 S c Hc) as P. cbv beta in P. rewrite H in P. cbn [negb orb] in P.
  apply existsb_exists in P as (d & Hd & E). exists d. split; [|lia].
  unfold zrange in Hd. apply in_map_iff in Hd as (x & Ex & Hx). apply in_seq in Hx. unfold six. lia.
Qed.
Lemma token_digits : forall s, forallb (fun c => is_alnum c || (c =? 95) || (c =? 45)) s = true ->
  exists ds, Forall six ds /\ s = map (b64_digit true) ds.
Proof.
  induction s as [|c s IH]; intros H; [exists []; auto|]. cbn [forallb] in H. apply andb_true_iff in H as [H1 H2].
  destruct (token_digit c H1) as (d & Hd & ->). destruct (IH H2) as (ds & Hds & ->). exists (d :: ds). auto.
Qed.

(** *** Strings *)
Section Strings.
Variables (J : nat -> bytes) (F : bflags).
Hypothesis HJ : forall n, is_bytes (J n).

Lemma first_token : forall d, six d ->
  Z.land (Z.lor d 0x80) 0xC0 = 0x80 /\ b64_char true (Z.land (Z.lor d 0x80) 0x3F) = b64_digit true d.
Proof.
  intros d H.
  assert (S : forallb (fun d => (Z.land (Z.lor d 0x80) 0xC0 =? 0x80) && (b64_char true (Z.land (Z.lor d 0x80) 0x3F) =? b64_digit true d)) (zrange 0 64) = true)
    by (vm_compute; reflexivity).
  pose proof (sweep _ 0 64 S d H) as P. cbv beta in P. lia.
Qed.
Lemma first_plain : forall c, is_byte c -> ~ (128 <= c < 192) ->
  Z.lor c (Z.shiftr (Z.land c 0x80) 1) = c /\ (Z.land c 0xC0 =? 0x80) = false.
Proof.
  intros c H Hn.
  assert (S : forallb (fun c => ((128 <=? c) && (c <? 192)) || ((Z.lor c (Z.shiftr (Z.land c 0x80) 1) =? c) && negb (Z.land c 0xC0 =? 0x80))) (zrange 0 256) = true)
    by (vm_compute; reflexivity).
  pose proof (sweep _ 0 256 S c H) as P. cbv beta in P. lia.
Qed.

Lemma string_ok : forall s type, In type tag_types -> type <> op_binstring -> bin_text F s -> exists tag tl,
  write_string_bin F s type = tag :: tl /\ Z.land tag 0xF0 = type /\
  forall rest h i, parse_string_bin J None tag (mkPS (tl ++ rest) h i) = (VStr None s, mkPS rest h i).
Proof.
  intros s type Ht Hb (Hs & Hl & Hc). unfold write_string_bin.
  destruct (integer_ok F (Z.of_nat (length s)) type Ht) as (tag & tl & -> & Hg & Hi); [lia|].
  exists tag. eexists. split; [reflexivity|]. split; [exact Hg|]. intros rest h i. unfold parse_string_bin.
  rewrite <- app_assoc, Hi. cbv iota beta zeta. rewrite Nat2Z.id. destruct s as [|c s]; [reflexivity|].
  cbn [length]. inversion_clear Hs as [|? ? Hc0 Hs0].
  replace (type =? op_binstring) with false by lia.
  destruct (bf_tokens F && can_compress (c :: s)) eqn:Et.
  - apply andb_true_iff in Et as [_ Et]. unfold can_compress in Et. apply andb_true_iff in Et as [_ Et].
    cbn [forallb] in Et. apply andb_true_iff in Et as [Et1 Et2].
    destruct (token_digit c Et1) as (d & Hd & ->). destruct (token_digits s Et2) as (ds & Hds & ->).
    rewrite b64_table_digit by auto. destruct (first_token d Hd) as [F1 F2].
    cbn [app]. unfold read1 at 1. cbn [ps_in ps_hist ps_idx]. rewrite F1. cbn [Z.eqb Pos.eqb]. cbv zeta.
    rewrite map_length. unfold b64_decoder_core. rewrite decode_pack by auto. cbn [app].
    pose proof (read_n_app (pack ds) rest h i) as R. rewrite pack_length in R. rewrite R.
    rewrite b64_encode_spec by (apply Forall_app; split; [apply pack_bytes; auto|apply HJ]).
    rewrite F2, text_pack by (auto; apply HJ). reflexivity.
  - destruct (first_plain c Hc0 Hc) as [F1 F2]. rewrite F1. cbn [app]. unfold read1 at 1. cbn [ps_in ps_hist ps_idx].
    rewrite F2. rewrite read_n_app. reflexivity.
Qed.

Lemma binstring_ok : forall s pe, is_bytes s -> Z.of_nat (length s) < size_limit F -> exists tag tl,
  write_string_bin F s op_binstring = tag :: tl /\ Z.land tag 0xF0 = op_binstring /\
  forall rest h i, parse_string_bin J (Some pe) tag (mkPS (tl ++ rest) h i) =
    (match s with [] => VStr None [] | _ => VStr (Some pe) s end, mkPS rest h i).
Proof.
  intros s pe Hs Hl. unfold write_string_bin.
  destruct (integer_ok F (Z.of_nat (length s)) op_binstring) as (tag & tl & -> & Hg & Hi); [left; reflexivity|lia|].
  exists tag. eexists. split; [reflexivity|]. split; [exact Hg|]. intros rest h i. unfold parse_string_bin.
  rewrite <- app_assoc, Hi. cbv iota beta zeta. rewrite Nat2Z.id. destruct s as [|c s]; [reflexivity|].
  change (op_binstring =? op_binstring) with true. cbv iota.
  pose proof (read_n_app (c :: s) rest h i) as R. cbn [length] in *. rewrite R. reflexivity.
Qed.
End Strings.
