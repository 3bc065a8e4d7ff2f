(** Lemmas about JSON text: strings and integers. *)
From Coq Require Import ZifyBool Sorted.
From Verif Require Import Base ModelUtf8 SpecUtf8 ProofUtf8 ModelKeyed SpecKeyed ProofKeyed
  ModelValue ModelText SpecText.
Local Open Scope Z_scope.
Ltac Zify.zify_post_hook ::= Z.div_mod_to_equations.

(** *** Reading string literals *)
Lemma store_unicode_cp : forall c, is_cp c -> store_unicode c = utf8_bytes c.
Proof.
  intros c H. unfold store_unicode. unfold is_cp in H.
  assert (s32 c = c) as ->.
  { unfold s32. rewrite Z.mod_small by lia. replace (c <? 2 ^ 31) with true by lia. reflexivity. }
  rewrite wide_to_utf8_spec by (constructor; auto). unfold utf8_encode. simpl. apply app_nil_r.
Qed.

(** Bytes which the reader hands to the UTF-8 decoder. *)
Definition passes (c : Z) : Prop := c <> -1 /\ c <> 34 /\ c <> 92.

Lemma read_string_run : forall bs st acc s,
  Forall passes bs ->
  read_string st acc (bs ++ s) =
  let '(st', ws) := utf8_to_wide st bs in read_string st' (acc ++ flat_map store_unicode ws) s.
Proof.
  induction bs as [|c bs IH]; intros st acc s H.
  - simpl. rewrite app_nil_r. reflexivity.
  - inversion_clear H as [|? ? Hc Hbs]. destruct Hc as (H1 & H2 & H3).
    cbn [app read_string utf8_to_wide].
    rewrite (proj2 (Z.eqb_neq _ _) H1), (proj2 (Z.eqb_neq _ _) H2), (proj2 (Z.eqb_neq _ _) H3).
    destruct (utf8_step st c) as [st1 o1]. rewrite IH by assumption.
    destruct (utf8_to_wide st1 bs) as [st2 o2]. rewrite flat_map_app, app_assoc. reflexivity.
Qed.

Lemma utf8_bytes_passes : forall sg c, is_cp c -> c <> 34 -> c <> 92 ->
  Forall passes (map (as_source sg) (utf8_bytes c)).
Proof.
  intros sg c H H1 H2. pose proof (utf8_bytes_range c H) as Hr. pose proof (utf8_bytes_not_ff c H) as Hf.
  assert (Forall (fun b => b <> 34 /\ b <> 92) (utf8_bytes c)) as Hq.
  { unfold is_cp in H. unfold utf8_bytes.
    destruct (c <? 0x80) eqn:E1; [repeat constructor; lia|].
    destruct (c <? 0x800) eqn:E2; [repeat constructor; lia|].
    destruct (c <? 0x10000) eqn:E3; repeat constructor; lia. }
  apply Forall_map. unfold is_bytes in Hr. rewrite Forall_forall in *. intros b Hb.
  specialize (Hr b Hb). specialize (Hf b Hb). specialize (Hq b Hb). simpl in *.
  unfold passes. split; [apply as_source_eof; auto|].
  destruct (Z_lt_le_dec b 128).
  - rewrite as_source_low by (unfold is_byte in Hr; lia). exact Hq.
  - pose proof (as_source_high sg b Hr l). lia.
Qed.

Lemma read_string_cp : forall sg c st acc s, is_cp c -> c <> 34 -> c <> 92 ->
  exists st', read_string st acc (map (as_source sg) (utf8_bytes c) ++ s) =
              read_string st' (acc ++ utf8_bytes c) s.
Proof.
  intros sg c st acc s H H1 H2. rewrite read_string_run by (apply utf8_bytes_passes; auto).
  destruct (decode_cp sg c st H) as [st' ->]. exists st'. simpl.
  rewrite store_unicode_cp by auto. rewrite app_nil_r. reflexivity.
Qed.

Lemma hex_char_low : forall c v, hex_char c v -> 0 <= c < 128.
Proof. unfold hex_char. intros; lia. Qed.

Lemma hex_char_val : forall c v, hex_char c v -> hex_val c = v /\ 0 <= v < 16.
Proof.
  unfold hex_char, hex_val, isdigit. intros c v [[H ->]|[[H ->]|[H ->]]].
  - replace ((48 <=? c) && (c <=? 57)) with true by lia. lia.
  - replace ((48 <=? c) && (c <=? 57)) with false by lia.
    replace ((65 <=? c) && (c <=? 70)) with true by lia. lia.
  - replace ((48 <=? c) && (c <=? 57)) with false by lia.
    replace ((65 <=? c) && (c <=? 70)) with false by lia.
    replace ((97 <=? c) && (c <=? 102)) with true by lia. lia.
Qed.

Lemma read_string_escape : forall e x st acc s,
  In (e, x) escape_pairs ->
  read_string st acc (92 :: e :: s) = read_string st (acc ++ [x]) s.
Proof.
  intros e x st acc s H. unfold escape_pairs in H. simpl in H.
  repeat destruct H as [H|H]; try (inversion H; subst; reflexivity).
Qed.

Lemma read_string_hex : forall a b c d va vb vc vd st acc s,
  hex_char a va -> hex_char b vb -> hex_char c vc -> hex_char d vd ->
  read_string st acc (92 :: 117 :: a :: b :: c :: d :: s) =
  read_string st (acc ++ utf8_bytes (va * 4096 + vb * 256 + vc * 16 + vd)) s.
Proof.
  intros a b c d va vb vc vd st acc s Ha Hb Hc Hd.
  apply hex_char_val in Ha as [Ha Ra]. apply hex_char_val in Hb as [Hb Rb].
  apply hex_char_val in Hc as [Hc Rc]. apply hex_char_val in Hd as [Hd Rd].
  cbn [read_string]. simpl Z.eqb. cbv iota. change (simple_escape 117) with (@None Z). cbv iota.
  change (117 =? 117) with true. cbv iota.
  unfold unicode4. rewrite Ha, Hb, Hc, Hd.
  rewrite store_unicode_cp by (unfold is_cp; lia).
  replace (((va * 16 + vb) * 16 + vc) * 16 + vd) with (va * 4096 + vb * 256 + vc * 16 + vd) by lia.
  reflexivity.
Qed.

Lemma escape_low : forall e x, In (e, x) escape_pairs -> 0 <= e < 128.
Proof.
  intros e x H. unfold escape_pairs in H. simpl in H.
  repeat destruct H as [H|H]; try (inversion H; subst; lia).
Qed.

Lemma read_string_jstr : forall s b, jstr s b ->
  forall sg st acc rest,
  read_string st acc (map (as_source sg) b ++ 34 :: rest) = Ok (acc ++ s, rest).
Proof.
  induction 1 as [|c s b Hc H32 H34 H92 Hs IH|e x s b He Hs IH|a b c d va vb vc vd s t Ha Hb Hc Hd Hs IH];
    intros sg st acc rest.
  - simpl. rewrite app_nil_r. reflexivity.
  - rewrite map_app, <- app_assoc.
    destruct (read_string_cp sg c st acc (map (as_source sg) b ++ 34 :: rest)) as [st' ->]; auto.
    rewrite IH, app_assoc. reflexivity.
  - cbn [map app]. rewrite (as_source_low sg 92) by lia.
    rewrite (as_source_low sg e) by (eapply escape_low; eauto).
    rewrite (read_string_escape e x) by auto. rewrite IH, <- app_assoc. reflexivity.
  - cbn [map app]. rewrite (as_source_low sg 92), (as_source_low sg 117) by lia.
    rewrite (as_source_low sg a), (as_source_low sg b), (as_source_low sg c), (as_source_low sg d)
      by (eapply hex_char_low; eassumption).
    rewrite (read_string_hex a b c d va vb vc vd) by auto. rewrite IH, app_assoc. reflexivity.
Qed.

(** *** Writing string literals *)
Lemma hex_digit_char : forall d, 0 <= d < 16 -> hex_char (hex_digit d) d.
Proof.
  intros d H. unfold hex_char, hex_digit. destruct (d <? 10) eqn:E; lia.
Qed.

Lemma land_15 : forall x, Z.land x 0xF = x mod 16.
Proof. intros. change 0xF with (Z.ones 4). rewrite Z.land_ones by lia. reflexivity. Qed.

Lemma jstr_u : forall u s b, 0 <= u <= 0xFFFF -> jstr s b ->
  jstr (utf8_bytes u ++ s)
    ((92 :: 117 :: map (fun i => hex_digit (Z.land (Z.shiftr u ((3 - i) * 4)) 0xF)) [0; 1; 2; 3]) ++ b).
Proof.
  intros u s b Hu Hb. cbn [map app].
  rewrite !land_15. rewrite !Z.shiftr_div_pow2 by lia.
  change (2 ^ ((3 - 0) * 4)) with 4096. change (2 ^ ((3 - 1) * 4)) with 256.
  change (2 ^ ((3 - 2) * 4)) with 16. change (2 ^ ((3 - 3) * 4)) with 1.
  rewrite Z.div_1_r.
  assert (u = (u / 4096) mod 16 * 4096 + (u / 256) mod 16 * 256 + (u / 16) mod 16 * 16 + u mod 16) as Hx by lia.
  rewrite Hx at 1. apply js_hex; auto; apply hex_digit_char; lia.
Qed.

Lemma u32_small : forall c, 0 <= c < 2 ^ 32 -> u32 c = c.
Proof. intros. apply Z.mod_small; lia. Qed.
Lemma s32_small : forall c, 0 <= c < 2 ^ 31 -> s32 c = c.
Proof.
  intros c H. unfold s32. rewrite Z.mod_small by lia.
  replace (c <? 2 ^ 31) with true by lia. reflexivity.
Qed.

(** What one written code point denotes. *)
Lemma write_unicode_jstr : forall utf8 c s b,
  cp_ok utf8 c -> c <> 34 -> c <> 92 -> jstr s b ->
  jstr (utf8_bytes c ++ s) (write_unicode utf8 c ++ b).
Proof.
  intros utf8 c s b Hc H1 H2 Hb. unfold write_unicode.
  assert (is_cp c) as Hcp by (unfold cp_ok, is_cp in *; destruct utf8; lia).
  assert (0 <= c <= 0x10FFFF) as Hr by exact Hcp.
  rewrite u32_small by lia. rewrite s32_small by lia.
  destruct (utf8 && (128 <=? c) && negb (c =? 8232) && negb (c =? 8233)) eqn:E.
  - cbn [wide_to_utf8]. replace (c =? -1) with false by lia. rewrite app_nil_r.
    rewrite wide_to_utf8_1_spec by auto. apply js_char; auto. lia.
  - destruct utf8.
    + apply jstr_u; auto. lia.
    + apply jstr_u; auto.
Qed.

Lemma write_direct_high : forall c, 128 <= c -> write_direct c = None.
Proof.
  intros c H. unfold write_direct.
  replace (c =? 92) with false by lia. replace (c =? 34) with false by lia.
  replace (c =? 12) with false by lia. replace (c =? 8) with false by lia.
  replace (c =? 13) with false by lia. replace (c =? 10) with false by lia.
  replace (c =? 9) with false by lia. replace (128 <=? c) with true by lia.
  rewrite orb_true_r. reflexivity.
Qed.

Lemma write_body_run : forall utf8 bs st t,
  Forall (fun c => 128 <= c) bs ->
  write_body utf8 st (bs ++ t) =
  let '(st', ws) := utf8_to_wide st bs in
  flat_map (write_unicode utf8) ws ++ write_body utf8 st' t.
Proof.
  intros utf8. induction bs as [|c bs IH]; intros st t H; [reflexivity|].
  inversion_clear H as [|? ? Hc Hbs]. cbn [app write_body utf8_to_wide].
  rewrite write_direct_high by auto. replace (c =? -1) with false by lia.
  destruct (utf8_step st c) as [st1 o1]. rewrite IH by auto.
  destruct (utf8_to_wide st1 bs) as [st2 o2]. rewrite flat_map_app, app_assoc. reflexivity.
Qed.

Lemma utf8_bytes_high : forall c, is_cp c -> 128 <= c -> Forall (fun b => 128 <= b) (utf8_bytes c).
Proof.
  unfold is_cp, utf8_bytes. intros c H H1.
  replace (c <? 0x80) with false by lia.
  destruct (c <? 0x800) eqn:E2; [repeat constructor; lia|].
  destruct (c <? 0x10000) eqn:E3; repeat constructor; lia.
Qed.

Lemma write_body_jstr : forall utf8 cs, Forall (cp_ok utf8) cs ->
  forall st, jstr (utf8_encode cs) (write_body utf8 st (utf8_encode cs)).
Proof.
  intros utf8. induction 1 as [|c cs Hc Hcs IH]; intros st; [constructor|].
  assert (is_cp c) as Hcp by (unfold cp_ok, is_cp in *; destruct utf8; lia).
  assert (0 <= c <= 0x10FFFF) as Hr by exact Hcp.
  change (utf8_encode (c :: cs)) with (utf8_bytes c ++ utf8_encode cs).
  destruct (Z_lt_le_dec c 128) as [Hl|Hl].
  - assert (utf8_bytes c = [c]) as E.
    { unfold utf8_bytes. replace (c <? 0x80) with true by lia. reflexivity. }
    rewrite E. cbn [app write_body].
    unfold write_direct.
    destruct ((c =? 92) || (c =? 34)) eqn:E1.
    { cbn [app]. apply js_esc; auto. unfold escape_pairs. simpl.
      assert (c = 92 \/ c = 34) as [->| ->] by lia; auto. }
    destruct (c =? 12) eqn:E2; [replace c with 12 by lia; apply js_esc; auto; simpl; tauto|].
    destruct (c =? 8) eqn:E3; [replace c with 8 by lia; apply js_esc; auto; simpl; tauto|].
    destruct (c =? 13) eqn:E4; [replace c with 13 by lia; apply js_esc; auto; simpl; tauto|].
    destruct (c =? 10) eqn:E5; [replace c with 10 by lia; apply js_esc; auto; simpl; tauto|].
    destruct (c =? 9) eqn:E6; [replace c with 9 by lia; apply js_esc; auto; simpl; tauto|].
    destruct ((c <? 32) || (128 <=? c)) eqn:E7.
    + pose proof (step_ascii false st c ltac:(lia)) as Hs. simpl as_source in Hs. rewrite Hs.
      cbn [flat_map]. rewrite app_nil_r. change (c :: utf8_encode cs) with ([c] ++ utf8_encode cs).
      rewrite <- E. apply write_unicode_jstr; auto; lia.
    + cbn [app]. change (c :: utf8_encode cs) with ([c] ++ utf8_encode cs).
      change (c :: write_body utf8 st (utf8_encode cs)) with ([c] ++ write_body utf8 st (utf8_encode cs)).
      rewrite <- E. apply js_char; auto; lia.
  - rewrite write_body_run by (apply utf8_bytes_high; auto).
    pose proof (decode_cp false c st Hcp) as [st' Hd].
    replace (map (as_source false) (utf8_bytes c)) with (utf8_bytes c) in Hd
      by (symmetry; apply map_id).
    rewrite Hd. cbn [flat_map]. rewrite app_nil_r.
    apply write_unicode_jstr; auto; lia.
Qed.

Lemma write_string_body_jstr : forall utf8 s, text_ok utf8 s -> jstr s (write_string_body utf8 s).
Proof. intros utf8 s (cs & H & ->). apply write_body_jstr; auto. Qed.

(** The body is pure ASCII in escaped mode, for any input at all. *)
Lemma write_unicode_ascii : forall c, Forall (fun b => 32 <= b < 128) (write_unicode false c).
Proof.
  intros c. unfold write_unicode. simpl andb. cbv iota.
  constructor; [lia|]. constructor; [lia|]. apply Forall_map. apply Forall_forall. intros i _.
  rewrite land_15. unfold hex_digit.
  pose proof (Z.mod_pos_bound (Z.shiftr (u32 c) ((3 - i) * 4)) 16 ltac:(lia)).
  destruct (Z.shiftr (u32 c) ((3 - i) * 4) mod 16 <? 10) eqn:E; lia.
Qed.

Lemma write_body_ascii : forall t st, Forall (fun b => 32 <= b < 128) (write_body false st t).
Proof.
  induction t as [|c t IH]; intros st; cbn [write_body]; [constructor|].
  destruct (write_direct c) as [o|] eqn:E.
  - apply Forall_app; split; auto. unfold write_direct in E.
    destruct ((c =? 92) || (c =? 34)) eqn:E1; [inversion E; subst; repeat constructor; lia|].
    destruct (c =? 12) eqn:E2; [inversion E; subst; repeat constructor; lia|].
    destruct (c =? 8) eqn:E3; [inversion E; subst; repeat constructor; lia|].
    destruct (c =? 13) eqn:E4; [inversion E; subst; repeat constructor; lia|].
    destruct (c =? 10) eqn:E5; [inversion E; subst; repeat constructor; lia|].
    destruct (c =? 9) eqn:E6; [inversion E; subst; repeat constructor; lia|].
    destruct ((c <? 32) || (128 <=? c)) eqn:E7; [discriminate|].
    inversion E; subst; repeat constructor; lia.
  - destruct (utf8_step st c) as [st1 ws]. apply Forall_app; split; auto.
    clear. induction ws; cbn [flat_map]; [constructor|]. apply Forall_app; split; auto using write_unicode_ascii.
Qed.

(** *** Integers *)
Lemma dec_value_app1 : forall ds c, dec_value (ds ++ [c]) = dec_value ds * 10 + (c - 48).
Proof. intros. unfold dec_value. rewrite fold_left_app. reflexivity. Qed.

Lemma write_unsigned_rec_spec : forall fuel v,
  0 <= v < 10 ^ Z.of_nat fuel ->
  Forall digit_char (write_unsigned_rec fuel v) /\
  dec_value (write_unsigned_rec fuel v) = v /\
  (v = 0 -> write_unsigned_rec fuel v = []) /\
  (0 < v -> exists c t, write_unsigned_rec fuel v = c :: t /\ c <> 48).
Proof.
  induction fuel as [|fuel IH]; intros v Hv.
  - change (10 ^ Z.of_nat 0) with 1 in Hv. simpl. repeat split; try constructor; try lia; unfold dec_value; simpl; lia.
  - cbn [write_unsigned_rec]. destruct (v =? 0) eqn:E.
    + repeat split; try lia; try constructor. unfold dec_value; simpl; lia.
    + assert (0 <= v / 10 < 10 ^ Z.of_nat fuel) as Hq.
      { rewrite Nat2Z.inj_succ, Z.pow_succ_r in Hv by lia.
        split; [apply Z.div_pos; lia|]. apply Z.div_lt_upper_bound; lia. }
      destruct (IH _ Hq) as (H1 & H2 & H3 & H4).
      repeat split.
      * apply Forall_app; split; auto. constructor; [|constructor]. unfold digit_char. lia.
      * rewrite dec_value_app1, H2. lia.
      * lia.
      * intros _. destruct (Z.eq_dec (v / 10) 0) as [Z0|Z0].
        { rewrite (H3 Z0). exists (48 + v mod 10), []. split; [reflexivity|lia]. }
        { destruct H4 as (c & t & Hc & Hn); [lia|]. rewrite Hc. simpl. eauto. }
Qed.

Lemma write_unsigned_spec : forall n, 0 <= n < 2 ^ 64 ->
  write_unsigned n <> [] /\ Forall digit_char (write_unsigned n) /\
  dec_value (write_unsigned n) = n /\
  (write_unsigned n = [48] \/ exists c t, write_unsigned n = c :: t /\ c <> 48).
Proof.
  intros n H. unfold write_unsigned. destruct (n =? 0) eqn:E.
  - repeat split; try discriminate; auto.
    + repeat constructor; unfold digit_char; lia.
    + unfold dec_value; simpl; lia.
  - destruct (write_unsigned_rec_spec 20 n) as (H1 & H2 & H3 & H4).
    { change (10 ^ Z.of_nat 20) with 100000000000000000000. lia. }
    destruct H4 as (c & t & Hc & Hn); [lia|].
    repeat split; auto.
    + rewrite Hc. discriminate.
    + right. eauto.
Qed.

(** Digit runs in the parser. *)
Lemma isdigit_spec : forall c, isdigit c = true <-> digit_char c.
Proof. unfold isdigit, digit_char. intros; lia. Qed.

Lemma dec_fold_ge : forall ds a, 0 <= a -> Forall digit_char ds ->
  a <= fold_left (fun a c => a * 10 + (c - 48)) ds a.
Proof.
  induction ds as [|c ds IH]; intros a Ha H; simpl; [lia|].
  inversion_clear H as [|? ? Hc Hds]. unfold digit_char in Hc.
  specialize (IH (a * 10 + (c - 48)) ltac:(lia) Hds). lia.
Qed.

(** The accumulator is exact below 2^64, and the overflow test fires exactly
    when the value of the digits read so far would reach 2^64. *)
Lemma pu_step_exact : forall a c, 0 <= a < 2 ^ 64 -> digit_char c ->
  a * 10 + (c - 48) < 2 ^ 64 ->
  (overflow_detection <? a) = false /\
  u64 (a * 10 + (c - 48)) = a * 10 + (c - 48) /\
  (u64 (a * 10 + (c - 48)) <? a) = false.
Proof.
  intros a c Ha Hc Hlt. unfold digit_char in Hc.
  change overflow_detection with 1844674407370955161.
  assert (u64 (a * 10 + (c - 48)) = a * 10 + (c - 48)) as E by (unfold u64; apply Z.mod_small; lia).
  rewrite E. repeat split; lia.
Qed.

Lemma pu_step_overflow : forall a c, 0 <= a < 2 ^ 64 -> digit_char c ->
  2 ^ 64 <= a * 10 + (c - 48) ->
  (overflow_detection <? a) || (u64 (a * 10 + (c - 48)) <? a) = true.
Proof.
  intros a c Ha Hc Hge. unfold digit_char in Hc.
  change overflow_detection with 1844674407370955161.
  destruct (1844674407370955161 <? a) eqn:E; [reflexivity|]. simpl.
  assert (u64 (a * 10 + (c - 48)) = a * 10 + (c - 48) - 2 ^ 64) as ->.
  { unfold u64. symmetry. apply Z.mod_unique with 1; lia. }
  lia.
Qed.

(** Characters that end a digit run (or nothing). *)
Definition hd_eof (s : list Z) : Z := hd (-1) s.

Lemma pu_loop_run : forall ds a cnt c s,
  Forall digit_char (c :: ds) -> isdigit (hd_eof s) = false -> 0 <= a ->
  fold_left (fun a c => a * 10 + (c - 48)) (c :: ds) a < 2 ^ 64 ->
  pu_loop a cnt c (ds ++ s) =
  (true, fold_left (fun a c => a * 10 + (c - 48)) (c :: ds) a, cnt + Z.of_nat (S (length ds)), hd_eof s, tl s).
Proof.
  induction ds as [|d ds IH]; intros a cnt c s Hd Hs Ha Hv.
  - inversion_clear Hd as [|? ? Hc _]. simpl fold_left in *.
    assert (a < 2 ^ 64) by (unfold digit_char in Hc; lia).
    destruct (pu_step_exact a c) as (E1 & E2 & E3); auto.
    assert (isdigit c = true) as Hdc by (apply isdigit_spec; auto).
    cbn [app]. destruct s as [|c' s'].
    + cbn [pu_loop]. rewrite Hdc, E1, E3, E2. simpl. reflexivity.
    + cbn [pu_loop]. rewrite Hdc, E1, E3, E2. simpl in Hs.
      destruct s'; cbn [pu_loop]; rewrite Hs; simpl; do 3 f_equal; lia.
  - inversion_clear Hd as [|? ? Hc Hds].
    change (fold_left (fun a c => a * 10 + (c - 48)) (c :: d :: ds) a) with
           (fold_left (fun a c => a * 10 + (c - 48)) (d :: ds) (a * 10 + (c - 48))) in *.
    assert (a * 10 + (c - 48) <= fold_left (fun a c => a * 10 + (c - 48)) (d :: ds) (a * 10 + (c - 48))) as Hge.
    { apply dec_fold_ge; auto. unfold digit_char in Hc; lia. }
    assert (a < 2 ^ 64) by (unfold digit_char in Hc; lia).
    destruct (pu_step_exact a c) as (E1 & E2 & E3); auto; [lia|].
    assert (isdigit c = true) as Hdc by (apply isdigit_spec; auto).
    cbn [app pu_loop]. rewrite Hdc, E1, E3, E2.
    rewrite IH; auto; [|unfold digit_char in Hc; lia].
    do 3 f_equal. simpl length. lia.
Qed.

Lemma pu_loop_overflow : forall ds a cnt c s,
  Forall digit_char (c :: ds) -> 0 <= a < 2 ^ 64 ->
  2 ^ 64 <= fold_left (fun a c => a * 10 + (c - 48)) (c :: ds) a ->
  exists v n c' s', pu_loop a cnt c (ds ++ s) = (false, v, n, c', s') /\ digit_char c'.
Proof.
  induction ds as [|d ds IH]; intros a cnt c s Hd Ha Hv.
  - inversion_clear Hd as [|? ? Hc _]. simpl fold_left in Hv.
    assert (isdigit c = true) as Hdc by (apply isdigit_spec; auto).
    pose proof (pu_step_overflow a c Ha Hc Hv) as Ho.
    cbn [app]. destruct s; cbn [pu_loop]; rewrite Hdc;
      (destruct (overflow_detection <? a) eqn:E; [eauto 8|]); simpl in Ho; rewrite Ho; eauto 8.
  - inversion_clear Hd as [|? ? Hc Hds].
    change (fold_left (fun a c => a * 10 + (c - 48)) (c :: d :: ds) a) with
           (fold_left (fun a c => a * 10 + (c - 48)) (d :: ds) (a * 10 + (c - 48))) in *.
    assert (isdigit c = true) as Hdc by (apply isdigit_spec; auto).
    cbn [app pu_loop]. rewrite Hdc.
    destruct (Z_lt_le_dec (a * 10 + (c - 48)) (2 ^ 64)) as [Hlt|Hge].
    + destruct (pu_step_exact a c) as (E1 & E2 & E3); auto. rewrite E1, E3, E2.
      apply IH; auto. unfold digit_char in Hc. lia.
    + pose proof (pu_step_overflow a c Ha Hc Hge) as Ho.
      destruct (overflow_detection <? a) eqn:E; [eauto 8|]. simpl in Ho. rewrite Ho. eauto 8.
Qed.
