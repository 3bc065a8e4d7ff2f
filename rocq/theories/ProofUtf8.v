(** Lemmas about the UTF-8 conversions. *)
From Coq Require Import ZifyBool.
From Verif Require Import Base ModelUtf8 SpecUtf8.
Local Open Scope Z_scope.
Ltac Zify.zify_post_hook ::= Z.div_mod_to_equations.

(** Byte classification of the decoder, checked on every possible [int] form. *)
Lemma class_cont : forall c, -128 <= c < 256 ->
  (Z.land c 0xC0 =? 0x80) = ((128 <=? c mod 256) && (c mod 256 <? 192)).
Proof.
  intros c H. apply eqb_prop.
  apply (sweep (fun c => Bool.eqb (Z.land c 0xC0 =? 0x80)
           ((128 <=? c mod 256) && (c mod 256 <? 192))) (-128) 384);
    [vm_compute; reflexivity | lia].
Qed.

Lemma class_2 : forall c, -128 <= c < 256 ->
  (Z.land c 0xE0 =? 0xC0) = ((192 <=? c mod 256) && (c mod 256 <? 224)).
Proof.
  intros c H. apply eqb_prop.
  apply (sweep (fun c => Bool.eqb (Z.land c 0xE0 =? 0xC0)
           ((192 <=? c mod 256) && (c mod 256 <? 224))) (-128) 384);
    [vm_compute; reflexivity | lia].
Qed.

Lemma class_3 : forall c, -128 <= c < 256 ->
  (Z.land c 0xF0 =? 0xE0) = ((224 <=? c mod 256) && (c mod 256 <? 240)).
Proof.
  intros c H. apply eqb_prop.
  apply (sweep (fun c => Bool.eqb (Z.land c 0xF0 =? 0xE0)
           ((224 <=? c mod 256) && (c mod 256 <? 240))) (-128) 384);
    [vm_compute; reflexivity | lia].
Qed.

Lemma class_4 : forall c, -128 <= c < 256 ->
  (Z.land c 0xF8 =? 0xF0) = ((240 <=? c mod 256) && (c mod 256 <? 248)).
Proof.
  intros c H. apply eqb_prop.
  apply (sweep (fun c => Bool.eqb (Z.land c 0xF8 =? 0xF0)
           ((240 <=? c mod 256) && (c mod 256 <? 248))) (-128) 384);
    [vm_compute; reflexivity | lia].
Qed.

Lemma land63 : forall x, Z.land x 0x3F = x mod 64.
Proof. intros. change 0x3F with (Z.ones 6). rewrite Z.land_ones by lia. reflexivity. Qed.
Lemma land31 : forall x, Z.land x 0x1F = x mod 32.
Proof. intros. change 0x1F with (Z.ones 5). rewrite Z.land_ones by lia. reflexivity. Qed.
Lemma land15 : forall x, Z.land x 0x0F = x mod 16.
Proof. intros. change 0x0F with (Z.ones 4). rewrite Z.land_ones by lia. reflexivity. Qed.
Lemma land7 : forall x, Z.land x 0x07 = x mod 8.
Proof. intros. change 0x07 with (Z.ones 3). rewrite Z.land_ones by lia. reflexivity. Qed.

Lemma lor80 : forall x, 0 <= x < 64 -> Z.lor 0x80 x = 0x80 + x.
Proof.
  intros x H. apply Z.eqb_eq.
  apply (sweep (fun x => Z.lor 0x80 x =? 0x80 + x) 0 64); [vm_compute; reflexivity|lia].
Qed.
Lemma lorC0 : forall x, 0 <= x < 32 -> Z.lor 0xC0 x = 0xC0 + x.
Proof.
  intros x H. apply Z.eqb_eq.
  apply (sweep (fun x => Z.lor 0xC0 x =? 0xC0 + x) 0 32); [vm_compute; reflexivity|lia].
Qed.
Lemma lorE0 : forall x, 0 <= x < 16 -> Z.lor 0xE0 x = 0xE0 + x.
Proof.
  intros x H. apply Z.eqb_eq.
  apply (sweep (fun x => Z.lor 0xE0 x =? 0xE0 + x) 0 16); [vm_compute; reflexivity|lia].
Qed.
Lemma lorF0 : forall x, 0 <= x < 8 -> Z.lor 0xF0 x = 0xF0 + x.
Proof.
  intros x H. apply Z.eqb_eq.
  apply (sweep (fun x => Z.lor 0xF0 x =? 0xF0 + x) 0 8); [vm_compute; reflexivity|lia].
Qed.

Lemma shr6 : forall x, Z.shiftr x 6 = x / 64.
Proof. intros; rewrite Z.shiftr_div_pow2 by lia; reflexivity. Qed.
Lemma shr12 : forall x, Z.shiftr x 12 = x / 4096.
Proof. intros; rewrite Z.shiftr_div_pow2 by lia; reflexivity. Qed.
Lemma shr18 : forall x, Z.shiftr x 18 = x / 262144.
Proof. intros; rewrite Z.shiftr_div_pow2 by lia; reflexivity. Qed.

(** The encoder emits the standard bytes. *)
Lemma wide_to_utf8_1_spec : forall c, is_cp c -> wide_to_utf8_1 c = utf8_bytes c.
Proof.
  unfold is_cp, wide_to_utf8_1, utf8_bytes. intros c H.
  destruct (c <? 0x80) eqn:E1.
  { unfold to_byte. rewrite Z.mod_small by lia. reflexivity. }
  destruct (c <? 0x800) eqn:E2.
  { replace (0x80 <=? c) with true by lia. replace (c <=? 0x7FF) with true by lia. simpl andb. cbv iota.
    rewrite land63, shr6, lor80, lorC0 by lia. unfold to_byte.
    rewrite !Z.mod_small by lia. reflexivity. }
  replace (c <=? 0x7FF) with false by lia. rewrite andb_false_r.
  destruct (c <? 0x10000) eqn:E3.
  { replace (0x800 <=? c) with true by lia. replace (c <=? 0xFFFF) with true by lia. simpl andb. cbv iota.
    rewrite !land63, shr6, shr12, !lor80, lorE0 by lia. unfold to_byte.
    rewrite !(Z.mod_small _ 256) by lia. reflexivity. }
  replace (c <=? 0xFFFF) with false by lia. rewrite andb_false_r.
  replace (0x10000 <=? c) with true by lia. replace (c <=? 0x10FFFF) with true by lia. simpl andb. cbv iota.
  rewrite !land63, shr6, shr12, shr18, !lor80, lorF0 by lia. unfold to_byte.
  rewrite !(Z.mod_small _ 256) by lia. reflexivity.
Qed.

Lemma wide_to_utf8_spec : forall cs, Forall is_cp cs -> wide_to_utf8 cs = utf8_encode cs.
Proof.
  induction 1 as [|c cs Hc Hcs IH]; [reflexivity|].
  simpl. replace (c =? -1) with false by (unfold is_cp in Hc; lia).
  rewrite wide_to_utf8_1_spec by exact Hc. rewrite IH. reflexivity.
Qed.

Lemma utf8_bytes_range : forall c, is_cp c -> is_bytes (utf8_bytes c).
Proof.
  unfold is_cp, is_bytes, utf8_bytes. intros c H.
  destruct (c <? 0x80) eqn:E1; [repeat constructor; lia|].
  destruct (c <? 0x800) eqn:E2; [repeat constructor; lia|].
  destruct (c <? 0x10000) eqn:E3; repeat constructor; lia.
Qed.

Lemma utf8_bytes_not_ff : forall c, is_cp c -> Forall (fun b => b <> 255) (utf8_bytes c).
Proof.
  unfold is_cp, utf8_bytes. intros c H.
  destruct (c <? 0x80) eqn:E1; [repeat constructor; lia|].
  destruct (c <? 0x800) eqn:E2; [repeat constructor; lia|].
  destruct (c <? 0x10000) eqn:E3; repeat constructor; lia.
Qed.

Lemma utf8_encode_app : forall a b, utf8_encode (a ++ b) = utf8_encode a ++ utf8_encode b.
Proof. intros. unfold utf8_encode. apply flat_map_app. Qed.

Lemma utf8_encode_range : forall cs, Forall is_cp cs -> is_bytes (utf8_encode cs).
Proof.
  induction 1; simpl; [constructor|]. apply Forall_app. split; [apply utf8_bytes_range|]; assumption.
Qed.

Lemma utf8_encode_not_ff : forall cs, Forall is_cp cs -> Forall (fun b => b <> 255) (utf8_encode cs).
Proof.
  induction 1; simpl; [constructor|]. apply Forall_app. split; [apply utf8_bytes_not_ff|]; assumption.
Qed.

Lemma as_source_mod : forall sg b, is_byte b -> as_source sg b mod 256 = b.
Proof.
  intros [|] b H; simpl.
  - apply schar_to_byte; auto.
  - apply Z.mod_small; exact H.
Qed.
Lemma as_source_range : forall sg b, is_byte b -> -128 <= as_source sg b < 256.
Proof.
  intros [|] b H; simpl; [pose proof (schar_range b H); lia | unfold is_byte in H; lia].
Qed.
Lemma as_source_eof : forall sg b, is_byte b -> b <> 255 -> as_source sg b <> -1.
Proof.
  intros [|] b H Hn; simpl; unfold schar, is_byte in *; destruct (b <? 128) eqn:E; lia.
Qed.
Lemma as_source_low : forall sg b, 0 <= b < 128 -> as_source sg b = b.
Proof.
  intros [|] b H; simpl; unfold schar; [|reflexivity]. destruct (b <? 128) eqn:E; lia.
Qed.
Lemma as_source_high : forall sg b, is_byte b -> 128 <= b -> ~ (0 <= as_source sg b < 128).
Proof.
  intros [|] b H H1; simpl; unfold schar, is_byte in *; destruct (b <? 128) eqn:E; lia.
Qed.

(** One decoder step on each byte class. *)
Lemma step_ascii : forall sg st c, 0 <= c < 128 -> utf8_step st (as_source sg c) = (st, [c]).
Proof.
  intros. rewrite as_source_low by lia. unfold utf8_step.
  rewrite class_cont, class_2, class_3, class_4 by lia.
  rewrite Z.mod_small by lia.
  replace (128 <=? c) with false by lia. replace (192 <=? c) with false by lia.
  replace (224 <=? c) with false by lia. replace (240 <=? c) with false by lia. reflexivity.
Qed.

Lemma as_source_mod64 : forall sg b, is_byte b -> as_source sg b mod 64 = b mod 64.
Proof. intros sg b H. pose proof (as_source_mod sg b H). lia. Qed.
Lemma as_source_mod32 : forall sg b, is_byte b -> as_source sg b mod 32 = b mod 32.
Proof. intros sg b H. pose proof (as_source_mod sg b H). lia. Qed.
Lemma as_source_mod16 : forall sg b, is_byte b -> as_source sg b mod 16 = b mod 16.
Proof. intros sg b H. pose proof (as_source_mod sg b H). lia. Qed.
Lemma as_source_mod8 : forall sg b, is_byte b -> as_source sg b mod 8 = b mod 8.
Proof. intros sg b H. pose proof (as_source_mod sg b H). lia. Qed.

Lemma step_lead2 : forall sg st x, 0 <= x < 32 ->
  utf8_step st (as_source sg (0xC0 + x)) = (mkU x 1, []).
Proof.
  intros sg st x H. assert (is_byte (0xC0 + x)) as Hb by (unfold is_byte; lia).
  pose proof (as_source_range sg _ Hb).
  unfold utf8_step. rewrite class_cont, class_2 by assumption.
  rewrite as_source_mod by exact Hb.
  replace (128 <=? 192 + x) with true by lia. replace (192 + x <? 192) with false by lia.
  replace (192 <=? 192 + x) with true by lia. replace (192 + x <? 224) with true by lia.
  simpl andb. cbv iota. rewrite land31, as_source_mod32 by exact Hb. do 3 f_equal. lia.
Qed.

Lemma step_lead3 : forall sg st x, 0 <= x < 16 ->
  utf8_step st (as_source sg (0xE0 + x)) = (mkU x 2, []).
Proof.
  intros sg st x H. assert (is_byte (0xE0 + x)) as Hb by (unfold is_byte; lia).
  pose proof (as_source_range sg _ Hb).
  unfold utf8_step. rewrite class_cont, class_2, class_3 by assumption.
  rewrite as_source_mod by exact Hb.
  replace (224 + x <? 192) with false by lia. replace (224 + x <? 224) with false by lia.
  replace (224 <=? 224 + x) with true by lia. replace (224 + x <? 240) with true by lia.
  rewrite !andb_false_r. simpl andb. cbv iota. rewrite land15, as_source_mod16 by exact Hb. do 3 f_equal. lia.
Qed.

Lemma step_lead4 : forall sg st x, 0 <= x < 8 ->
  utf8_step st (as_source sg (0xF0 + x)) = (mkU x 3, []).
Proof.
  intros sg st x H. assert (is_byte (0xF0 + x)) as Hb by (unfold is_byte; lia).
  pose proof (as_source_range sg _ Hb).
  unfold utf8_step. rewrite class_cont, class_2, class_3, class_4 by assumption.
  rewrite as_source_mod by exact Hb.
  replace (240 + x <? 192) with false by lia. replace (240 + x <? 224) with false by lia.
  replace (240 + x <? 240) with false by lia.
  replace (240 <=? 240 + x) with true by lia. replace (240 + x <? 248) with true by lia.
  rewrite !andb_false_r. simpl andb. cbv iota. rewrite land7, as_source_mod8 by exact Hb. do 3 f_equal. lia.
Qed.

Lemma step_cont : forall sg u b x, 0 <= x < 64 -> 0 <= u < 2 ^ 25 -> 1 <= b <= 3 ->
  utf8_step (mkU u b) (as_source sg (0x80 + x)) =
  (mkU (u * 64 + x) (b - 1), if b =? 1 then [u * 64 + x] else []).
Proof.
  intros sg u b x H Hu Hbb. assert (is_byte (0x80 + x)) as Hb by (unfold is_byte; lia).
  pose proof (as_source_range sg _ Hb).
  unfold utf8_step. rewrite class_cont by assumption.
  rewrite as_source_mod by exact Hb.
  replace (128 <=? 128 + x) with true by lia. replace (128 + x <? 192) with true by lia.
  simpl andb. cbv iota. rewrite land63, as_source_mod64 by exact Hb. cbn [uchar pend].
  replace ((128 + x) mod 64) with x by lia.
  assert (u32 (Z.shiftl u 6) = Z.shiftl u 6) as ->.
  { unfold u32. rewrite Z.shiftl_mul_pow2 by lia. apply Z.mod_small. lia. }
  rewrite lor_shift_add by lia. change (2 ^ 6) with 64.
  assert (u32 (b - 1) = b - 1) as -> by (unfold u32; apply Z.mod_small; lia).
  replace (b - 1 =? 0) with (b =? 1) by lia.
  destruct (b =? 1) eqn:E; [|reflexivity].
  unfold s32. rewrite Z.mod_small by lia.
  replace (u * 64 + x <? 2 ^ 31) with true by lia. reflexivity.
Qed.

(** Decoding, byte source form [sg], of a byte list free of the eof byte. *)
Lemma utf8_to_wide_app : forall a b st,
  Forall (fun c => c <> -1) a ->
  utf8_to_wide st (a ++ b) =
  let '(st1, o1) := utf8_to_wide st a in
  let '(st2, o2) := utf8_to_wide st1 b in (st2, o1 ++ o2).
Proof.
  induction a as [|c a IH]; intros b st Ha; simpl.
  - destruct (utf8_to_wide st b); reflexivity.
  - inversion Ha; subst. replace (c =? -1) with false by lia.
    destruct (utf8_step st c) as [st1 o1]. rewrite IH by assumption.
    destruct (utf8_to_wide st1 a) as [st2 o2].
    destruct (utf8_to_wide st2 b) as [st3 o3]. rewrite app_assoc. reflexivity.
Qed.

(** The state reached after a complete sequence only matters to malformed
    input; the decoder accepts any well-formed sequence from any state. *)
Ltac noteof :=
  match goal with |- context [as_source ?sg ?b =? -1] =>
    rewrite (proj2 (Z.eqb_neq (as_source sg b) (-1)))
      by (apply as_source_eof; unfold is_byte; lia) end.

Lemma decode_cp : forall sg c st, is_cp c ->
  exists st', utf8_to_wide st (map (as_source sg) (utf8_bytes c)) = (st', [c]).
Proof.
  intros sg c st H. unfold is_cp in H. unfold utf8_bytes.
  destruct (c <? 0x80) eqn:E1.
  { cbn [map utf8_to_wide]. noteof. rewrite step_ascii by lia. eauto. }
  destruct (c <? 0x800) eqn:E2.
  { cbn [map utf8_to_wide]. do 2 noteof.
    rewrite step_lead2 by lia. rewrite step_cont by lia.
    cbn [app Z.eqb Pos.eqb]. eexists. do 2 f_equal. lia. }
  destruct (c <? 0x10000) eqn:E3.
  { cbn [map utf8_to_wide]. do 3 noteof.
    rewrite step_lead3 by lia. do 2 (rewrite step_cont by lia).
    cbn [app Z.eqb Pos.eqb Z.sub Z.add Z.opp Z.pos_sub Pos.pred_double]. eexists. do 2 f_equal. lia. }
  cbn [map utf8_to_wide]. do 4 noteof.
  rewrite step_lead4 by lia. do 3 (rewrite step_cont by lia).
  cbn [app Z.eqb Pos.eqb Z.sub Z.add Z.opp Z.pos_sub Pos.pred_double]. eexists. do 2 f_equal. lia.
Qed.

Lemma decode_encode : forall sg cs st, Forall is_cp cs ->
  snd (utf8_to_wide st (map (as_source sg) (utf8_encode cs))) = cs.
Proof.
  intros sg cs st H. revert st. induction H as [|c cs Hc Hcs IH]; intros st; [reflexivity|].
  simpl utf8_encode. unfold utf8_encode in *. rewrite map_app, utf8_to_wide_app.
  - destruct (decode_cp sg c st Hc) as [st1 ->].
    specialize (IH st1). destruct (utf8_to_wide st1 (map (as_source sg) (flat_map utf8_bytes cs))).
    simpl in *. congruence.
  - apply Forall_map. clear IH. pose proof (utf8_bytes_range c Hc) as Hr. pose proof (utf8_bytes_not_ff c Hc) as Hf.
    unfold is_bytes in Hr. rewrite Forall_forall in Hr, Hf. apply Forall_forall. intros x Hx. apply as_source_eof; auto.
Qed.

Lemma wide_utf8_roundtrip : forall sg cs, Forall is_cp cs ->
  snd (utf8_to_wide u_init (map (as_source sg) (wide_to_utf8 cs))) = cs.
Proof. intros. rewrite wide_to_utf8_spec by assumption. apply decode_encode; assumption. Qed.
