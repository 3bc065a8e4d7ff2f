(** The numeric view terminates: a parsed string is shorter than its text. *)
From Coq Require Import Lia ZifyBool.
From Verif Require Import Base ModelUtf8 ModelValue ModelText ModelEq ModelJwt ModelNumView SpecUtf8 SpecText SpecNumView ProofText4 ProofJwt2.
Local Open Scope Z_scope.
Ltac Zify.zify_post_hook ::= Z.div_mod_to_equations.

Lemma wide1_length : forall w, (length (wide_to_utf8_1 w) <= 4)%nat /\
  (w <= 65535 -> (length (wide_to_utf8_1 w) <= 3)%nat) /\ (w <= 2047 -> (length (wide_to_utf8_1 w) <= 2)%nat) /\
  (w <= 127 -> (length (wide_to_utf8_1 w) <= 1)%nat).
Proof.
  intros w. unfold wide_to_utf8_1.
  destruct (w <? 128) eqn:A; [cbn; lia|]. destruct ((128 <=? w) && (w <=? 2047)) eqn:B; [cbn; lia|].
  destruct ((2048 <=? w) && (w <=? 65535)) eqn:C; [cbn; lia|]. destruct ((65536 <=? w) && (w <=? 1114111)) eqn:D; cbn; lia.
Qed.
Lemma s32_small : forall w, 0 <= w < 2 ^ 31 -> s32 w = w.
Proof. intros w H. unfold s32. rewrite Z.mod_small by lia. destruct (w <? 2 ^ 31) eqn:E; lia. Qed.
Lemma store_length : forall w, (length (store_unicode w) <= length (wide_to_utf8_1 (s32 w)))%nat.
Proof. intros w. unfold store_unicode. cbn [wide_to_utf8]. destruct (s32 w =? -1); [cbn; lia|]. rewrite app_nil_r. lia. Qed.

(** [c] bytes more were read than written. *)
Definition slack (st : ustate) (c : Z) : Prop :=
  0 <= c /\
  (pend st = 0 \/ 4 <= c + pend st \/ (pend st = 1 /\ 0 <= uchar st <= 31 /\ 1 <= c) \/ (pend st = 2 /\ 0 <= uchar st <= 15 /\ 1 <= c) \/
   (pend st = 1 /\ 0 <= uchar st <= 1023 /\ 2 <= c)) /\ 0 <= pend st < 2 ^ 32.

Lemma land_bound : forall a b, 0 <= b -> 0 <= Z.land a b <= b.
Proof.
  intros a b H. assert (0 <= Z.land a b) by (apply Z.land_nonneg; lia).
  split; [assumption|]. destruct (Z.le_gt_cases (Z.land a b) b) as [L|L]; [exact L|exfalso].
  assert (Z.ldiff (Z.land a b) b = 0) as D.
  { apply Z.bits_inj'. intros n N. rewrite Z.ldiff_spec, Z.land_spec, Z.bits_0. destruct (Z.testbit a n), (Z.testbit b n); reflexivity. }
  apply Z.ldiff_le in D; lia.
Qed.
Lemma lor_shift : forall u c, 0 <= u < 2 ^ 26 -> 0 <= Z.lor (u32 (Z.shiftl u 6)) (Z.land c 63) <= u * 64 + 63.
Proof.
  intros u c H. pose proof (land_bound c 63 ltac:(lia)) as B. rewrite Z.shiftl_mul_pow2 by lia. unfold u32. rewrite Z.mod_small by lia.
  assert (Z.land (u * 2 ^ 6) (Z.land c 63) = 0) as D.
  { apply Z.bits_inj'. intros n N. rewrite !Z.land_spec, Z.bits_0. destruct (Z.ltb_spec n 6).
    - rewrite Z.mul_pow2_bits_low by lia. reflexivity.
    - replace 63 with (Z.ones 6) by reflexivity. rewrite Z.ones_spec_high by lia. rewrite !Bool.andb_false_r. reflexivity. }
  rewrite <- Z.lxor_lor by exact D. rewrite <- Z.add_nocarry_lxor by exact D. lia.
Qed.

Lemma step_slack : forall st k c, -128 <= c < 128 -> slack st k ->
  let '(st1, ws) := utf8_step st c in slack st1 (k + 1 - Z.of_nat (length (flat_map store_unicode ws))).
Proof.
  intros st k c C (K & S & P). unfold utf8_step.
  destruct (Z.land c 192 =? 128).
  - pose proof (lor_shift (uchar st) c) as B. set (u := Z.lor _ _) in *. cbv zeta. destruct (u32 (pend st - 1) =? 0) eqn:E.
    + cbn [flat_map]. rewrite app_nil_r. pose proof (store_length (s32 u)) as A. pose proof (wide1_length (s32 (s32 u))) as W.
      assert (X : pend st = 1) by (unfold u32 in E; lia). unfold slack. cbn [pend uchar].
      assert (Y : 4 <= k + 1 \/ (0 <= u <= 2047 /\ 1 <= k) \/ (0 <= u <= 65535 /\ 2 <= k)) by lia.
      destruct Y as [Y|Y]; [lia|]. rewrite (s32_small (s32 u)), (s32_small u) in W by (rewrite ?(s32_small u); lia).
      rewrite (s32_small (s32 u)), (s32_small u) in A by (rewrite ?(s32_small u); lia). rewrite (s32_small u) by lia. lia.
    + cbn [flat_map length]. unfold slack. cbn [pend uchar]. destruct (Z.eq_dec (pend st) 0) as [Q|Q].
      * rewrite Q. change (u32 (0 - 1)) with (2 ^ 32 - 1). lia.
      * assert (R : u32 (pend st - 1) = pend st - 1) by (unfold u32; lia). rewrite R in *. lia.
  - pose proof (land_bound c 31 ltac:(lia)). pose proof (land_bound c 15 ltac:(lia)). pose proof (land_bound c 7 ltac:(lia)).
    destruct (Z.land c 224 =? 192); [unfold slack; cbn [pend uchar flat_map length]; lia|].
    destruct (Z.land c 240 =? 224); [unfold slack; cbn [pend uchar flat_map length]; lia|].
    destruct (Z.land c 248 =? 240); [unfold slack; cbn [pend uchar flat_map length]; lia|].
    cbn [flat_map]. rewrite app_nil_r. pose proof (store_length c) as A.
    pose proof (wide1_length (s32 c)) as W. assert (s32 c <= 127). { unfold s32. destruct (c mod 2 ^ 32 <? 2 ^ 31) eqn:E; lia. }
    unfold slack in *. lia.
Qed.

Lemma wide1_bytes : forall w, is_bytes (wide_to_utf8_1 w).
Proof.
  intros w. unfold wide_to_utf8_1, is_bytes, is_byte, to_byte. destruct (w <? 128); [repeat constructor; apply Z.mod_pos_bound; reflexivity|].
  destruct ((128 <=? w) && (w <=? 2047)); [repeat constructor; apply Z.mod_pos_bound; reflexivity|].
  destruct ((2048 <=? w) && (w <=? 65535)); [repeat constructor; apply Z.mod_pos_bound; reflexivity|].
  destruct ((65536 <=? w) && (w <=? 1114111)); repeat constructor; apply Z.mod_pos_bound; reflexivity.
Qed.
Lemma store_bytes : forall w, is_bytes (store_unicode w).
Proof. intros w. unfold store_unicode. cbn [wide_to_utf8]. destruct (s32 w =? -1); [constructor|]. rewrite app_nil_r. apply wide1_bytes. Qed.
Lemma flat_store_bytes : forall ws, is_bytes (flat_map store_unicode ws).
Proof. induction ws as [|w ws IH]; [constructor|]. cbn [flat_map]. apply Forall_app. split; [apply store_bytes|exact IH]. Qed.
Lemma hex_bound : forall c, 0 <= hex_val c <= 15.
Proof.
  intros c. unfold hex_val, isdigit. destruct ((48 <=? c) && (c <=? 57)) eqn:A; [lia|]. destruct ((65 <=? c) && (c <=? 70)) eqn:B; [lia|].
  destruct ((97 <=? c) && (c <=? 102)) eqn:D; lia.
Qed.
Lemma escape_length : forall a b c d, (length (store_unicode (unicode4 a b c d)) <= 3)%nat.
Proof.
  intros a b c d. pose proof (hex_bound a). pose proof (hex_bound b). pose proof (hex_bound c). pose proof (hex_bound d).
  assert (X : 0 <= unicode4 a b c d <= 65535) by (unfold unicode4; lia).
  pose proof (store_length (unicode4 a b c d)) as A. pose proof (wide1_length (s32 (unicode4 a b c d))) as W. rewrite s32_small in * by lia. lia.
Qed.
Lemma escape_byte : forall e x, simple_escape e = Some x -> is_byte x.
Proof.
  intros e x. unfold simple_escape, is_byte. destruct ((e =? 34) || (e =? 92) || (e =? 47)) eqn:A; [intros [= <-]; lia|].
  destruct (e =? 98); [intros [= <-]; lia|]. destruct (e =? 102); [intros [= <-]; lia|]. destruct (e =? 110); [intros [= <-]; lia|].
  destruct (e =? 114); [intros [= <-]; lia|]. destruct (e =? 116); [intros [= <-]; lia|discriminate].
Qed.

Definition in_char (c : Z) : Prop := -128 <= c < 128.
Lemma read_string_short : forall n s st acc k t s', (length s <= n)%nat -> Forall in_char s -> slack st k -> is_bytes acc ->
  read_string st acc s = Ok (t, s') ->
  Z.of_nat (length t) + Z.of_nat (length s') < Z.of_nat (length acc) + k + Z.of_nat (length s) /\ is_bytes t.
Proof.
  induction n as [|n IH]; intros [|c s1] st acc k t s' N C K A H; cbn [length] in N; try lia; cbn [read_string] in H; try discriminate.
  inversion C as [|? ? C0 C1]; subst. destruct (c =? -1); [discriminate|]. destruct (c =? 34).
  { injection H as <- <-. destruct K. cbn [length]. split; [lia|exact A]. }
  destruct (c =? 92).
  - destruct s1 as [|e s2]; [discriminate|]. inversion C1 as [|? ? C2 C3]; subst. cbn [length] in *. destruct (simple_escape e) as [x|] eqn:E.
    + apply IH with (k := k) in H; [|lia|exact C3|exact K|apply Forall_app; split; [exact A|constructor; [eapply escape_byte; exact E|constructor]]].
      rewrite app_length in H. cbn [length] in H. destruct H as [H H']. split; [lia|exact H'].
    + destruct (e =? 117); [|discriminate]. destruct s2 as [|h1 [|h2 [|h3 [|h4 s3]]]]; try discriminate.
      apply IH with (k := k) in H; [|cbn [length] in N; lia|do 4 (inversion C3; clear C3; subst; match goal with X : Forall in_char _ |- _ => rename X into C3 end); assumption
        |exact K|apply Forall_app; split; [exact A|apply store_bytes]].
      rewrite app_length in H. pose proof (escape_length h1 h2 h3 h4). cbn [length]. destruct H as [H H']. split; [lia|exact H'].
  - pose proof (step_slack st k c C0 K) as S. destruct (utf8_step st c) as [st1 ws].
    apply IH with (k := k + 1 - Z.of_nat (length (flat_map store_unicode ws))) in H;
      [|lia|exact C1|exact S|apply Forall_app; split; [exact A|apply flat_store_bytes]].
    rewrite app_length in H. cbn [length]. destruct H as [H H']. split; [lia|exact H'].
Qed.

Lemma parse_string_short : forall L F fuel r e t r', Forall in_char (src r) -> parse L F fuel r = Ok (VStr e t, r') ->
  (length t < length (src r))%nat /\ is_bytes t.
Proof.
  intros L F [|f] r e t r' C H; cbn [parse] in H; [discriminate|].
  destruct (next_ws r) as [c r1] eqn:W.
  assert (X : (length (src r1) <= length (src r))%nat /\ Forall in_char (src r1)).
  { unfold next_ws, next in W.
    assert (Y : forall c s c' s', Forall in_char s -> skip_ws c s = (c', s') -> (length s' <= length s)%nat /\ Forall in_char s').
    { intros c0 s0. revert c0. induction s0 as [|x s0 IHs]; intros c0 c' s' Cs Q; cbn [skip_ws] in Q.
      - destruct (isspace (char_of c0)); injection Q as <- <-; auto.
      - destruct (isspace (char_of c0)); [|injection Q as <- <-; auto]. inversion Cs; subst. apply IHs in Q; [|assumption]. cbn. intuition lia. }
    destruct (cur r) as [q|].
    - destruct (skip_ws q (src r)) as [c' s'] eqn:Q. injection W as <- <-. cbn [src]. eapply Y; eassumption.
    - destruct (pull (src r)) as [c2 s2] eqn:P. cbn [src] in W. destruct (skip_ws c2 s2) as [c' s'] eqn:Q. injection W as <- <-. cbn [src].
      assert (Z0 : (length s2 <= length (src r))%nat /\ Forall in_char s2).
      { unfold pull in P. destruct (src r); injection P as <- <-; [auto|]. inversion C; subst. cbn. auto. }
      destruct Z0 as [Z1 Z2]. destruct (Y _ _ _ _ Z2 Q). split; [lia|assumption]. }
  destruct (c =? 123).
  { destruct (next_ws (commit r1)) as [c1 r2]. destruct (c1 =? 125); [discriminate|]. exfalso.
    revert H. generalize c1 r2 (@nil (bytes * value)). clear. induction f as [|f IH]; intros c r acc H; cbn [parse_obj] in H; [discriminate|].
    destruct (c =? 34); [|discriminate]. destruct (read_string_r (commit r)) as [[name r1]| |]; cbn [bind] in H; try discriminate.
    destruct (next_ws r1) as [c1 r2]. destruct (c1 =? 58); [|discriminate]. destruct (parse L F f (commit r2)) as [[v r3]| |]; cbn [bind] in H; try discriminate.
    destruct (next_ws r3) as [c2 r4]. destruct (c2 =? 125).
    - unfold finish_object in H. destruct (_ && _); cbn [bind] in H; discriminate.
    - destruct (c2 =? 44); [|discriminate]. destruct (next_ws (commit r4)) as [c3 r6]. eapply IH. exact H. }
  destruct (c =? 91).
  { destruct (next_ws (commit r1)) as [c1 r2]. destruct (c1 =? 93); [discriminate|]. exfalso.
    revert H. generalize r2 (@nil value). clear. induction f as [|f IH]; intros r acc H; cbn [parse_arr] in H; [discriminate|].
    destruct (parse L F f r) as [[v r1]| |]; cbn [bind] in H; try discriminate.
    destruct (next_ws r1) as [c2 r4]. destruct (c2 =? 93); [discriminate|]. destruct (c2 =? 44); [|discriminate]. eapply IH. exact H. }
  destruct (c =? 34).
  { unfold read_string_r in H. destruct (read_string u_init [] (src (commit r1))) as [[u s]| |] eqn:R; cbn [bind] in H; try discriminate.
    unfold string_value in H. destruct (beqb u inf_word); [discriminate|]. destruct (beqb u neg_inf_word); [discriminate|].
    injection H as <- <- <-. cbn [src commit] in R. destruct X as [X1 X2].
    apply read_string_short with (n := length (src r1)) (k := 0) in R; [|lia|exact X2|unfold slack, u_init; cbn; lia|constructor].
    destruct R as [R R']. split; [cbn [length] in R; lia|exact R']. }
  destruct (c =? 116). { destruct (check_string str_true r1); cbn [bind] in H; discriminate. }
  destruct (c =? 102). { destruct (check_string str_false r1); cbn [bind] in H; discriminate. }
  destruct (c =? 110). { destruct (check_string str_null r1); cbn [bind] in H; discriminate. }
  destruct (isdigit c || (c =? 43) || (c =? 45) || (c =? 46)); [|discriminate].
  exfalso. unfold parse_number in H. destruct (precise F).
  { destruct (parse_precise r1) as [[[u b] r2]| |]; cbn [bind] in H; discriminate. }
  destruct (read_sign r1) as [sg r2]. destruct (next r2) as [c2 r3]. destruct (negb (isdigit c2) && negb (c2 =? 46)); [discriminate|].
  destruct (parse_unsigned r3) as [[[cp ip] dg] r4]. destruct (next r4) as [c3 r5]. destruct (negb cp || (c3 =? 46) || is_e c3).
  - unfold parse_double in H. destruct (parse_large L _ _ r5) as [[d0 r6]| |]; cbn [bind] in H; try discriminate.
    destruct (next r6) as [c4 r7]. match type of H with bind ?x _ = _ => destruct x as [[d1 r8]| |] end; cbn [bind] in H; try discriminate.
    destruct (next r8) as [c5 r9]. match type of H with bind ?x _ = _ => destruct x as [[d2 r10]| |] end; cbn [bind] in H; discriminate.
  - destruct sg; [|discriminate]. destruct (Z.testbit ip 63); discriminate.
Qed.

Lemma from_string_short : forall L F s e t, is_bytes s -> from_string L F s = Ok (VStr e t) -> (length t < length s)%nat /\ is_bytes t.
Proof.
  intros L F s e t B H. unfold from_string, parse_source in H.
  destruct (parse L F _ (mkR (map schar s) None)) as [[v r]| |] eqn:P; cbn [bind] in H; try discriminate. injection H as ->.
  apply parse_string_short in P; [cbn [src] in P; rewrite map_length in P; exact P|].
  cbn [src]. apply Forall_map. eapply Forall_impl; [|exact B]. intros b Q. unfold is_byte, in_char, schar in *. destruct (b <? 128) eqn:E; lia.
Qed.

Lemma num_view_fuel : forall L F n v, is_bytes (get_string v) -> (length (get_string v) < n)%nat -> exists k, num_view n L F v = Ok k.
Proof.
  intros L F. induction n as [|n IH]; intros v B N; [lia|]. cbn [num_view]. destruct v as [| |b|m|e s|l|d l]; eauto.
  change (get_string (VStr e s)) with s in *. destruct (from_string L F s) as [w| |] eqn:E; [|eauto|destruct (from_string_fuel _ _ _ E)].
  destruct w as [| |b|m|e' t|l|d l]; [destruct n; cbn [num_view]; eauto..| | |]; try (destruct n; cbn [num_view]; eauto; fail).
  destruct (from_string_short _ _ _ _ _ B E) as [S T]. apply IH; [exact T|]. cbn [get_string]. lia.
Qed.
Lemma num_view_more : forall L F n v k, num_view n L F v = Ok k -> forall m, (n <= m)%nat -> num_view m L F v = Ok k.
Proof.
  intros L F. induction n as [|n IH]; intros v k H m N.
  - destruct m, v; cbn [num_view] in *; try assumption; discriminate.
  - destruct m as [|m]; [lia|]. cbn [num_view] in *. destruct v; try assumption.
    destruct (from_string L F s); try assumption. eapply IH; [exact H|lia].
Qed.
Lemma num_view_stands : forall L F n v k, num_view n L F v = Ok k -> stands_for L F v k.
Proof.
  intros L F. induction n as [|n IH]; intros v k H; destruct v; cbn [num_view] in H; try discriminate; try (injection H as <-; constructor).
  destruct (from_string L F s) as [w| |] eqn:E; [|injection H as <-; apply SF_other; exact E|discriminate].
  eapply SF_text; [exact E|apply IH; exact H].
Qed.
Lemma stands_view : forall L F v k, stands_for L F v k -> exists n, num_view n L F v = Ok k.
Proof.
  intros L F v k H. induction H as [n|b| | |l|d l|e s w n E H (m & IH)|e s E]; try (exists O; reflexivity).
  - exists (S m). cbn [num_view]. rewrite E. exact IH.
  - exists 1%nat. cbn [num_view]. rewrite E. reflexivity.
Qed.
Lemma view_num_stands : forall L F v k, is_bytes (get_string v) -> (stands_for L F v k <-> view_num L F v = k).
Proof.
  intros L F v k B. destruct (num_view_fuel L F (S (length (get_string v))) v B ltac:(lia)) as (j & J). split.
  - intros H. destruct (stands_view L F v k H) as (n & N). unfold view_num. rewrite J.
    assert (A := num_view_more _ _ _ _ _ J (Nat.max n (S (length (get_string v)))) ltac:(lia)).
    rewrite (num_view_more _ _ _ _ _ N (Nat.max n (S (length (get_string v)))) ltac:(lia)) in A. congruence.
  - intros <-. unfold view_num. rewrite J. eapply num_view_stands. exact J.
Qed.
Lemma schar_low : forall s, Forall (fun b => b < 128) s -> map schar s = s.
Proof. intros s H. induction H as [|b s A B IH]; [reflexivity|]. cbn [map]. rewrite IH. unfold schar. destruct (b <? 128) eqn:E; [reflexivity|lia]. Qed.
Lemma ws_low : forall w, ws w -> map schar w = w.
Proof. intros w H. apply schar_low. eapply Forall_impl; [|exact H]. intros c. unfold ws_char. lia. Qed.
Lemma digits_low : forall w, Forall digit_char w -> map schar w = w.
Proof. intros w H. apply schar_low. eapply Forall_impl; [|exact H]. intros c. unfold digit_char. lia. Qed.
Lemma map_num_end : forall rest, num_end rest -> is_bytes rest -> num_end (map schar rest).
Proof.
  intros [|c rest] H B; [exact H|]. unfold num_end, digit_char in *. cbn [map]. inversion B; subst. unfold is_byte in *. unfold schar. destruct (c <? 128) eqn:E; lia.
Qed.
Lemma stands_digits : forall L F e w ds rest, precise F = false -> ws w -> ds <> [] -> Forall digit_char ds -> num_end rest -> is_bytes rest ->
  (dec_value ds < 2 ^ 64 -> stands_for L F (VStr e (w ++ ds ++ rest)) (NUInt (dec_value ds))) /\
  (dec_value ds < 2 ^ 63 -> stands_for L F (VStr e (w ++ 45 :: ds ++ rest)) (int_num (- dec_value ds))).
Proof.
  intros L F e w ds rest P W N D R B. split; intros X.
  - destruct (parse_source_digits L F w ds (map schar rest) P W N D X (map_num_end _ R B)) as (r' & E & _).
    eapply SF_text; [|apply SF_num]. unfold from_string. rewrite !map_app, (ws_low w W), (digits_low ds D), E. reflexivity.
  - destruct (parse_source_neg_digits L F w ds (map schar rest) P W N D X (map_num_end _ R B)) as (r' & E & _).
    eapply SF_text; [|apply SF_num]. unfold from_string. rewrite map_app. cbn [map]. rewrite map_app, (ws_low w W), (digits_low ds D).
    change (schar 45) with 45. rewrite E. reflexivity.
Qed.
Lemma dec_value_nonneg : forall ds, Forall digit_char ds -> 0 <= dec_value ds.
Proof.
  intros ds H. unfold dec_value. assert (X : forall a, 0 <= a -> 0 <= fold_left (fun a c => a * 10 + (c - 48)) ds a).
  { induction H as [|c ds A B IH]; intros a K; cbn [fold_left]; [exact K|]. apply IH. unfold digit_char in A. lia. }
  apply X. lia.
Qed.
Lemma text_numbers : forall L F e w ds rest, precise F = false -> ws w -> ds <> [] -> Forall digit_char ds -> num_end rest -> is_bytes rest ->
  (dec_value ds < 2 ^ 64 -> value_u64 L F (VStr e (w ++ ds ++ rest)) = Some (dec_value ds)) /\
  (dec_value ds < 2 ^ 63 -> value_s64 L F (VStr e (w ++ ds ++ rest)) = Some (dec_value ds)) /\
  (dec_value ds < 2 ^ 63 -> value_s64 L F (VStr e (w ++ 45 :: ds ++ rest)) = Some (- dec_value ds)).
Proof.
  intros L F e w ds rest P W N D R B. destruct (stands_digits L F e w ds rest P W N D R B) as [S1 S2].
  pose proof (dec_value_nonneg ds D) as G.
  assert (BW : is_bytes w). { eapply Forall_impl; [|exact W]. intros c. unfold ws_char, is_byte. lia. }
  assert (BD : is_bytes ds). { eapply Forall_impl; [|exact D]. intros c. unfold digit_char, is_byte. lia. }
  assert (B1 : is_bytes (w ++ ds ++ rest)) by (apply Forall_app; split; [exact BW|apply Forall_app; split; assumption]).
  assert (B2 : is_bytes (w ++ 45 :: ds ++ rest)).
  { apply Forall_app; split; [exact BW|constructor; [unfold is_byte; lia|apply Forall_app; split; assumption]]. }
  unfold value_u64, value_s64. split; [|split]; intros X.
  - rewrite (proj1 (view_num_stands L F (VStr e _) _ B1) (S1 X)). reflexivity.
  - rewrite (proj1 (view_num_stands L F (VStr e _) _ B1) (S1 ltac:(lia))). cbn [num_s64]. f_equal. unfold s64.
    rewrite Z.mod_small by lia. destruct (dec_value ds <? 2 ^ 63) eqn:Q; lia.
  - rewrite (proj1 (view_num_stands L F (VStr e _) _ B2) (S2 X)). unfold int_num.
    destruct (- dec_value ds =? 0) eqn:Q; [|reflexivity]. cbn [num_s64]. apply Z.eqb_eq in Q. rewrite Q. reflexivity.
Qed.

Lemma precise_views : forall L F t,
  value_s64 L F (VNum (NPrec t PkDbl)) = value_s64 L F (VNum (NDbl (lm_strtod L t))) /\
  value_u64 L F (VNum (NPrec t PkDbl)) = value_u64 L F (VNum (NDbl (lm_strtod L t))) /\
  value_dbl L F (VNum (NPrec t PkDbl)) = lm_strtod L t /\
  (forall n, 0 <= n < 2 ^ 64 -> value_u64 L F (VNum (NPrec t (PkUInt n))) = Some n) /\
  (forall n, 0 <= n < 2 ^ 63 -> value_s64 L F (VNum (NPrec t (PkUInt n))) = Some n) /\
  (forall n, - 2 ^ 63 <= n < 2 ^ 63 -> value_s64 L F (VNum (NPrec t (PkInt n))) = Some n).
Proof.
  intros L F t. repeat split; try reflexivity.
  all: intros n H; cbn. all: try reflexivity. unfold s64. rewrite Z.mod_small by lia. destruct (n <? 2 ^ 63) eqn:E; [reflexivity|lia].
Qed.
