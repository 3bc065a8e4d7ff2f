(** What the parser accepts is of the grammar of SpecAccept. *)
From Coq Require Import ZifyBool Sorted.
From Verif Require Import Base ModelUtf8 SpecUtf8 ProofUtf8 ModelKeyed SpecKeyed ProofKeyed
  ModelValue ProofValue ModelText SpecText ProofText1 ProofText2 ProofText3 ProofText4 ProofText5 SpecAccept.
Local Open Scope Z_scope.
Ltac Zify.zify_post_hook ::= Z.div_mod_to_equations.

(** *** Characters and white space *)
Lemma char_of_ascii : forall c k, source_char c -> 0 <= k < 128 -> char_of c = k -> c = k.
Proof. unfold source_char, char_of, to_byte, schar. intros c k H Hk E. destruct (c mod 256 <? 128) eqn:X; lia. Qed.

Lemma space_char : forall c, source_char c -> isspace (char_of c) = true -> space c.
Proof.
  unfold source_char, char_of, to_byte, schar, isspace, space. intros c H E. destruct (c mod 256 <? 128) eqn:X; lia.
Qed.

Lemma space_is : forall c, space c -> isspace (char_of c) = true.
Proof. unfold space. intros c H. rewrite char_of_low by lia. unfold isspace. lia. Qed.

Definition source (s : list Z) : Prop := Forall source_char s.

Lemma source_app : forall a b, source (a ++ b) <-> source a /\ source b.
Proof. intros. apply Forall_app. Qed.
Lemma source_cons : forall c b, source (c :: b) <-> source_char c /\ source b.
Proof. intros. apply Forall_cons_iff. Qed.

Lemma source_tl : forall s, source s -> source (tl s).
Proof. intros [|c s] H; simpl; auto. apply source_cons in H. tauto. Qed.

Lemma source_hd : forall s, source s -> source_char (hd_eof s).
Proof. intros [|c s] H; simpl; [unfold source_char; lia|]. apply source_cons in H. tauto. Qed.

Lemma skip_ws_inv : forall s c c' s', source (c :: s) -> skip_ws c s = (c', s') ->
  exists w rest, c :: s = w ++ rest /\ spaces w /\ c' = hd_eof rest /\ s' = tl rest /\
    isspace (char_of c') = false.
Proof.
  induction s as [|x s IH]; intros c c' s' Hs H; cbn [skip_ws] in H;
    apply source_cons in Hs as [Hc Hs];
    (destruct (isspace (char_of c)) eqn:E;
      [|injection H as <- <-; eexists [], (c :: _); repeat split; [constructor|assumption]]).
  - inversion H; subst. exists [c], []. repeat split; auto. constructor; [|constructor]. apply space_char; auto.
  - destruct (IH _ _ _ Hs H) as (w & rest & E1 & E2 & E3 & E4 & E5).
    exists (c :: w), rest. rewrite E1. repeat split; auto. constructor; auto. apply space_char; auto.
Qed.

Lemma next_ws_inv : forall r s c r1, at_pos r s -> source s -> next_ws r = (c, r1) ->
  exists w rest, s = w ++ rest /\ spaces w /\ c = char_of (hd_eof rest) /\
    r1 = mkR (tl rest) (Some (hd_eof rest)) /\ isspace c = false.
Proof.
  intros r s c r1 Hr Hs H. unfold next_ws in H. rewrite (next_at _ _ Hr) in H. cbn [src] in H.
  destruct (skip_ws (hd_eof s) (tl s)) as [c' s'] eqn:E. inversion H; subst.
  destruct s as [|x s].
  - cbn in E. inversion E; subst. exists [], []. repeat split; auto. constructor.
  - cbn [hd_eof hd tl] in E. apply skip_ws_inv in E; auto.
    destruct E as (w & rest & E1 & E2 & -> & -> & E5). exists w, rest. repeat split; auto.
Qed.

(** An ASCII character seen by [nextWs] is the next character of the text. *)
Lemma next_ws_ascii : forall r s c r1, at_pos r s -> source s -> next_ws r = (c, r1) -> 0 <= c < 128 ->
  exists w rest, s = w ++ c :: rest /\ spaces w /\ r1 = mkR rest (Some c).
Proof.
  intros r s c r1 Hr Hs H Hc. destruct (next_ws_inv _ _ _ _ Hr Hs H) as (w & rest & E & Hw & Ec & E1 & _).
  assert (hd_eof rest = c) as Hh.
  { apply char_of_ascii; auto. apply source_hd. subst s. apply source_app in Hs. tauto. }
  destruct rest as [|x rest]; [cbn in Hh; lia|]. cbn in Hh. subst x. exists w, rest. auto.
Qed.

(** *** String literals *)
Lemma simple_escape_pair : forall e x, simple_escape e = Some x -> In (e, x) escape_pairs.
Proof.
  intros e x H. unfold simple_escape in H. unfold escape_pairs. simpl.
  destruct ((e =? 34) || (e =? 92) || (e =? 47)) eqn:E1; [inversion H; subst; assert (x = 34 \/ x = 92 \/ x = 47) as [->|[->| ->]] by lia; tauto|].
  destruct (e =? 98) eqn:E2; [inversion H; replace e with 98 by lia; tauto|].
  destruct (e =? 102) eqn:E3; [inversion H; replace e with 102 by lia; tauto|].
  destruct (e =? 110) eqn:E4; [inversion H; replace e with 110 by lia; tauto|].
  destruct (e =? 114) eqn:E5; [inversion H; replace e with 114 by lia; tauto|].
  destruct (e =? 116) eqn:E6; [inversion H; replace e with 116 by lia; tauto|]. discriminate.
Qed.

Lemma read_string_inv : forall n s st acc t s', (length s <= n)%nat ->
  read_string st acc s = Ok (t, s') ->
  exists b, s = b ++ 34 :: s' /\ body b /\ forall x, read_string st acc (b ++ 34 :: x) = Ok (t, x).
Proof.
  induction n as [|n IH]; intros [|c s1] st acc t s' Hn H; cbn [read_string length] in *; try congruence; try lia.
  destruct (c =? -1) eqn:E1; [congruence|]. destruct (c =? 34) eqn:E2.
  { inversion H; subst. replace c with 34 by lia. exists []. split; [reflexivity|]. split; [constructor|]. reflexivity. }
  destruct (c =? 92) eqn:E3.
  - destruct s1 as [|e s2]; [congruence|]. cbn [length] in *. replace c with 92 by lia.
    destruct (simple_escape e) as [x|] eqn:E4.
    + apply IH in H as (b & -> & Hb & Hx); [|lia]. exists (92 :: e :: b). repeat split.
      * eapply b_esc; [apply simple_escape_pair; eauto|auto].
      * intros y. cbn [app read_string]. change (92 =? -1) with false. change (92 =? 34) with false.
        change (92 =? 92) with true. cbv iota. rewrite E4. apply Hx.
    + destruct (e =? 117) eqn:E5; [|congruence]. replace e with 117 by lia.
      destruct s2 as [|h1 [|h2 [|h3 [|h4 s3]]]]; try congruence. cbn [length] in *.
      apply IH in H as (b & -> & Hb & Hx); [|lia]. exists (92 :: 117 :: h1 :: h2 :: h3 :: h4 :: b). repeat split.
      * apply b_hex; auto.
      * intros y. cbn [app read_string]. apply Hx.
  - destruct (utf8_step st c) as [st1 wl] eqn:E4. apply IH in H as (b & -> & Hb & Hx); [|lia].
    exists (c :: b). repeat split.
    + apply b_raw; auto; lia.
    + intros y. cbn [app read_string]. rewrite E1, E2, E3, E4. apply Hx.
Qed.

(** The relation between bodies and bytes the parser computes. *)
Definition read_as (s : bytes) (b : list Z) : Prop :=
  body b /\ forall x, read_string u_init [] (b ++ 34 :: x) = Ok (s, x).

Lemma read_string_r_inv : forall s t r', read_string_r (mkR s None) = Ok (t, r') ->
  exists b rest, s = b ++ 34 :: rest /\ read_as t b /\ r' = mkR rest None.
Proof.
  intros s t r' H. unfold read_string_r in H. cbn [src cur] in H.
  destruct (read_string u_init [] s) as [[t0 s0]| |] eqn:E; cbn [bind] in H; try congruence.
  inversion H; subst. apply (read_string_inv (length s)) in E as (b & -> & Hb & Hx); [|lia].
  exists b, s0. unfold read_as. auto.
Qed.

(** *** Numbers *)
Lemma digit_span : forall s : list Z, exists ds rest, s = ds ++ rest /\ digits ds /\ isdigit (hd_eof rest) = false.
Proof.
  induction s as [|c s IH]; [exists [], []; repeat split; constructor|].
  destruct (isdigit c) eqn:E.
  - destruct IH as (ds & rest & -> & Hd & Hr). exists (c :: ds), rest. repeat split; auto.
    constructor; auto. apply isdigit_spec. exact E.
  - exists [], (c :: s). repeat split; auto. constructor.
Qed.

Lemma parse_unsigned_span : forall r ds rest, at_pos r (ds ++ rest) -> digits ds -> isdigit (hd_eof rest) = false ->
  exists ok v n r' ds2, parse_unsigned r = (ok, v, n, r') /\ at_pos r' (ds2 ++ rest) /\ digits ds2 /\
    (ok = true -> ds2 = [] /\ v = dec_value ds /\ dec_value ds < 2 ^ 64) /\
    (ok = false -> 2 ^ 64 <= dec_value ds).
Proof.
  intros r [|c ds] rest Hr Hd Hs.
  - unfold parse_unsigned. rewrite (next_at _ _ Hr). cbn [app] in *. cbn [src].
    assert (pu_loop 0 0 (hd_eof rest) (tl rest) = (true, 0, 0, hd_eof rest, tl rest)) as ->
      by (destruct (tl rest); cbn [pu_loop]; rewrite Hs; reflexivity).
    do 4 eexists. exists []. split; [reflexivity|]. split; [apply at_next|]. split; [constructor|].
    split; [|congruence]. intros _. repeat split.
  - destruct (Z_lt_le_dec (dec_value (c :: ds)) (2 ^ 64)) as [Hl|Hl].
    + unfold parse_unsigned. rewrite (next_at _ _ Hr). cbn [src app tl]. change (hd_eof (c :: ds ++ rest)) with c.
      rewrite pu_loop_run; auto; try lia. do 4 eexists. exists []. split; [reflexivity|]. split; [apply at_next|].
      split; [constructor|]. split; [|congruence]. intros _. repeat split; auto.
    + destruct (parse_unsigned_pos r (c :: ds) rest) as (ok & v & n & r' & ds2 & E & H1 & H2 & H3); auto; [discriminate|].
      exists ok, v, n, r', ds2. split; auto. split; auto. split; auto.
      assert (ok = false) as ->.
      { unfold parse_unsigned in E. rewrite (next_at _ _ Hr) in E. cbn [src app tl] in E.
        change (hd_eof (c :: ds ++ rest)) with c in E.
        destruct (pu_loop_overflow ds 0 0 c rest Hd ltac:(lia) Hl) as (v' & n' & c' & s' & E' & _).
        rewrite E' in E. congruence. }
      split; [congruence|auto].
Qed.

Lemma sign_span : forall r s, at_pos r s -> exists sg s1 r1, s = sg ++ s1 /\ sign sg /\
  read_sign r = ((match sg with [45] => true | _ => false end), r1) /\ at_pos r1 s1 /\
  (sg = [] -> hd_eof s1 <> 43 /\ hd_eof s1 <> 45).
Proof.
  intros r s Hr. destruct (Z.eq_dec (hd_eof s) 45) as [E|E].
  - destruct s as [|c s]; [discriminate|]. cbn in E. subst c.
    destruct (read_sign_sgn r 45 s Hr) as (r1 & H1 & H2); auto. exists [45], s, r1. unfold sign. repeat split; auto; congruence.
  - destruct (Z.eq_dec (hd_eof s) 43) as [E'|E'].
    + destruct s as [|c s]; [discriminate|]. cbn in E'. subst c.
      destruct (read_sign_sgn r 43 s Hr) as (r1 & H1 & H2); auto. exists [43], s, r1. unfold sign. repeat split; auto; congruence.
    + destruct (read_sign_pos r s Hr E E') as (r1 & H1 & H2). exists [], s, r1. unfold sign. repeat split; auto.
Qed.

Lemma parse_double_inv : forall L i b r v r' ds s, at_pos r (ds ++ s) -> digits ds -> isdigit (hd_eof s) = false ->
  parse_double L i b r = Ok (v, r') ->
  exists fp ex rest, s = fp ++ ex ++ rest /\ (fp = [] \/ exists ds, fp = 46 :: ds /\ ds <> [] /\ digits ds) /\
    exponent ex /\ at_pos r' rest /\ (exists f, v = VNum (dbl_num f)) /\
    (fp = [] -> hd_eof s <> 46) /\ (fp = [] -> ex = [] -> is_e (hd_eof s) = false).
Proof.
  intros L i b r v r' ds s Hr Hd Hs H.
  assert (exists f, v = VNum (dbl_num f)) as Hv by (eapply parse_double_dbl; eauto).
  unfold parse_double in H.
  destruct (parse_large_pos L (large_fuel r) (f_of_Z i) r ds s Hd Hs Hr) as [E|[E|(d0 & r0 & E & Hr0)]];
    rewrite E in H; cbn [bind] in H; try congruence.
  rewrite (next_at _ _ Hr0) in H.
  assert (HE : forall (d1 : spec_float) r2 s2, at_pos r2 s2 ->
    (let '(c2, r3) := next r2 in
     do (d2, r4) <-
       (if is_e c2 then
          let '(negexp, r5) := read_sign (commit r3) in
          let '(c3, r6) := next r5 in
          if isdigit c3 then
            let '(ok, expn, _, r7) := parse_unsigned r6 in
            if ok then
              Ok (f_mul d1 (lm_pow L (if negexp then f_tenth else f_ten) (f_of_Z expn)), r7)
            else Err
          else Err
        else Ok (d1, r3));
     Ok (value_of_double (if b then f_opp d2 else d2), r4)) = Ok (v, r') ->
    exists ex rest, s2 = ex ++ rest /\ exponent ex /\ at_pos r' rest /\ (ex = [] -> is_e (hd_eof s2) = false)).
  { intros d1 r2 s2 Hr2 H2. rewrite (next_at _ _ Hr2) in H2. destruct (is_e (hd_eof s2)) eqn:Ee.
    - destruct s2 as [|e s2]; [discriminate|]. cbn [tl] in H2. unfold commit in H2. cbn [src] in H2.
      destruct (sign_span (mkR s2 None) s2 (at_none _)) as (sg & s3 & r5 & -> & Hsg & E5 & Hr5 & _).
      rewrite E5 in H2. rewrite (next_at _ _ Hr5) in H2. destruct (isdigit (hd_eof s3)) eqn:Ed; [|discriminate].
      destruct (digit_span s3) as (ds3 & rest & -> & Hd3 & Hs3).
      destruct (parse_unsigned_span (mkR (tl (ds3 ++ rest)) (Some (hd_eof (ds3 ++ rest)))) ds3 rest (at_next _) Hd3 Hs3)
        as (ok & vv & n & r7 & ds2 & E7 & Hr7 & _ & Hok & _).
      rewrite E7 in H2. destruct ok; [|discriminate]. cbn [bind] in H2. inversion H2; subst.
      destruct (Hok eq_refl) as (-> & _). cbn [app] in Hr7.
      exists (e :: sg ++ ds3), rest. repeat split; auto; [| |discriminate].
      + cbn [app]. rewrite <- app_assoc. reflexivity.
      + right. exists e, sg, ds3. repeat split; auto.
        * unfold is_e in Ee. cbn in Ee. lia.
        * intros ->. cbn [app] in Ed. congruence.
    - cbn [bind] in H2. inversion H2; subst. exists [], s2. repeat split; auto; [left; auto|apply at_next]. }
  destruct (hd_eof s =? 46) eqn:E46.
  - destruct s as [|c s]; [discriminate|]. cbn in E46. replace c with 46 in * by lia.
    cbn [tl] in H. unfold commit in H. cbn [src] in H.
    rewrite (next_at (mkR s None) s (at_none _)) in H. destruct (isdigit (hd_eof s)) eqn:Ed; [|discriminate].
    destruct (digit_span s) as (ds3 & rest & -> & Hd3 & Hs3).
    assert (ds3 <> []) as Hne by (intros ->; cbn [app] in Ed; congruence).
    destruct (parse_decimal_pos L (mkR (tl (ds3 ++ rest)) (Some (hd_eof (ds3 ++ rest)))) ds3 rest Hne Hd3 Hs3 (at_next _))
      as (d & r3 & Ep & Hr3).
    rewrite Ep in H. cbn [bind] in H. apply (HE _ _ _ Hr3) in H as (ex & rest' & -> & Hex & Hat & _).
    exists (46 :: ds3), ex, rest'. repeat split; auto; try discriminate. right. eauto.
  - cbn [bind] in H. apply (HE _ _ s) in H as (ex & rest' & -> & Hex & Hat & He); [|apply at_next].
    exists [], ex, rest'. repeat split; auto. intros _. lia.
Qed.

Lemma dec_nonneg : forall ds, digits ds -> 0 <= dec_value ds.
Proof. intros ds H. apply (dec_fold_ge ds 0); auto. lia. Qed.

Lemma testbit_63 : forall z, 0 <= z < 2 ^ 64 -> Z.testbit z 63 = (2 ^ 63 <=? z).
Proof.
  intros z H. destruct (2 ^ 63 <=? z) eqn:E.
  - apply Z.testbit_true; [lia|]. replace (z / 2 ^ 63) with 1; [reflexivity|].
    apply Z.div_unique with (z - 2 ^ 63); lia.
  - destruct (Z.eq_dec z 0) as [->|Hz]; [reflexivity|].
    apply Z.bits_above_log2; [lia|]. apply Z.log2_lt_pow2; lia.
Qed.

Lemma parse_number_inv : forall L F r s v r', at_pos r s -> precise F = false ->
  parse_number L F r = Ok (v, r') ->
  exists t rest n, s = t ++ rest /\ v = VNum n /\ plain_value n t /\ at_pos r' rest.
Proof.
  intros L F r s v r' Hr HF H. unfold parse_number in H. rewrite HF in H.
  destruct (sign_span r s Hr) as (sg & s1 & r1 & -> & Hsg & E1 & Hr1 & _). rewrite E1 in H.
  rewrite (next_at _ _ Hr1) in H.
  destruct (negb (isdigit (hd_eof s1)) && negb (hd_eof s1 =? 46)) eqn:Eh; [discriminate|].
  destruct (digit_span s1) as (ip & s2 & -> & Hip & Hs2).
  destruct (parse_unsigned_span (mkR (tl (ip ++ s2)) (Some (hd_eof (ip ++ s2)))) ip s2 (at_next _) Hip Hs2)
    as (ok & iv & n & r3 & ds2 & E3 & Hr3 & Hd2 & Hok & Hov).
  rewrite E3 in H. rewrite (next_at _ _ Hr3) in H.
  destruct (negb ok || (hd_eof (ds2 ++ s2) =? 46) || is_e (hd_eof (ds2 ++ s2))) eqn:Eb.
  - apply (parse_double_inv L _ _ _ _ _ ds2 s2 (at_next _) Hd2 Hs2) in H
      as (fp & ex & rest & -> & Hfp & Hex & Hat & (f & ->) & H46 & He).
    exists (sg ++ ip ++ fp ++ ex), rest, (dbl_num f). rewrite <- !app_assoc. repeat split; auto.
    exists sg, ip, fp, ex. split; [reflexivity|]. split.
    + unfold plain_number. repeat split; auto. intros -> ->. cbn [app] in *.
      destruct (ex ++ rest) as [|c x] eqn:Ex; [cbn in Eh; lia|].
      specialize (H46 eq_refl). cbn in Hs2, Eh, H46. rewrite Hs2 in Eh. lia.
    + right. right. split; [|eauto].
      destruct ok.
      * destruct (Hok eq_refl) as (-> & _). cbn [app negb orb] in Eb.
        destruct fp as [|c fp]; [|left; discriminate]. destruct ex as [|c ex]; [|right; left; discriminate].
        specialize (H46 eq_refl). specialize (He eq_refl eq_refl). cbn [app] in *. rewrite He in Eb. lia.
      * right. right. left. apply Hov. reflexivity.
  - destruct ok; [|discriminate]. destruct (Hok eq_refl) as (-> & -> & Hlt). cbn [app] in *.
    pose proof (dec_nonneg ip Hip) as Hnn.
    assert (exists m, v = VNum m /\ r' = mkR (tl s2) (Some (hd_eof s2)) /\
      ((sg <> [45] /\ m = NUInt (dec_value ip)) \/ (sg = [45] /\ dec_value ip < 2 ^ 63 /\ m = int_num (- dec_value ip)) \/
       (sg = [45] /\ 2 ^ 63 <= dec_value ip /\ exists f, m = dbl_num f))) as (m & -> & -> & Hm).
    { destruct Hsg as [->|[->| ->]].
      - inversion H; subst. eexists. split; [reflexivity|]. split; auto. left. split; auto. discriminate.
      - inversion H; subst. eexists. split; [reflexivity|]. split; auto. left. split; auto. discriminate.
      - rewrite testbit_63 in H by lia. destruct (2 ^ 63 <=? dec_value ip) eqn:Et; inversion H; subst;
          (eexists; split; [reflexivity|]; split; [reflexivity|]).
        + right. right. repeat split; auto; [lia|eexists; reflexivity].
        + right. left. repeat split; auto. lia. }
    exists (sg ++ ip), s2, m. rewrite <- app_assoc. repeat split; auto; [|apply at_next].
    exists sg, ip, [], []. rewrite !app_nil_r. split; [reflexivity|]. split.
    + unfold plain_number. repeat split; auto; [left; auto|]. intros ->. cbn [app] in *.
      cbn [negb orb] in Eb. apply orb_false_iff in Eb as [Eb _]. rewrite Hs2, Eb in Eh. discriminate.
    + destruct Hm as [(A & ->)|[(A & B & ->)|(A & B & C)]]; [left|right; left|right; right]; repeat split; auto.
Qed.

Lemma digit_run_span : forall c s, exists ds rest, c :: s = ds ++ rest /\ digits ds /\
  digit_run c s = (ds, hd_eof rest, tl rest) /\ isdigit (hd_eof rest) = false /\ (isdigit c = true -> ds <> []).
Proof.
  intros c s. destruct (digit_span (c :: s)) as (ds & rest & E & Hd & Hr). exists ds, rest. repeat split; auto.
  - destruct ds as [|x ds].
    + cbn [app] in E. subst rest. cbn in Hr. destruct s; cbn [digit_run]; rewrite Hr; reflexivity.
    + cbn [app] in E. inversion E; subst. apply digit_run_pos; auto.
  - intros Hc ->. cbn [app] in E. subst rest. cbn in Hr. congruence.
Qed.

(** The same from a position of the text, the end of the text included. *)
Lemma digit_run_at : forall s, exists ds rest, s = ds ++ rest /\ digits ds /\
  digit_run (hd_eof s) (tl s) = (ds, hd_eof rest, tl rest) /\ isdigit (hd_eof rest) = false /\
  (isdigit (hd_eof s) = true -> ds <> []).
Proof.
  intros [|c s].
  - exists [], []. repeat split; auto; [constructor|discriminate].
  - apply digit_run_span.
Qed.

Lemma sign_char : forall c, (c =? 43) || (c =? 45) = true -> to_byte c = c /\ sign [c].
Proof.
  intros c H. assert (c = 43 \/ c = 45) as [->| ->] by lia; (split; [reflexivity|]); unfold sign; auto.
Qed.

Lemma parse_precise_inv : forall r s t isf r', at_pos r s -> parse_precise r = Ok (t, isf, r') ->
  exists rest, s = t ++ rest /\ precise_text t /\ at_pos r' rest.
Proof.
  intros r s t isf r' Hr H. unfold parse_precise in H. rewrite (next_commit_at _ _ Hr) in H. cbn [src] in H.
  assert (exists sg s1, s = sg ++ s1 /\ sign sg /\
    (if (hd_eof s =? 43) || (hd_eof s =? 45)
     then let '(c, s0) := pull (tl s) in ([to_byte (hd_eof s)], c, s0) else ([], hd_eof s, tl s)) =
    (sg, hd_eof s1, tl s1)) as (sg & s1 & -> & Hsg & E1).
  { destruct ((hd_eof s =? 43) || (hd_eof s =? 45)) eqn:E.
    - destruct s as [|c s]; [discriminate|]. cbn in E. apply sign_char in E as [E1 E2]. exists [c], s.
      cbn [tl]. rewrite pull_hd. change (hd_eof (c :: s)) with c. rewrite E1. auto.
    - exists [], s. unfold sign. auto. }
  rewrite E1 in H. destruct (isdigit (hd_eof s1)) eqn:Ed; [|discriminate].
  destruct (digit_run_at s1) as (ip & s2 & -> & Hip & E2 & Hs2 & Hne). rewrite E2 in H.
  assert (exists fp s3, s2 = fp ++ s3 /\ (fp = [] \/ exists ds, fp = 46 :: ds /\ digits ds) /\
    exists b, (if hd_eof s2 =? 46
     then let '(c, s0) := pull (tl s2) in let '(ds, c', s') := digit_run c s0 in (46 :: ds, true, c', s')
     else ([], false, hd_eof s2, tl s2)) = (fp, b, hd_eof s3, tl s3)) as (fp & s3 & -> & Hfp & b & E3).
  { destruct (hd_eof s2 =? 46) eqn:E.
    - destruct s2 as [|c s2]; [discriminate|]. cbn in E. replace c with 46 by lia. cbn [tl]. rewrite pull_hd.
      destruct (digit_run_at s2) as (ds & s3 & -> & Hds & E3 & _ & _). rewrite E3.
      exists (46 :: ds), s3. repeat split; eauto.
    - exists [], s2. repeat split; eauto. }
  rewrite E3 in H. destruct (is_e (hd_eof s3)) eqn:Ee.
  - destruct s3 as [|e s3]; [discriminate|]. cbn [tl] in H. rewrite pull_hd in H.
    change (hd_eof (e :: s3)) with e in *.
    assert (exists es s4, s3 = es ++ s4 /\ sign es /\
      (if (hd_eof s3 =? 43) || (hd_eof s3 =? 45)
       then let '(c, s0) := pull (tl s3) in ([to_byte (hd_eof s3)], c, s0) else ([], hd_eof s3, tl s3)) =
      (es, hd_eof s4, tl s4)) as (es & s4 & -> & Hes & E4).
    { destruct ((hd_eof s3 =? 43) || (hd_eof s3 =? 45)) eqn:E.
      - destruct s3 as [|c s3]; [discriminate|]. cbn in E. apply sign_char in E as [E4 E5]. exists [c], s3.
        cbn [tl]. rewrite pull_hd. change (hd_eof (c :: s3)) with c. rewrite E4. auto.
      - exists [], s3. unfold sign. auto. }
    rewrite E4 in H. destruct (isdigit (hd_eof s4)) eqn:Ed4; [|discriminate].
    destruct (digit_run_at s4) as (ed & s5 & -> & Hed & E5 & _ & Hned). rewrite E5 in H.
    assert (to_byte e = e) as Eb by (unfold is_e in Ee; unfold to_byte; apply Z.mod_small; lia).
    rewrite Eb in H. inversion H; subst. exists s5. split; [|split; [|apply at_next]].
    + rewrite <- !app_assoc. cbn [app]. rewrite <- !app_assoc. reflexivity.
    + exists sg, ip, fp, (e :: es ++ ed). split; [reflexivity|]. unfold precise_number. repeat split; auto.
      right. exists e, es, ed. repeat split; auto. unfold is_e in Ee. lia.
  - inversion H; subst. exists s3. split; [|split; [|apply at_next]].
    + rewrite <- !app_assoc. reflexivity.
    + exists sg, ip, fp, []. rewrite !app_nil_r. split; [reflexivity|]. unfold precise_number. repeat split; auto.
      left. auto.
Qed.
