(** Reading back what was written of a value that was read. *)
From Coq Require Import ZArith Lia Floats.SpecFloat ZifyBool.
From Verif Require Import Base SpecUtf8 ModelValue SpecKeyed ModelKeyed SpecText ModelText ProofKeyed ProofValue ProofText1 ProofText2 ProofText3 ProofText4 ProofText5.
From Verif Require Import SpecAccept ProofAccept ProofAccept2 ProofAccept3 SpecDouble ProofDouble7 SpecReread.
From Verif Require Import ModelEq SpecEq ProofEq ProofFloat ProofBin3.
Local Open Scope Z_scope.

(** *** What the parser makes *)
Inductive read_form (P : num -> Prop) : value -> Prop :=
| rf_null : read_form P VNull
| rf_bool : forall b, read_form P (VBool b)
| rf_num : forall n, P n -> read_form P (VNum n)
| rf_inf : forall s, read_form P (VNum (NDbl (S754_infinity s)))
| rf_str : forall s, s <> word_inf -> s <> word_neg_inf -> read_form P (VStr None s)
| rf_arr : forall l, Forall (fun m => fst m = [] /\ read_form P (snd m)) l -> read_form P (VArr l)
| rf_obj : forall l, keys_increasing l -> Forall (fun m => read_form P (snd m)) l -> read_form P (VObj false l).

Lemma string_value_form : forall P t, read_form P (string_value t).
Proof.
  intros P t. unfold string_value. destruct (beqb t inf_word) eqn:E1; [apply rf_inf|].
  destruct (beqb t neg_inf_word) eqn:E2; [apply rf_inf|].
  apply rf_str; intros ->; [change (beqb inf_word inf_word = false) in E1|change (beqb neg_inf_word neg_inf_word = false) in E2];
    [rewrite (proj2 (beqb_eq inf_word inf_word) eq_refl) in E1|rewrite (proj2 (beqb_eq neg_inf_word neg_inf_word) eq_refl) in E2]; discriminate.
Qed.

Section Form.
Variables (L : libm) (F : pflags) (P : num -> Prop).
Hypothesis HP : forall r n r', parse_number L F r = Ok (VNum n, r') -> P n.

Lemma finish_object_form : forall l o, finish_object F l = Ok o ->
  Forall (fun m => read_form P (snd m)) l -> read_form P o.
Proof.
  intros l o H Hl. unfold finish_object in H. cbv zeta in H.
  match type of H with (if ?b then _ else _) = _ => destruct b end; [congruence|].
  inversion H; subst. apply rf_obj; [apply build_object_spec|].
  rewrite Forall_forall in *. intros m Hm. apply Hl. apply build_object_in. auto.
Qed.

Lemma parse_form_all : forall f,
  (forall r v r', parse L F f r = Ok (v, r') -> read_form P v) /\
  (forall c r acc v r', Forall (fun m => read_form P (snd m)) acc ->
     parse_obj L F f c r acc = Ok (v, r') -> read_form P v) /\
  (forall r acc v r', Forall (read_form P) acc -> parse_arr L F f r acc = Ok (v, r') -> read_form P v).
Proof.
  induction f as [|f (IHp & IHo & IHa)].
  { repeat split; intros; cbn in *; congruence. }
  split; [|split].
  - intros r v r' H. cbn [parse] in H. destruct (next_ws r) as [c r1].
    destruct (c =? 123).
    { destruct (next_ws (commit r1)) as [c1 r2].
      destruct (c1 =? 125); [inversion H; subst; apply rf_obj; constructor|]. eapply IHo; [|exact H]. constructor. }
    destruct (c =? 91).
    { destruct (next_ws (commit r1)) as [c1 r2].
      destruct (c1 =? 93); [inversion H; subst; apply rf_arr; constructor|]. eapply IHa; [|exact H]. constructor. }
    destruct (c =? 34).
    { destruct (read_string_r (commit r1)) as [[t r2]| |]; cbn [bind] in H; try congruence.
      inversion H; subst. apply string_value_form. }
    destruct (c =? 116).
    { destruct (check_string str_true r1) as [r2| |]; cbn [bind] in H; try congruence.
      inversion H; subst. constructor. }
    destruct (c =? 102).
    { destruct (check_string str_false r1) as [r2| |]; cbn [bind] in H; try congruence.
      inversion H; subst. constructor. }
    destruct (c =? 110).
    { destruct (check_string str_null r1) as [r2| |]; cbn [bind] in H; try congruence.
      inversion H; subst. constructor. }
    destruct (isdigit c || (c =? 43) || (c =? 45) || (c =? 46)); [|congruence].
    pose proof H as H'. apply parse_number_num in H'. destruct H' as [n ->]. apply rf_num. eapply HP. exact H.
  - intros c r acc v r' Hacc H. cbn [parse_obj] in H. destruct (c =? 34); [|congruence].
    destruct (read_string_r (commit r)) as [[t r1]| |]; cbn [bind] in H; try congruence.
    destruct (next_ws r1) as [c1 r2]. destruct (c1 =? 58); [|congruence].
    destruct (parse L F f (commit r2)) as [[v0 r3]| |] eqn:E3; cbn [bind] in H; try congruence.
    apply IHp in E3. cbv zeta in H.
    assert (Hacc' : Forall (fun m => read_form P (snd m)) ((t, v0) :: acc)) by (constructor; auto).
    destruct (next_ws r3) as [c2 r4]. destruct (c2 =? 125).
    { destruct (finish_object F (rev ((t, v0) :: acc))) as [o| |] eqn:Ef; cbn [bind] in H; try congruence.
      inversion H; subst. eapply finish_object_form; eauto. apply Forall_rev. auto. }
    destruct (c2 =? 44); [|congruence].
    destruct (next_ws (commit r4)) as [c3 r6]. eapply IHo; [|exact H]. auto.
  - intros r acc v r' Hacc H. cbn [parse_arr] in H.
    destruct (parse L F f r) as [[v0 r3]| |] eqn:E3; cbn [bind] in H; try congruence.
    apply IHp in E3. cbv zeta in H.
    assert (Hacc' : Forall (read_form P) (v0 :: acc)) by (constructor; auto).
    destruct (next_ws r3) as [c2 r4]. destruct (c2 =? 93).
    { inversion H; subst. apply rf_arr. rewrite Forall_map. cbn [fst snd].
      apply Forall_rev in Hacc'. cbn [rev] in *. eapply Forall_impl; [|exact Hacc']. auto. }
    destruct (c2 =? 44); [|congruence]. eapply IHa; [|exact H]. auto.
Qed.

Lemma parse_form : forall s v r, parse_source L F s = Ok (v, r) -> read_form P v.
Proof. intros s v r. unfold parse_source. apply parse_form_all. Qed.
End Form.

Lemma mo_arr_inv : forall Q P l, made_of Q P (VArr l) -> forall m, In m l -> made_of Q P (snd m).
Proof. intros Q P l H. apply Forall_forall. inversion H. assumption. Qed.
Lemma mo_obj_inv : forall Q P d l, made_of Q P (VObj d l) -> forall m, In m l -> Q (fst m) /\ made_of Q P (snd m).
Proof. intros Q P d l H m Hm. inversion H as [| | | | | |d0 l0 Hl]; subst. rewrite Forall_forall in Hl. exact (Hl m Hm). Qed.
Lemma rf_arr_inv : forall P l, read_form P (VArr l) -> forall m, In m l -> fst m = [] /\ read_form P (snd m).
Proof. intros P l H m Hm. inversion H as [| | | | |l0 Hl|]; subst. rewrite Forall_forall in Hl. exact (Hl m Hm). Qed.
Lemma rf_obj_inv : forall P d l, read_form P (VObj d l) -> forall m, In m l -> read_form P (snd m).
Proof. intros P d l H m Hm. inversion H as [| | | | | |l0 Hk Hl]; subst. rewrite Forall_forall in Hl. exact (Hl m Hm). Qed.

Lemma read_form_doc : forall utf8 (P Q : num -> Prop) v, read_form P v -> made_of (text_ok utf8) Q v ->
  doc_of utf8 (fun n => P n /\ Q n) v.
Proof.
  intros utf8 P Q. induction v as [| |b|n|e s|l IH|d l IH] using value_ind'; intros H M; inversion H; subst; inversion M; subst;
    try (constructor; auto; fail).
  - constructor. rewrite Forall_forall in *. intros m Hm. apply IH; [exact Hm|apply (rf_arr_inv _ _ H _ Hm)|apply (mo_arr_inv _ _ _ M _ Hm)].
  - constructor; auto. rewrite Forall_forall in *. intros m Hm. destruct (mo_obj_inv _ _ _ _ M _ Hm) as [M1 M2].
    split; [exact M1|]. apply IH; [exact Hm|apply (rf_obj_inv _ _ _ H _ Hm)|exact M2].
Qed.

(** Two values as the parser makes them that agree are the same. *)
Lemma read_form_eq : forall (P Q : num -> Prop) v v', read_form P v -> read_form Q v' -> like_json eq v v' -> v' = v.
Proof.
  intros P Q. induction v as [| |b|n|e s|l IH|d l IH] using value_ind'; intros v' H H' J; inversion J; subst; try reflexivity.
  - f_equal. inversion H as [| | | | |l0 Hl|]; subst. inversion H' as [| | | | |l1 Hl'|]; subst. clear J H H'.
    match goal with H : Forall2 _ l _ |- _ => induction H as [|a b l l' H1 _ IHl] end; [reflexivity|].
    inversion_clear IH as [|? ? I1 I2]. inversion_clear Hl as [|? ? [K1 K2] Hl2]. inversion_clear Hl' as [|? ? [K3 K4] Hl3].
    rewrite (IHl I2 Hl2 Hl3). f_equal. destruct a, b. cbn [fst snd] in *. rewrite (I1 _ K2 K4 H1). congruence.
  - inversion H as [| | | | | |l0 Hk Hl]; subst. inversion H' as [| | | | | |l1 Hk' Hl']; subst. f_equal. clear J H H' Hk Hk'.
    match goal with H : Forall2 _ l _ |- _ => induction H as [|a b l l' [H0 H1] _ IHl] end; [reflexivity|].
    inversion_clear IH as [|? ? I1 I2]. inversion_clear Hl as [|? ? K2 Hl2]. inversion_clear Hl' as [|? ? K4 Hl3].
    rewrite (IHl I2 Hl2 Hl3). f_equal. destruct a, b. cbn [fst snd] in *. rewrite (I1 _ K2 K4 H1). congruence.
Qed.

(** *** Precise numbers *)
Lemma at_pos_some : forall r, exists s, at_pos r s.
Proof. intros [s [c|]]; unfold at_pos; cbn; eauto. Qed.

Definition dotted (t : bytes) : bool := existsb (fun c => (c =? 46) || is_e c) t.

Lemma dotted_app : forall a b, dotted (a ++ b) = dotted a || dotted b.
Proof. intros. apply existsb_app. Qed.

Lemma digit_run_digits : forall s c ds c' s', digit_run c s = (ds, c', s') -> dotted ds = false.
Proof.
  induction s as [|x s IH]; intros c ds c' s' H; cbn [digit_run] in H; destruct (isdigit c) eqn:Ec;
    try (assert (to_byte c = c) as Eb by (unfold isdigit in Ec; unfold to_byte; apply Z.mod_small; lia); rewrite Eb in H).
  - inversion H; subst. unfold dotted. cbn [existsb]. unfold isdigit, is_e in *. lia.
  - inversion H; subst. reflexivity.
  - destruct (digit_run x s) as [[ds0 c0] s0] eqn:E. inversion H; subst. apply IH in E. unfold dotted in *. cbn [existsb]. rewrite E.
    unfold isdigit, is_e in *. lia.
  - inversion H; subst. reflexivity.
Qed.

Lemma sign_byte : forall c, (c =? 43) || (c =? 45) = true -> dotted [to_byte c] = false.
Proof. intros c H. assert (c = 43 \/ c = 45) as [->| ->] by lia; reflexivity. Qed.

Lemma parse_precise_dotted : forall r t isf r', parse_precise r = Ok (t, isf, r') -> isf = dotted t.
Proof.
  intros r t isf r' H. unfold parse_precise in H. destruct (next_commit r) as [c0 r0].
  assert (exists sgn c1 s1, dotted sgn = false /\ (if (c0 =? 43) || (c0 =? 45)
    then let '(c, s) := pull (src r0) in ([to_byte c0], c, s) else ([], c0, src r0)) = (sgn, c1, s1)) as (sgn & c1 & s1 & D1 & E1).
  { destruct ((c0 =? 43) || (c0 =? 45)) eqn:E; [|exists [], c0, (src r0); auto]. destruct (pull (src r0)) as [c s]. do 3 eexists. split; [|reflexivity]. apply sign_byte, E. }
  rewrite E1 in H. destruct (isdigit c1); [|discriminate].
  destruct (digit_run c1 s1) as [[ip c2] s2] eqn:E2. apply digit_run_digits in E2.
  assert (exists fp isf1 c3 s3, dotted fp = isf1 /\ (if c2 =? 46
      then let '(c, s) := pull s2 in let '(ds, c', s') := digit_run c s in (46 :: ds, true, c', s')
      else ([], false, c2, s2)) = (fp, isf1, c3, s3)) as (fp & isf1 & c3 & s3 & D3 & E3).
  { destruct (c2 =? 46); [|exists [], false, c2, s2; auto]. destruct (pull s2) as [c s]. destruct (digit_run c s) as [[ds c'] s']. do 4 eexists. split; [|reflexivity]. reflexivity. }
  rewrite E3 in H. destruct (is_e c3) eqn:Ee.
  - destruct (pull s3) as [c4 s4].
    destruct (if (c4 =? 43) || (c4 =? 45) then let '(c, s) := pull s4 in ([to_byte c4], c, s) else ([], c4, s4)) as [[es c5] s5].
    destruct (isdigit c5); [|discriminate]. destruct (digit_run c5 s5) as [[ed c6] s6]. inversion H; subst.
    rewrite !dotted_app. unfold dotted at 4. cbn [existsb].
    assert (to_byte c3 = c3) as -> by (unfold is_e in Ee; unfold to_byte; apply Z.mod_small; lia).
    rewrite Ee. rewrite !orb_true_r. reflexivity.
  - inversion H; subst. rewrite !dotted_app, D1, E2. reflexivity.
Qed.

Definition precise_form (n : num) : Prop := exists t, precise_text t /\ n = number_from_string_raw t (dotted t).

Lemma precise_num_form : forall L F r n r', precise F = true -> parse_number L F r = Ok (VNum n, r') -> precise_form n.
Proof.
  intros L F r n r' HF H. unfold parse_number in H. rewrite HF in H.
  destruct (parse_precise r) as [[[t isf] r1]| |] eqn:E; cbn [bind] in H; try congruence. inversion H; subst.
  exists t. split; [|rewrite (parse_precise_dotted _ _ _ _ E); reflexivity].
  destruct (at_pos_some r) as (s & Hs). destruct (parse_precise_inv r s t isf r' Hs E) as (rest & _ & Ht & _). exact Ht.
Qed.

Lemma precise_form_text : forall E utf8 n, precise_form n -> exists t, precise_text t /\ n = number_from_string_raw t (dotted t) /\ ser_num E utf8 n = t.
Proof.
  intros E utf8 n (t & Ht & ->). exists t. split; [exact Ht|]. split; [reflexivity|].
  destruct (number_raw_prec t (dotted t)) as (k & ->). reflexivity.
Qed.

Lemma precise_text_low : forall t, precise_text t -> Forall (fun c => 0 <= c < 128) t.
Proof.
  intros t (sg & ip & fp & ex & -> & Hsg & _ & Hip & Hfp & Hex).
  assert (forall s, sign s -> Forall (fun c => 0 <= c < 128) s) as S1 by (intros s [->|[->| ->]]; repeat constructor; lia).
  assert (forall ds, digits ds -> Forall (fun c => 0 <= c < 128) ds) as S2 by (intros ds H; eapply Forall_impl; [|exact H]; unfold digit_char; intros; lia).
  repeat (apply Forall_app; split); auto.
  - destruct Hfp as [->|(ds & -> & Hd)]; constructor; [lia|auto].
  - destruct Hex as [->|(e & s & ds & -> & He & Hs & _ & Hd)]; constructor; [lia|]. apply Forall_app; auto.
Qed.

Lemma reads_precise : forall L F sg n t, precise F = true -> precise_text t -> n = number_from_string_raw t (dotted t) ->
  reads L F sg n t.
Proof.
  intros L F sg n t HF Ht ->. destruct (precise_read L F t HF Ht) as (n & Hr & (_ & k & Hk) & c & t' & Et & Hc).
  assert (n = number_from_string_raw t (dotted t)) as <-.
  { destruct (Hr (mkR t None) [] I) as (r' & E & _); [rewrite app_nil_r; reflexivity|].
    destruct (precise_num_form L F _ _ _ HF E) as (t2 & _ & E2). destruct (number_raw_prec t2 (dotted t2)) as (k2 & E3).
    rewrite Hk in E2. rewrite E3 in E2. injection E2 as -> ->. rewrite Hk. symmetry. exact E3. }
  assert (33 <= c < 128 /\ c <> 93 /\ c <> 125 /\ c <> 91 /\ c <> 123 /\ c <> 34 /\ c <> 116 /\ c <> 102 /\ c <> 110) as Hc'
    by (unfold isdigit in Hc; lia).
  split; [exists c, t'; split; [exact Et|lia]|].
  intros w r rest Hw Hn Hat. unfold parse_ok. cbn [settle]. rewrite low_src in Hat by (apply precise_text_low; exact Ht).
  assert (Hns : next_ws r = (c, mkR (t' ++ rest) (Some c))).
  { apply next_ws_low with w; auto; [|lia]. subst t. exact Hat. }
  destruct (Hr (mkR (t' ++ rest) (Some c)) rest Hn) as (r' & Hp & Hat'); [subst t; apply at_cons|].
  exists 1%nat, r'. split; [exact Hat'|]. intros [|f] Hf; [lia|].
  cbn [parse]. rewrite Hns.
  replace (c =? 123) with false by lia. replace (c =? 91) with false by lia.
  replace (c =? 34) with false by lia. replace (c =? 116) with false by lia.
  replace (c =? 102) with false by lia. replace (c =? 110) with false by lia.
  rewrite Hc. exact Hp.
Qed.

Lemma reread_precise : forall L E F F' sg utf8 s v r w rest,
  precise F = true -> precise F' = true -> parse_source L F s = Ok (v, r) -> made_of (text_ok utf8) any_num v ->
  ws w -> num_end rest ->
  exists r', parse_source L F' (w ++ map (as_source sg) (ser E utf8 v) ++ rest) = Ok (v, r') /\ at_pos r' rest.
Proof.
  intros L E F F' sg utf8 s v r w rest HF HF' H M Hw Hn.
  assert (forall F0 r n r', precise F0 = true -> parse_number L F0 r = Ok (VNum n, r') -> precise_form n) as HP
    by (intros; eapply precise_num_form; eauto).
  pose proof (parse_form L F precise_form (fun r n r' => HP F r n r' HF) s v r H) as Fm.
  pose proof (read_form_doc utf8 _ _ v Fm M) as D.
  assert (forall n, precise_form n /\ any_num n -> exists m, reads L F' sg m (ser_num E utf8 n) /\ n = m) as HR.
  { intros n [Hf _]. destruct (precise_form_text E utf8 n Hf) as (t & Ht & En & Es). exists n. split; [|reflexivity].
    rewrite Es. apply reads_precise; auto. }
  destruct (doc_back L F' sg utf8 E _ eq HR v w rest D Hw Hn) as (v' & r' & H1 & H2 & H3).
  pose proof (parse_form L F' precise_form (fun r n r' => HP F' r n r' HF') _ _ _ H1) as Fm'.
  rewrite (read_form_eq _ _ v v' Fm Fm' H2) in H1. eauto.
Qed.

(** *** Plain numbers *)
Definition plain_form (n : num) : Prop :=
  match n with NUInt z => 0 <= z < 2 ^ 64 | NInt z => - 2 ^ 63 < z < 0 | NDbl f => forall s, f <> S754_zero s | NPrec _ _ => False end.

Lemma plain_num_form : forall L F r n r', precise F = false -> parse_number L F r = Ok (VNum n, r') -> plain_form n.
Proof.
  intros L F r n r' HF H. destruct (at_pos_some r) as (s & Hs).
  destruct (parse_number_inv L F r s _ r' Hs HF H) as (t & rest & m & _ & Em & (sg & ip & fp & ex & _ & (_ & Hip & _) & V) & _).
  injection Em as <-. pose proof (dec_nonneg ip Hip) as Hd.
  destruct V as [(_ & _ & _ & Hr & ->)|[(_ & _ & _ & Hr & ->)|(_ & f & ->)]].
  - cbn. lia.
  - unfold int_num. destruct (- dec_value ip =? 0) eqn:Ez; cbn; lia.
  - destruct f; cbn; lia || (intros ? X; discriminate X).
Qed.

Lemma reread_doc : forall utf8 v, read_form plain_form v -> made_of (text_ok utf8) no_double v -> doc_ok utf8 v.
Proof.
  intros utf8. induction v as [| |b|n|e s|l IH|d l IH] using value_ind'; intros H M; inversion H; subst; inversion M; subst;
    try (constructor; auto; fail).
  - destruct n as [z|z|f|t k]; cbn in *.
    + constructor. assumption.
    + constructor. lia.
    + match goal with H : exists s, f = _ |- _ => destruct H as (s & ->) end. constructor.
    + contradiction.
  - constructor. rewrite Forall_forall in *. intros m Hm. apply IH; [exact Hm|apply (rf_arr_inv _ _ H _ Hm)|apply (mo_arr_inv _ _ _ M _ Hm)].
  - constructor; auto. rewrite Forall_forall in *. intros m Hm. destruct (mo_obj_inv _ _ _ _ M _ Hm) as [M1 M2].
    split; [exact M1|]. apply IH; [exact Hm|apply (rf_obj_inv _ _ _ H _ Hm)|exact M2].
Qed.

Lemma norm_id : forall v, read_form plain_form v -> norm v = v.
Proof.
  induction v as [| |b|n|e s|l IH|d l IH] using value_ind'; intros H; inversion H; subst; try reflexivity.
  - destruct n as [z|z|f|t k]; try reflexivity. cbn [norm]. cbn in *. replace (z <? 0) with true by lia. reflexivity.
  - cbn [norm]. f_equal. rewrite <- (map_id l) at 2. apply map_ext_in. intros [k x] Hm. rewrite Forall_forall in *. cbn [fst snd].
    destruct (rf_arr_inv _ _ H _ Hm) as [Hk Hx]. cbn [fst snd] in *. subst k.
    f_equal. apply (IH ([], x) Hm). exact Hx.
  - cbn [norm]. f_equal. rewrite <- (map_id l) at 2. apply map_ext_in. intros [k x] Hm. rewrite Forall_forall in *. cbn [fst snd].
    f_equal. apply (IH (k, x) Hm). apply (rf_obj_inv _ _ _ H _ Hm).
Qed.

(** The text of what was read back. *)
Lemma ser_norm : forall E utf8 v, doc_ok utf8 v -> ser E utf8 (norm v) = ser E utf8 v.
Proof.
  intros E utf8. induction v as [| |b|n|e s|l IH|d l IH] using value_ind'; intros H; try reflexivity.
  - inversion H; subst; try reflexivity. cbn [norm]. destruct (n0 <? 0) eqn:Ez; [reflexivity|]. cbn [ser ser_num].
    unfold write_signed. rewrite Ez. reflexivity.
  - inversion H as [| | | | | |l0 Hl|]; subst. cbn [norm ser]. f_equal. f_equal. f_equal. rewrite map_map. apply map_ext_in. intros m Hm.
    rewrite Forall_forall in *. apply IH; auto.
  - inversion H as [| | | | | | |d0 l0 Hk Hl]; subst. cbn [norm ser]. f_equal. f_equal. f_equal. rewrite map_map. apply map_ext_in. intros m Hm.
    rewrite Forall_forall in *. cbn [fst snd]. rewrite IH; auto. apply (Hl m Hm).
Qed.

Lemma document_text : forall L E F sg utf8 v w rest,
  precise F = false -> doc_ok utf8 v -> ws w -> num_end rest ->
  exists v' r', parse_source L F (w ++ map (as_source sg) (ser E utf8 v) ++ rest) = Ok (v', r') /\
    at_pos r' rest /\ ser E utf8 v' = ser E utf8 v.
Proof.
  intros L E F sg utf8 v w rest HF Hv Hw Hn.
  destruct (parse_source_exact L F sg (norm v) (ser E utf8 v) w rest HF (ser_jval E utf8 v Hv) Hw Hn
    (settle_norm utf8 _ v Hv)) as (r' & H1 & H2).
  exists (norm v), r'. repeat split; auto. apply ser_norm. exact Hv.
Qed.

Lemma reread_plain : forall L E F F' sg utf8 s v r w rest,
  precise F = false -> precise F' = false -> parse_source L F s = Ok (v, r) -> made_of (text_ok utf8) no_double v ->
  ws w -> num_end rest ->
  exists r', parse_source L F' (w ++ map (as_source sg) (ser E utf8 v) ++ rest) = Ok (v, r') /\ at_pos r' rest.
Proof.
  intros L E F F' sg utf8 s v r w rest HF HF' H M Hw Hn.
  pose proof (parse_form L F plain_form (fun r n r' => plain_num_form L F r n r' HF) s v r H) as Fm.
  pose proof (reread_doc utf8 v Fm M) as D.
  destruct (parse_source_exact L F' sg (norm v) (ser E utf8 v) w rest HF' (ser_jval E utf8 v D) Hw Hn
    (settle_norm utf8 _ v D)) as (r' & H1 & H2).
  rewrite (norm_id v Fm) in H1. eauto.
Qed.

Lemma read_zero : forall L F s v r, precise F = false -> parse_source L F s = Ok (v, r) -> made_of (fun _ => True) one_zero v.
Proof.
  intros L F s v r HF H.
  pose proof (parse_form L F plain_form (fun r n r' => plain_num_form L F r n r' HF) s v r H) as Fm. clear H.
  induction v as [| |b|n|e t|l IH|d l IH] using value_ind'; try (constructor; auto; fail).
  - constructor. inversion Fm as [| |n0 Hn|b| | |]; subst; [|split; discriminate].
    destruct n as [z|z|f|t k]; cbn in *; split; try discriminate; try contradiction.
    + intros X. injection X as ->. lia.
    + intros b X. injection X as ->. eapply Hn. reflexivity.
  - constructor. rewrite Forall_forall in *. intros m Hm. apply IH; [exact Hm|]. apply (rf_arr_inv _ _ Fm _ Hm).
  - constructor. rewrite Forall_forall in *. intros m Hm. split; [exact I|]. apply IH; [exact Hm|]. apply (rf_obj_inv _ _ _ Fm _ Hm).
Qed.

(** *** Equal in the sense of the operator *)
Lemma f_of_Z_not_nan : forall n, - 2 ^ 64 < n < 2 ^ 64 -> not_nan (f_of_Z n).
Proof.
  intros n H. destruct (Z.lt_trichotomy n 0) as [Hn|[->|Hn]]; [|discriminate|].
  - unfold f_of_Z, binary_normalize. destruct n as [|p|p]; try lia.
    destruct (round_int true p) as (m & e & -> & _); [lia|]. discriminate.
  - destruct (f_of_Z_nearest n ltac:(lia)) as (m & e & -> & _). discriminate.
Qed.

Lemma same_num_eq : forall L n m z, int_of n = Some z -> int_of m = Some z -> - 2 ^ 63 < z < 2 ^ 64 ->
  num_equal L n m = true /\ not_nan (get_number L n) /\ not_nan (get_number L m).
Proof.
  intros L n m z Hn Hm Hz. pose proof (f_of_Z_not_nan z ltac:(lia)) as N.
  destruct n as [a|a|f|t k]; cbn in Hn; inversion Hn; subst; destruct m as [b|b|f|t k]; cbn in Hm; inversion Hm; subst;
    cbn; repeat split; auto; try apply Z.eqb_refl; apply SFeqb_refl; exact N.
Qed.

Lemma same_json_veq : forall L utf8 v v', doc_ok utf8 v -> same_json v v' -> veq L v v' = true /\ proper L v /\ proper L v'.
Proof.
  intros L utf8. induction v as [| |b|n|e s|l IH|d l IH] using value_ind'; intros v' H J; inversion J; subst.
  - repeat split; constructor.
  - split; [destruct b; reflexivity|repeat constructor].
  - assert (- 2 ^ 63 < z < 2 ^ 64) as Hz by (inversion H; subst; cbn in *; try congruence; match goal with H : Some _ = Some z |- _ => injection H as <- end; lia).
    match goal with A : int_of n = Some z, B : int_of m = Some z |- _ => destruct (same_num_eq L n m z A B Hz) as (A1 & A2 & A3) end.
    repeat split; try constructor; assumption.
  - inversion H; subst. split; [|split; constructor; discriminate]. destruct s; reflexivity.
  - split; [cbn; apply beqb_eq; reflexivity|repeat constructor].
  - inversion H as [| | | | | |l0 Hl|]; subst. clear H J.
    match goal with H : Forall2 _ l ?m |- _ => assert (veq L (VArr l) (VArr m) = true /\ Forall (fun m => proper L (snd m)) l /\ Forall (fun m => proper L (snd m)) m) as G;
      [induction H as [|a b l l' H1 _ IHl]|] end.
    + repeat split; constructor.
    + inversion_clear IH as [|? ? I1 I2]. inversion_clear Hl as [|? ? K1 K2]. destruct (I1 _ K1 H1) as (A1 & A2 & A3).
      destruct (IHl I2 K2) as (B1 & B2 & B3). split; [cbn in *; rewrite A1; exact B1|]. split; constructor; assumption.
    + destruct G as (G1 & G2 & G3). split; [exact G1|split; constructor; assumption].
  - inversion H as [| | | | | | |d0 l0 Hk Hl]; subst. clear H J Hk.
    match goal with H : Forall2 _ l ?m |- _ => assert (veq L (VObj d l) (VObj d' m) = true /\ Forall (fun m => proper L (snd m)) l /\ Forall (fun m => proper L (snd m)) m) as G;
      [induction H as [|a b l l' [H0 H1] _ IHl]|] end.
    + repeat split; constructor.
    + inversion_clear IH as [|? ? I1 I2]. inversion_clear Hl as [|? ? [K0 K1] K2]. destruct (I1 _ K1 H1) as (A1 & A2 & A3).
      destruct (IHl I2 K2) as (B1 & B2 & B3). split; [|split; constructor; assumption].
      cbn in *. rewrite A1, (proj2 (beqb_eq _ _) H0). exact B1.
    + destruct G as (G1 & G2 & G3). split; [exact G1|split; constructor; assumption].
Qed.

Lemma document_equal : forall L E F sg utf8 v w rest,
  precise F = false -> doc_ok utf8 v -> ws w -> num_end rest ->
  exists v' r', parse_source L F (w ++ map (as_source sg) (ser E utf8 v) ++ rest) = Ok (v', r') /\
    at_pos r' rest /\ op_eq L v v' true /\ (forall b, op_eq L v v' b -> b = true).
Proof.
  intros L E F sg utf8 v w rest HF Hv Hw Hn.
  destruct (document_round_trip L E F sg utf8 v w rest HF Hv Hw Hn) as (v' & r' & H1 & H2 & H3).
  exists v', r'. split; [exact H1|]. split; [exact H3|]. destruct (same_json_veq L utf8 v v' Hv H2) as (A & B & C).
  destruct (op_eq_veq L v v' B C) as (D1 & D2). rewrite A in *. split; assumption.
Qed.
