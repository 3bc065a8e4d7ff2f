(** Lemmas about JSON text: what grammatical text evaluates to, the serializer's
    output is grammatical, parsed objects are sorted. *)
From Coq Require Import ZifyBool Sorted Permutation.
From Verif Require Import Base ModelUtf8 SpecUtf8 ProofUtf8 ModelKeyed SpecKeyed ProofKeyed
  ModelValue ProofValue ModelText SpecText ProofText1 ProofText2 ProofText3.
Local Open Scope Z_scope.

Inductive no_undef : value -> Prop :=
| nu_leaf : forall v,
    match v with VUndef | VArr _ | VObj _ _ => False | _ => True end -> no_undef v
| nu_arr : forall l, Forall (fun m => no_undef (snd m)) l -> no_undef (VArr l)
| nu_obj : forall d l, Forall (fun m => no_undef (snd m)) l -> no_undef (VObj d l).

Lemma jval_no_undef : forall N v t, jval N v t -> no_undef v.
Proof.
  intros N. apply (jval_mind N (fun v t _ => no_undef v)
    (fun l t _ => Forall (fun m => no_undef (snd m)) l)
    (fun l t _ => Forall (fun m => no_undef (snd m)) l)); intros;
    try (apply nu_leaf; exact I); try (apply nu_arr; auto); try (apply nu_obj; auto); auto.
Qed.

Lemma no_undef_is : forall v, no_undef v -> is_undef v = false.
Proof. intros v H. destruct H as [v Hv|l _|d l _]; auto. destruct v; auto. contradiction. Qed.

Lemma no_undef_list : forall l, Forall (fun m : bytes * value => no_undef (snd m)) l ->
  Forall (fun m => is_undef (snd m) = false) l.
Proof. intros l H. eapply Forall_impl; [|exact H]. intros m. apply no_undef_is. Qed.

Lemma settle_list_keys : forall dup l l', settle_list dup l = Some l' -> map fst l' = map fst l.
Proof.
  induction l as [|[k v] l IH]; intros l' H; cbn [settle_list] in H; [inversion H; reflexivity|].
  destruct (settle dup v); [|congruence]. destruct (settle_list dup l) as [l2|]; [|congruence].
  inversion H; subst. simpl. f_equal. apply IH. reflexivity.
Qed.

Lemma build_object_in : forall (l : list (bytes * value)) m, In m (build_object is_undef l) -> In m l.
Proof.
  intros l [k v] H. destruct (build_object_spec is_undef l) as [S1 S2].
  apply in_binding in H; [|apply keys_increasing_nodup; auto].
  rewrite S2 in H. apply last_binding_in in H. apply filter_In in H. tauto.
Qed.

Lemma filter_defined : forall l : list (bytes * value), Forall (fun m => is_undef (snd m) = false) l ->
  filter (fun m => negb (is_undef (snd m))) l = l.
Proof. induction 1 as [|m l Hm _ IH]; simpl; auto. rewrite Hm. simpl. congruence. Qed.

Lemma settle_list_spec : forall dup l,
  Forall (fun m => no_undef (snd m)) l ->
  Forall (fun m => dup = true \/ ~ has_dup (snd m) -> exists v', settle dup (snd m) = Some v' /\
     sorted_form (snd m) v' /\ no_undef v') l ->
  (dup = true \/ forall k v, In (k, v) l -> ~ has_dup v) ->
  exists l', settle_list dup l = Some l' /\
    Forall2 (fun a b => fst a = fst b /\ sorted_form (snd a) (snd b)) l l' /\
    Forall (fun m => no_undef (snd m)) l'.
Proof.
  induction l as [|[k v] l IH]; intros Hn Hs Hd; cbn [settle_list].
  - exists []. auto.
  - inversion_clear Hn as [|? ? Hn1 Hn2]. inversion_clear Hs as [|? ? Hs1 Hs2]. cbn [snd] in *.
    destruct Hs1 as (v' & E & Hf & Hn').
    { destruct Hd as [Hd|Hd]; [auto|right; apply (Hd k v); simpl; auto]. }
    destruct IH as (l' & E' & Hf' & Hn''); auto.
    { destruct Hd as [Hd|Hd]; [auto|right; intros k0 v0 Hi; apply (Hd k0 v0); simpl; auto]. }
    rewrite E, E'. eexists. split; [reflexivity|]. split; constructor; auto.
Qed.

Lemma settle_spec : forall v dup, no_undef v -> dup = true \/ ~ has_dup v ->
  exists v', settle dup v = Some v' /\ sorted_form v v' /\ no_undef v'.
Proof.
  intros v dup. induction v as [| |b|n|e s|l IH|d l IH] using value_ind'; intros Hn Hd.
  - inversion Hn; subst; contradiction.
  - eexists. split; [reflexivity|]. split; [constructor; exact I|auto].
  - eexists. split; [reflexivity|]. split; [constructor; exact I|auto].
  - eexists. split; [reflexivity|]. split; [constructor; exact I|auto].
  - eexists. split; [reflexivity|]. split; [constructor; exact I|auto].
  - inversion Hn as [? Hx|? Hx|]; subst; [contradiction|]. rewrite settle_arr.
    destruct (settle_list_spec dup l) as (l' & -> & Hf & Hn'); auto.
    { rewrite Forall_forall in *. intros m Hm. apply IH; auto. }
    { destruct Hd as [Hd|Hd]; auto. right. intros k v Hi Hc. apply Hd. eapply hd_arr; eauto. }
    eexists. split; [reflexivity|]. split; [apply sf_arr|apply nu_arr]; auto.
  - inversion Hn as [? Hx| |? ? Hx]; subst; [contradiction|]. rewrite settle_obj.
    destruct (settle_list_spec dup l) as (l' & E & Hf & Hn'); auto.
    { rewrite Forall_forall in *. intros m Hm. apply IH; auto. }
    { destruct Hd as [Hd|Hd]; auto. right. intros k v Hi Hc. apply Hd. eapply hd_obj; eauto. }
    rewrite E. cbv zeta. pose proof (settle_list_keys _ _ _ E) as Hk.
    pose proof (no_undef_list l' Hn') as Hu.
    assert (Hif : negb dup && negb (length (build_object is_undef l') =? length l')%nat = false).
    { destruct Hd as [->|Hd]; [reflexivity|]. destruct dup; [reflexivity|]. simpl negb. rewrite andb_true_l.
      apply negb_false_iff. apply Nat.eqb_eq. apply build_object_length; auto. rewrite Hk.
      destruct (ListDec.NoDup_dec bytes_eq_dec (map fst l)) as [N|N]; auto.
      exfalso. apply Hd. constructor. exact N. }
    rewrite Hif. destruct (build_object_spec is_undef l') as [S1 S2].
    eexists. split; [reflexivity|]. split.
    + eapply sf_obj; eauto. intros k. rewrite S2, filter_defined by auto. reflexivity.
    + apply nu_obj. rewrite Forall_forall in *. intros m Hm. apply Hn'. apply build_object_in. auto.
Qed.

Lemma settle_list_none : forall l k v, In (k, v) l -> settle false v = None -> settle_list false l = None.
Proof.
  induction l as [|[k' v'] l IH]; intros k v Hi Hs; [contradiction|]. cbn [settle_list].
  destruct Hi as [Hi|Hi].
  - inversion Hi; subst. rewrite Hs. reflexivity.
  - rewrite (IH k v Hi Hs). destruct (settle false v'); reflexivity.
Qed.

Lemma settle_undef : forall dup v v', settle dup v = Some v' -> is_undef v' = is_undef v.
Proof.
  intros dup v v' H. destruct v; try (inversion H; reflexivity).
  - rewrite settle_arr in H. destruct (settle_list dup l); inversion H; reflexivity.
  - rewrite settle_obj in H. destruct (settle_list dup l) as [l'|]; [|congruence].
    cbv zeta in H. match type of H with (if ?b then _ else _) = _ => destruct b end; inversion H; reflexivity.
Qed.

Lemma settle_list_undef : forall dup l l', settle_list dup l = Some l' ->
  Forall (fun m => is_undef (snd m) = false) l -> Forall (fun m => is_undef (snd m) = false) l'.
Proof.
  induction l as [|[k v] l IH]; intros l' H Hf; cbn [settle_list] in H; [inversion H; auto|].
  destruct (settle dup v) as [v'|] eqn:E; [|congruence]. destruct (settle_list dup l) as [l2|]; [|congruence].
  inversion H; subst. inversion_clear Hf as [|? ? H1 H2]. constructor; auto. cbn [snd] in *.
  rewrite (settle_undef _ _ _ E). exact H1.
Qed.

Lemma settle_dup : forall v, no_undef v -> has_dup v -> settle false v = None.
Proof.
  induction v as [| |b|n|e s|l IH|d l IH] using value_ind'; intros Hn Hd; try (inversion Hd; fail).
  - inversion Hn as [? Hx|? Hx|]; subst; [contradiction|]. inversion Hd as [| |l0 k v Hi Hv]; subst.
    rewrite settle_arr. rewrite Forall_forall in *.
    rewrite (settle_list_none l k v Hi); [reflexivity|]. apply (IH (k, v) Hi (Hx (k, v) Hi) Hv).
  - inversion Hn as [? Hx| |? ? Hx]; subst; [contradiction|]. rewrite settle_obj.
    inversion Hd as [d0 l0 Hnd|d0 l0 k v Hi Hv|]; subst.
    + destruct (settle_list false l) as [l'|] eqn:E; [|reflexivity]. cbv zeta.
      pose proof (settle_list_undef _ _ _ E (no_undef_list l Hx)) as Hu.
      pose proof (build_object_length l' Hu) as Hbl. rewrite (settle_list_keys _ _ _ E) in Hbl.
      destruct (length (build_object is_undef l') =? length l')%nat eqn:En; [|reflexivity].
      apply Nat.eqb_eq in En. tauto.
    + rewrite Forall_forall in *.
      rewrite (settle_list_none l k v Hi); [reflexivity|]. apply (IH (k, v) Hi (Hx (k, v) Hi) Hv).
Qed.

(** *** The parser on grammatical text, with its own fuel *)
Lemma parse_source_accepts : forall L F sg v t w rest,
  precise F = false -> jval int_literal v t -> ws w -> num_end rest ->
  (allow_dup F = true \/ ~ has_dup v) ->
  exists v' r', parse_source L F (w ++ map (as_source sg) t ++ rest) = Ok (v', r') /\
    sorted_form v v' /\ at_pos r' rest.
Proof.
  intros L F sg v t w rest HF Hj Hw Hn Hd.
  pose proof (parse_complete L F sg HF v t Hj w (mkR (w ++ map (as_source sg) t ++ rest) None) rest Hw Hn (at_none _)) as H.
  unfold parse_ok in H.
  destruct (settle_spec v (allow_dup F) (jval_no_undef _ _ _ Hj) Hd) as (v' & E & Hf & _).
  rewrite E in H. destruct H as (f0 & r' & Hat & Hp). exists v', r'. split; [|auto].
  specialize (Hp f0 (le_n _)). rewrite <- Hp. apply parse_source_any. congruence.
Qed.

Lemma parse_source_exact : forall L F sg v t w rest,
  precise F = false -> jval int_literal v t -> ws w -> num_end rest ->
  settle (allow_dup F) v = Some v ->
  exists r', parse_source L F (w ++ map (as_source sg) t ++ rest) = Ok (v, r') /\ at_pos r' rest.
Proof.
  intros L F sg v t w rest HF Hj Hw Hn E.
  pose proof (parse_complete L F sg HF v t Hj w (mkR (w ++ map (as_source sg) t ++ rest) None) rest Hw Hn (at_none _)) as H.
  unfold parse_ok in H. rewrite E in H. destruct H as (f0 & r' & Hat & Hp). exists r'. split; [|auto].
  specialize (Hp f0 (le_n _)). rewrite <- Hp. apply parse_source_any. congruence.
Qed.

Lemma parse_source_rejects_dup : forall L F sg v t w rest,
  precise F = false -> jval int_literal v t -> ws w -> num_end rest ->
  allow_dup F = false -> has_dup v ->
  parse_source L F (w ++ map (as_source sg) t ++ rest) = Err.
Proof.
  intros L F sg v t w rest HF Hj Hw Hn Hd Hh.
  pose proof (parse_complete L F sg HF v t Hj w (mkR (w ++ map (as_source sg) t ++ rest) None) rest Hw Hn (at_none _)) as H.
  unfold parse_ok in H. rewrite Hd in H.
  rewrite (settle_dup v (jval_no_undef _ _ _ Hj) Hh) in H. destruct H as (f0 & Hp).
  specialize (Hp f0 (le_n _)). rewrite <- Hp. apply parse_source_any. congruence.
Qed.

(** *** Every parsed value is sorted *)
Lemma string_value_sorted : forall t, all_sorted (string_value t).
Proof.
  intros t. unfold string_value. destruct (beqb t inf_word); [constructor; exact I|].
  destruct (beqb t neg_inf_word); constructor; exact I.
Qed.

Lemma parse_double_dbl : forall L i b r v r', parse_double L i b r = Ok (v, r') -> exists f, v = VNum (dbl_num f).
Proof.
  intros L i b r v r' H. unfold parse_double in H.
  destruct (parse_large L (large_fuel r) (f_of_Z i) r) as [[d0 r0]| |]; cbn [bind] in H; try congruence.
  destruct (next r0) as [c r1].
  match type of H with bind ?m _ = _ => destruct m as [[d1 r2]| |] end; cbn [bind] in H; try congruence.
  destruct (next r2) as [c2 r3].
  match type of H with bind ?m _ = _ => destruct m as [[d2 r4]| |] end; cbn [bind] in H; try congruence.
  inversion H; subst. eexists; reflexivity.
Qed.

Lemma parse_number_num : forall L F r v r', parse_number L F r = Ok (v, r') -> exists n, v = VNum n.
Proof.
  intros L F r v r' H. unfold parse_number in H. destruct (precise F).
  - destruct (parse_precise r) as [[[t b] r1]| |]; cbn [bind] in H; try congruence. inversion H; subst. eauto.
  - destruct (read_sign r) as [sg r1]. destruct (next r1) as [c r2].
    destruct (negb (isdigit c) && negb (c =? 46)); [congruence|].
    destruct (parse_unsigned r2) as [[[ok p] n] r3]. destruct (next r3) as [c3 r4].
    destruct (negb ok || (c3 =? 46) || is_e c3).
    + apply parse_double_dbl in H. destruct H as [f ->]. eauto.
    + destruct sg; [destruct (Z.testbit p 63)|]; inversion H; subst; eexists; reflexivity.
Qed.

Lemma finish_object_sorted : forall F l o, finish_object F l = Ok o ->
  Forall (fun m => all_sorted (snd m)) l -> all_sorted o.
Proof.
  intros F l o H Hl. unfold finish_object in H. cbv zeta in H.
  match type of H with (if ?b then _ else _) = _ => destruct b end; [congruence|].
  inversion H; subst. apply as_obj; [apply build_object_spec|].
  rewrite Forall_forall in *. intros m Hm. apply Hl. apply build_object_in. auto.
Qed.

Lemma parse_sorted_all : forall L F f,
  (forall r v r', parse L F f r = Ok (v, r') -> all_sorted v) /\
  (forall c r acc v r', Forall (fun m => all_sorted (snd m)) acc ->
     parse_obj L F f c r acc = Ok (v, r') -> all_sorted v) /\
  (forall r acc v r', Forall all_sorted acc -> parse_arr L F f r acc = Ok (v, r') -> all_sorted v).
Proof.
  intros L F. induction f as [|f (IHp & IHo & IHa)].
  { repeat split; intros; cbn in *; congruence. }
  split; [|split].
  - intros r v r' H. cbn [parse] in H. destruct (next_ws r) as [c r1].
    destruct (c =? 123).
    { destruct (next_ws (commit r1)) as [c1 r2].
      destruct (c1 =? 125); [inversion H; subst; apply as_obj; constructor|]. eapply IHo; [|exact H]. constructor. }
    destruct (c =? 91).
    { destruct (next_ws (commit r1)) as [c1 r2].
      destruct (c1 =? 93); [inversion H; subst; apply as_arr; constructor|]. eapply IHa; [|exact H]. constructor. }
    destruct (c =? 34).
    { destruct (read_string_r (commit r1)) as [[t r2]| |]; cbn [bind] in H; try congruence.
      inversion H; subst. apply string_value_sorted. }
    destruct (c =? 116).
    { destruct (check_string str_true r1) as [r2| |]; cbn [bind] in H; try congruence.
      inversion H; subst. constructor; exact I. }
    destruct (c =? 102).
    { destruct (check_string str_false r1) as [r2| |]; cbn [bind] in H; try congruence.
      inversion H; subst. constructor; exact I. }
    destruct (c =? 110).
    { destruct (check_string str_null r1) as [r2| |]; cbn [bind] in H; try congruence.
      inversion H; subst. constructor; exact I. }
    destruct (isdigit c || (c =? 43) || (c =? 45) || (c =? 46)); [|congruence].
    apply parse_number_num in H. destruct H as [n ->]. constructor; exact I.
  - intros c r acc v r' Hacc H. cbn [parse_obj] in H. destruct (c =? 34); [|congruence].
    destruct (read_string_r (commit r)) as [[t r1]| |]; cbn [bind] in H; try congruence.
    destruct (next_ws r1) as [c1 r2]. destruct (c1 =? 58); [|congruence].
    destruct (parse L F f (commit r2)) as [[v0 r3]| |] eqn:E3; cbn [bind] in H; try congruence.
    apply IHp in E3. cbv zeta in H.
    assert (Hacc' : Forall (fun m => all_sorted (snd m)) ((t, v0) :: acc)) by (constructor; auto).
    destruct (next_ws r3) as [c2 r4]. destruct (c2 =? 125).
    { destruct (finish_object F (rev ((t, v0) :: acc))) as [o| |] eqn:Ef; cbn [bind] in H; try congruence.
      inversion H; subst. eapply finish_object_sorted; eauto. apply Forall_rev. auto. }
    destruct (c2 =? 44); [|congruence].
    destruct (next_ws (commit r4)) as [c3 r6]. eapply IHo; [|exact H]. auto.
  - intros r acc v r' Hacc H. cbn [parse_arr] in H.
    destruct (parse L F f r) as [[v0 r3]| |] eqn:E3; cbn [bind] in H; try congruence.
    apply IHp in E3. cbv zeta in H.
    assert (Hacc' : Forall all_sorted (v0 :: acc)) by (constructor; auto).
    destruct (next_ws r3) as [c2 r4]. destruct (c2 =? 93).
    { inversion H; subst. apply as_arr. rewrite Forall_map. cbn [snd].
      change (Forall all_sorted (rev (v0 :: acc))). apply Forall_rev. auto. }
    destruct (c2 =? 44); [|congruence]. eapply IHa; [|exact H]. auto.
Qed.

Lemma parse_source_sorted : forall L F s v r, parse_source L F s = Ok (v, r) -> all_sorted v.
Proof. intros L F s v r. unfold parse_source. apply parse_sorted_all. Qed.

(** *** The serializer writes grammatical text *)
Fixpoint norm (v : value) : value :=
  match v with
  | VNum (NInt n) => if n <? 0 then v else VNum (NUInt n)
  | VArr l => VArr (map (fun m => ([], norm (snd m))) l)
  | VObj _ l => VObj false (map (fun m => (fst m, norm (snd m))) l)
  | _ => v
  end.

Lemma jstr_inf_word : forall utf8, jstr inf_word (write_string_body utf8 inf_word).
Proof.
  intros utf8. apply write_string_body_jstr. exists [0x221E]. split; [|reflexivity].
  constructor; auto. unfold cp_ok, is_cp. destruct utf8; lia.
Qed.
Lemma jstr_neg_inf_word : forall utf8, jstr neg_inf_word (write_string_body utf8 neg_inf_word).
Proof.
  intros utf8. apply write_string_body_jstr. exists [45; 0x221E]. split; [|reflexivity].
  repeat constructor; unfold cp_ok, is_cp; destruct utf8; lia.
Qed.

Lemma with_commas_cons : forall x y l, with_commas (x :: y :: l) = x ++ 44 :: with_commas (y :: l).
Proof. reflexivity. Qed.

Lemma jelems_commas : forall (f : value -> bytes) (l : list (bytes * value)) m,
  Forall (fun m => jval int_literal (norm (snd m)) (f (snd m))) (m :: l) ->
  jelems int_literal (map (fun m => ([], norm (snd m))) (m :: l)) (with_commas (map (fun m => f (snd m)) (m :: l))).
Proof.
  intros f. induction l as [|m2 l IH]; intros m H; inversion_clear H as [|? ? H1 H2].
  - pose proof (je_one int_literal (norm (snd m)) [] (f (snd m)) [] (Forall_nil _) H1 (Forall_nil _)) as J.
    cbn [app] in J. rewrite app_nil_r in J. exact J.
  - pose proof (je_cons int_literal (norm (snd m)) [] (f (snd m)) [] _ _ (Forall_nil _) H1 (Forall_nil _) (IH m2 H2)) as J.
    exact J.
Qed.

Lemma jmembers_commas : forall (f g : value -> bytes) (utf8 : bool) (l : list (bytes * value)) m,
  Forall (fun m => jstr (fst m) (write_string_body utf8 (fst m)) /\ jval int_literal (norm (snd m)) (f (snd m))) (m :: l) ->
  jmembers int_literal (map (fun m => (fst m, norm (snd m))) (m :: l))
    (with_commas (map (fun m => write_string utf8 (fst m) ++ 58 :: f (snd m)) (m :: l))).
Proof.
  intros f g utf8. induction l as [|m2 l IH]; intros m H; inversion_clear H as [|? ? [H0 H1] H2].
  - pose proof (jm_one int_literal (fst m) _ (norm (snd m)) [] [] [] (f (snd m)) [] H0 (Forall_nil _) (Forall_nil _)
      (Forall_nil _) H1 (Forall_nil _)) as J.
    cbn [app] in J. rewrite app_nil_r in J. cbn [map with_commas]. unfold write_string.
    cbn [app]. rewrite <- app_assoc. exact J.
  - pose proof (jm_cons int_literal (fst m) _ (norm (snd m)) [] [] [] (f (snd m)) [] _ _ H0 (Forall_nil _) (Forall_nil _)
      (Forall_nil _) H1 (Forall_nil _) (IH m2 H2)) as J.
    cbn [app] in J. cbn [map]. rewrite with_commas_cons. unfold write_string at 1.
    cbn [app]. rewrite <- app_assoc. cbn [app]. rewrite <- app_assoc. cbn [app]. exact J.
Qed.

Lemma write_signed_neg : forall n, - 2 ^ 63 < n < 0 ->
  exists ds, write_signed n = 45 :: ds /\ ds <> [] /\ Forall digit_char ds /\ dec_value ds = - n /\
    (exists c t, ds = c :: t /\ c <> 48).
Proof.
  intros n H. unfold write_signed. replace (n <? 0) with true by lia.
  assert (u64 (- n) = - n) as -> by (unfold u64; apply Z.mod_small; lia).
  destruct (write_unsigned_spec (- n) ltac:(lia)) as (H1 & H2 & H3 & H4).
  exists (write_unsigned (- n)). repeat split; auto.
  destruct H4 as [H4|H4]; auto. exfalso. rewrite H4 in H3. unfold dec_value in H3. simpl in H3. lia.
Qed.

Lemma ser_jval : forall E utf8 v, doc_ok utf8 v -> jval int_literal (norm v) (ser E utf8 v).
Proof.
  intros E utf8. induction v as [| |b|n|e s|l IH|d l IH] using value_ind'; intros H.
  - inversion H.
  - constructor.
  - destruct b; constructor.
  - inversion H as [| |n0 Hr|n0 Hr|sg| | |]; subst; cbn [norm ser ser_num].
    + destruct (write_unsigned_spec n0 Hr) as (H1 & H2 & H3 & _). rewrite <- H3 at 1.
      apply jv_num, il_uint; auto. lia.
    + destruct (n0 <? 0) eqn:En.
      * destruct (write_signed_neg n0 ltac:(lia)) as (ds & -> & H1 & H2 & H3 & _).
        assert (int_num (- dec_value ds) = NInt n0) as <-
          by (unfold int_num; replace (- dec_value ds) with n0 by lia; replace (n0 =? 0) with false by lia; reflexivity).
        apply jv_num, il_int; auto. lia.
      * unfold write_signed. rewrite En.
        destruct (write_unsigned_spec n0 ltac:(lia)) as (H1 & H2 & H3 & _). rewrite <- H3 at 1.
        apply jv_num, il_uint; auto. lia.
    + cbn [f_isfinite]. destruct sg.
      * change (f_lt (S754_infinity true) (S754_zero false)) with true. cbv iota.
        apply jv_neg_inf. apply jstr_neg_inf_word.
      * change (f_lt (S754_infinity false) (S754_zero false)) with false. cbv iota.
        apply jv_inf. apply jstr_inf_word.
  - inversion H; subst. cbn [norm ser]. unfold write_string.
    apply jv_str; auto. apply write_string_body_jstr. auto.
  - inversion H as [| | | | | |l0 Hl|]; subst. cbn [norm ser].
    destruct l as [|m l]; [apply (jv_arr0 _ []); constructor|].
    apply jv_arr. apply (jelems_commas (ser E utf8)). rewrite Forall_forall in *. intros x Hx. apply IH; auto.
  - inversion H as [| | | | | | |d0 l0 Hk Hl]; subst. cbn [norm ser].
    destruct l as [|m l]; [apply (jv_obj0 _ []); constructor|].
    apply jv_obj. apply (jmembers_commas (ser E utf8) (ser E utf8) utf8). rewrite Forall_forall in *. intros x Hx.
    split; [apply write_string_body_jstr; apply Hl; auto|]. apply IH; auto. apply Hl; auto.
Qed.

Lemma same_json_norm : forall utf8 v, doc_ok utf8 v -> same_json v (norm v).
Proof.
  intros utf8. induction v as [| |b|n|e s|l IH|d l IH] using value_ind'; intros H;
    try (inversion H; subst; constructor; fail).
  - inversion H; subst; cbn [norm]; try constructor.
    + econstructor; reflexivity.
    + destruct (n0 <? 0); econstructor; reflexivity.
  - inversion H as [| | | | | |l0 Hl|]; subst. cbn [norm]. constructor.
    clear H. induction l as [|m l IHl]; simpl; constructor; inversion_clear Hl; inversion_clear IH; auto.
  - inversion H as [| | | | | | |d0 l0 Hk Hl]; subst. cbn [norm]. constructor.
    clear H Hk. induction l as [|m l IHl]; simpl; constructor; inversion_clear Hl as [|? ? [? ?] ?]; inversion_clear IH; auto.
Qed.

Lemma norm_defined : forall utf8 v, doc_ok utf8 v -> is_undef (norm v) = false.
Proof. intros utf8 v H. destruct H; auto. cbn [norm]. destruct (n <? 0); auto. Qed.

Lemma settle_list_id : forall dup l, Forall (fun m => settle dup (snd m) = Some (snd m)) l ->
  settle_list dup l = Some l.
Proof.
  induction l as [|[k v] l IH]; intros H; [reflexivity|]. inversion_clear H as [|? ? H1 H2].
  cbn [settle_list snd] in *. rewrite H1, IH by auto. reflexivity.
Qed.

Lemma settle_norm : forall utf8 dup v, doc_ok utf8 v -> settle dup (norm v) = Some (norm v).
Proof.
  intros utf8 dup. induction v as [| |b|n|e s|l IH|d l IH] using value_ind'; intros H; try reflexivity.
  - destruct n; try reflexivity. cbn [norm]. destruct (n <? 0); reflexivity.
  - inversion H as [| | | | | |l0 Hl|]; subst. cbn [norm]. rewrite settle_arr.
    rewrite settle_list_id; [reflexivity|]. rewrite Forall_map. cbn [snd].
    rewrite Forall_forall in *. intros m Hm. apply IH; auto.
  - inversion H as [| | | | | | |d0 l0 Hk Hl]; subst. cbn [norm]. rewrite settle_obj.
    rewrite settle_list_id.
    + cbv zeta. set (l1 := map (fun m => (fst m, norm (snd m))) l).
      assert (build_object is_undef l1 = l1) as ->.
      { apply build_object_id.
        - unfold keys_increasing, l1. rewrite map_map. cbn [fst]. exact Hk.
        - unfold l1. rewrite Forall_map. cbn [snd]. rewrite Forall_forall in *. intros m Hm.
          apply (norm_defined utf8). apply Hl; auto. }
      rewrite Nat.eqb_refl. simpl negb. rewrite andb_false_r. reflexivity.
    + rewrite Forall_map. cbn [snd]. rewrite Forall_forall in *. intros m Hm. apply IH; auto. apply Hl; auto.
Qed.

Lemma document_round_trip : forall L E F sg utf8 v w rest,
  precise F = false -> doc_ok utf8 v -> ws w -> num_end rest ->
  exists v' r', parse_source L F (w ++ map (as_source sg) (ser E utf8 v) ++ rest) = Ok (v', r') /\
    same_json v v' /\ at_pos r' rest.
Proof.
  intros L E F sg utf8 v w rest HF Hv Hw Hn.
  destruct (parse_source_exact L F sg (norm v) (ser E utf8 v) w rest HF (ser_jval E utf8 v Hv) Hw Hn
    (settle_norm utf8 _ v Hv)) as (r' & H1 & H2).
  exists (norm v), r'. repeat split; auto. eapply same_json_norm; eauto.
Qed.

Lemma string_round_trip : forall L E F sg utf8 s w rest,
  precise F = false -> text_ok utf8 s -> s <> word_inf -> s <> word_neg_inf -> ws w ->
  exists r', parse_source L F (w ++ map (as_source sg) (ser E utf8 (VStr None s)) ++ rest) = Ok (VStr None s, r') /\
    at_pos r' rest.
Proof.
  intros L E F sg utf8 s w rest HF Hs H1 H2 Hw.
  exists (mkR rest None). split; [|reflexivity].
  set (s0 := w ++ map (as_source sg) (ser E utf8 (VStr None s)) ++ rest).
  assert (Hat : at_pos (mkR s0 None) (w ++ 34 :: map (as_source sg) (write_string_body utf8 s) ++ 34 :: rest)).
  { unfold s0. cbn [ser]. unfold write_string, at_pos. cbn [cur src map]. rewrite map_app. cbn [map].
    rewrite (as_source_low sg 34) by lia. cbn [app]. rewrite <- app_assoc. reflexivity. }
  pose proof (parse_string_lit L F sg s _ _ w rest (write_string_body_jstr utf8 s Hs) Hw Hat 0) as Hp.
  rewrite (string_value_plain s) in Hp by auto.
  rewrite <- Hp. apply parse_source_any. rewrite Hp. discriminate.
Qed.

(** *** Digit runs *)
Lemma parse_source_digits : forall L F w ds rest,
  precise F = false -> ws w -> ds <> [] -> Forall digit_char ds -> dec_value ds < 2 ^ 64 -> num_end rest ->
  exists r', parse_source L F (w ++ ds ++ rest) = Ok (VNum (NUInt (dec_value ds)), r') /\ at_pos r' rest.
Proof.
  intros L F w ds rest HF Hw Hne Hd Hv Hn.
  destruct (parse_source_exact L F false (VNum (NUInt (dec_value ds))) ds w rest) as (r' & H1 & H2); auto.
  - apply jv_num; constructor; auto.
  - exists r'. rewrite digits_src in H1; auto.
Qed.

Lemma parse_source_neg_digits : forall L F w ds rest,
  precise F = false -> ws w -> ds <> [] -> Forall digit_char ds -> dec_value ds < 2 ^ 63 -> num_end rest ->
  exists r', parse_source L F (w ++ 45 :: ds ++ rest) = Ok (VNum (int_num (- dec_value ds)), r') /\ at_pos r' rest.
Proof.
  intros L F w ds rest HF Hw Hne Hd Hv Hn.
  destruct (parse_source_exact L F false (VNum (int_num (- dec_value ds))) (45 :: ds) w rest) as (r' & H1 & H2); auto.
  - apply jv_num; constructor; auto.
  - exists r'. cbn [map] in H1. rewrite digits_src in H1; auto.
Qed.

Lemma parse_source_neg_big : forall L F w ds rest,
  precise F = false -> ws w -> ds <> [] -> Forall digit_char ds -> 2 ^ 63 <= dec_value ds < 2 ^ 64 -> num_end rest ->
  exists r', parse_source L F (w ++ 45 :: ds ++ rest) =
    Ok (VNum (dbl_num (f_opp (f_of_Z (dec_value ds)))), r') /\ at_pos r' rest.
Proof.
  intros L F w ds rest HF Hw Hne Hd Hv Hn. eexists. split; [|apply at_next].
  assert (H : parse L F 1 (mkR (w ++ 45 :: ds ++ rest) None) =
    Ok (VNum (dbl_num (f_opp (f_of_Z (dec_value ds)))), mkR (tl rest) (Some (hd_eof rest)))).
  { apply parse_int_big with (w := w); auto. reflexivity. }
  rewrite <- H. apply parse_source_any. rewrite H. discriminate.
Qed.

(** A run of digits of value 2^64 or more, with or without sign and whatever
    follows, never becomes an integer. *)
Lemma parse_number_overflow : forall L F sgn c ds rest v r',
  precise F = false -> (sgn = None \/ sgn = Some 43 \/ sgn = Some 45) ->
  Forall digit_char (c :: ds) -> 2 ^ 64 <= dec_value (c :: ds) ->
  forall r, at_pos r (match sgn with Some x => [x] | None => [] end ++ (c :: ds) ++ rest) ->
  parse_number L F r = Ok (v, r') -> exists f, v = VNum (dbl_num f).
Proof.
  intros L F sgn c ds rest v r' HF Hs Hd Hv r Hr H. unfold parse_number in H. rewrite HF in H.
  pose proof (Forall_inv Hd) as Hc. assert (Hc' := Hc). unfold digit_char in Hc'.
  assert (exists b, exists r1, read_sign r = (b, r1) /\ at_pos r1 ((c :: ds) ++ rest)) as (b & r1 & Er & Hr1).
  { unfold read_sign. rewrite (next_at _ _ Hr).
    destruct Hs as [->|[->| ->]]; cbn [app hd_eof hd tl].
    - change (hd_eof (c :: ds ++ rest)) with c. replace (c =? 45) with false by lia.
      replace (c =? 43) with false by lia. do 2 eexists. split; [reflexivity|]. apply at_cons.
    - do 2 eexists. split; [reflexivity|]. reflexivity.
    - do 2 eexists. split; [reflexivity|]. reflexivity. }
  rewrite Er in H. rewrite (next_at _ _ Hr1) in H. cbn [app tl] in H.
  change (hd_eof (c :: ds ++ rest)) with c in H.
  assert (isdigit c = true) as Hi by (apply isdigit_spec; auto). rewrite Hi in H. simpl negb in H. rewrite andb_false_l in H.
  unfold parse_unsigned in H. cbn [next cur src] in H.
  destruct (pu_loop_overflow ds 0 0 c rest Hd ltac:(lia) Hv) as (v0 & n0 & c' & s' & E & _).
  rewrite E in H. cbn [next cur] in H. simpl negb in H. cbn [orb] in H.
  eapply parse_double_dbl; eauto.
Qed.

Lemma parse_source_overflow : forall L F w sgn ds rest v r',
  precise F = false -> ws w -> (sgn = [] \/ sgn = [43] \/ sgn = [45]) ->
  Forall digit_char ds -> 2 ^ 64 <= dec_value ds ->
  parse_source L F (w ++ sgn ++ ds ++ rest) = Ok (v, r') -> exists f, v = VNum (dbl_num f).
Proof.
  intros L F w sgn ds rest v r' HF Hw Hs Hd Hv H.
  destruct ds as [|c ds]; [unfold dec_value in Hv; simpl in Hv; lia|].
  pose proof (Forall_inv Hd) as Hc. unfold digit_char in Hc.
  unfold parse_source in H. remember (2 * length (w ++ sgn ++ (c :: ds) ++ rest))%nat as n eqn:En. clear En.
  cbn [parse] in H.
  assert (exists x tl0, sgn ++ (c :: ds) ++ rest = x :: tl0 /\ 33 <= x < 128 /\
    (digit_char x \/ x = 43 \/ x = 45)) as (x & tl0 & Ex & Hx & Hx').
  { destruct Hs as [->|[->| ->]]; do 2 eexists; (split; [reflexivity|]); unfold digit_char; lia. }
  rewrite (next_ws_low (mkR (w ++ sgn ++ (c :: ds) ++ rest) None) w x tl0) in H; auto.
  2:{ unfold at_pos; cbn [cur src]. rewrite Ex. reflexivity. }
  unfold digit_char in Hx'.
  replace (x =? 123) with false in H by lia. replace (x =? 91) with false in H by lia.
  replace (x =? 34) with false in H by lia. replace (x =? 116) with false in H by lia.
  replace (x =? 102) with false in H by lia. replace (x =? 110) with false in H by lia.
  assert (isdigit x || (x =? 43) || (x =? 45) || (x =? 46) = true) as Hb by (unfold isdigit; lia).
  rewrite Hb in H.
  eapply parse_number_overflow with (sgn := match sgn with [y] => Some y | _ => None end) (rest := rest); eauto.
  - destruct Hs as [->|[->| ->]]; auto.
  - replace (match match sgn with [y] => Some y | _ => None end with Some x0 => [x0] | None => [] end) with sgn
      by (destruct Hs as [->|[->| ->]]; reflexivity).
    rewrite Ex. apply at_cons.
Qed.
