From Coq Require Import ZifyBool Sorted Permutation.
From Verif Require Import Base ModelUtf8 SpecUtf8 ModelKeyed SpecKeyed ProofKeyed ModelValue ModelText ModelObject ModelEq ModelEnc SpecText SpecEnc
  ProofText3 ProofText4 ProofEnc ModelStd ProofStd ModelEnum ProofEnum ModelJwt SpecJwt.
Local Open Scope Z_scope.

(** *** Parts of a token *)
Lemma next_part_spec : forall s p r, next_part s = (p, r) -> (no_dot s /\ p = s /\ r = []) \/ (s = p ++ 46 :: r /\ no_dot p).
Proof.
  induction s as [|c s IH]; intros p r H; cbn [next_part] in H.
  - injection H as <- <-. left. split; [intros []|auto].
  - destruct (c =? 46) eqn:E.
    + injection H as <- <-. right. assert (c = 46) by lia. subst c. split; [reflexivity|intros []].
    + destruct (next_part s) as [p' r'] eqn:N. injection H as <- <-. destruct (IH p' r' eq_refl) as [(A & -> & ->)|(-> & B)].
      * left. split; [|auto]. unfold no_dot in *. cbn [In]. intros [K|K]; [lia|auto].
      * right. split; [reflexivity|]. unfold no_dot in *. cbn [In]. intros [K|K]; [lia|auto].
Qed.
Lemma next_part_dot : forall p r, no_dot p -> next_part (p ++ 46 :: r) = (p, r).
Proof.
  induction p as [|c p IH]; intros r H; cbn [app next_part]; [reflexivity|]. unfold no_dot in *. cbn [In] in H.
  replace (c =? 46) with false by (symmetry; lia). rewrite IH by tauto. reflexivity.
Qed.
Lemma next_part_end : forall p, no_dot p -> next_part p = (p, []).
Proof.
  induction p as [|c p IH]; intros H; cbn [next_part]; [reflexivity|]. unfold no_dot in *. cbn [In] in H.
  replace (c =? 46) with false by (symmetry; lia). rewrite IH by tauto. reflexivity.
Qed.
Lemma parts_spec : forall token h b s r1 r2 r3, next_part token = (h, r1) -> next_part r1 = (b, r2) -> next_part r2 = (s, r3) ->
  jwt_parts token h b s (firstn (length token - length r1 + length b) token).
Proof.
  intros token h b s r1 r2 r3 H1 H2 H3. apply next_part_spec in H1 as [(N1 & -> & ->)|(-> & N1)].
  - cbn in H2. injection H2 as <- <-. cbn in H3. injection H3 as <- <-. cbn [length]. rewrite Nat.sub_0_r, Nat.add_0_r, firstn_all.
    constructor. exact N1.
  - replace (length (h ++ 46%Z :: r1) - length r1 + length b)%nat with (length h + S (length b))%nat by (rewrite app_length; cbn [length]; lia).
    rewrite firstn_app_2. cbn [firstn]. apply next_part_spec in H2 as [(N2 & -> & ->)|(-> & N2)].
    + cbn in H3. injection H3 as <- <-. rewrite firstn_all. constructor; auto.
    + replace (length b) with (length b + 0)%nat by lia. rewrite firstn_app_2. cbn [firstn]. rewrite app_nil_r.
      apply next_part_spec in H3 as [(N3 & -> & ->)|(-> & N3)].
      * pose proof (jp_three h b r2 [] N1 N2 N3 (or_introl eq_refl)) as J. rewrite app_nil_r in J. exact J.
      * apply jp_three; auto. right. eauto.
Qed.
Lemma from_string_fuel : forall L F s, from_string L F s <> Fuel.
Proof. intros L F s. unfold from_string. pose proof (parse_source_fuel L F (map schar s)) as H. destruct (parse_source L F (map schar s)) as [[v r]| |]; cbn [bind]; congruence. Qed.
Lemma binary_string : forall s, b64url_binary s = Some (b64url_string s).
Proof. intros s. unfold b64url_binary, b64url_string, b64url_decode, get_string, get_binary. destruct (firstn _ _); reflexivity. Qed.

Lemma verified : forall L F c force token v, parse_jwt L F (Some c) force token = Ok v -> v <> VUndef ->
  exists h b s signed m, jwt_parts token h b s signed /\ from_string L F (b64url_string b) = Ok v /\
    jc_verify c signed m (b64url_string s) = Some true /\
    match force with
    | Some m' => m = m'
    | None => exists hdr, from_string L F (b64url_string h) = Ok hdr /\
        m = (get_string (value_member hdr key_alg), get_string (value_member hdr key_kid))
    end.
Proof.
  intros L F c force token v H Hv. unfold parse_jwt in H.
  destruct (next_part token) as [h r1] eqn:N1. destruct (next_part r1) as [b r2] eqn:N2. destruct (next_part r2) as [s r3] eqn:N3.
  pose proof (parts_spec _ _ _ _ _ _ _ N1 N2 N3) as P. set (signed := firstn _ token) in *. rewrite binary_string in H.
  destruct force as [m|].
  - destruct (jc_verify c signed m (b64url_string s)) as [[|]|] eqn:V; try (injection H as <-; congruence).
    destruct (from_string L F (b64url_string b)) as [w| |] eqn:B; try congruence. injection H as <-.
    exists h, b, s, signed, m. auto.
  - destruct (from_string L F (b64url_string b)) as [w| |] eqn:B; try congruence.
    destruct (from_string L F (b64url_string h)) as [hdr| |] eqn:Hh; try congruence.
    destruct (jc_verify c signed _ (b64url_string s)) as [[|]|] eqn:V; try congruence. injection H as <-.
    eexists h, b, s, signed, _. split; [exact P|]. split; [exact B|]. split; [exact V|]. exists hdr. auto.
Qed.
Lemma parse_jwt_total : forall L F c force token, exists v, parse_jwt L F c force token = Ok v.
Proof.
  intros L F c force token. unfold parse_jwt. destruct (next_part token) as [h r1]. destruct (next_part r1) as [b r2]. destruct (next_part r2) as [s r3].
  rewrite binary_string. set (signed := firstn _ token).
  assert (K : forall (c : option jcrypto), exists v, match from_string L F (b64url_string b) with
    | Ok body => match c with None => Ok body | Some c => match from_string L F (b64url_string h) with
         | Ok hdr => match jc_verify c signed (get_string (value_member hdr key_alg), get_string (value_member hdr key_kid)) (b64url_string s) with
             | Some true => Ok body | _ => Ok VUndef end | Err => Ok VUndef | Fuel => Fuel end end | Err => Ok VUndef | Fuel => Fuel end = Ok v).
  { intros c'. destruct (from_string L F (b64url_string b)) as [w| |] eqn:B; [|eauto|destruct (from_string_fuel _ _ _ B)].
    destruct c' as [c'|]; [|eauto]. destruct (from_string L F (b64url_string h)) as [hdr| |] eqn:Hh; [|eauto|destruct (from_string_fuel _ _ _ Hh)].
    destruct (jc_verify c' signed _ _) as [[|]|]; eauto. }
  destruct c as [c|]; [destruct force as [m|]|].
  - destruct (jc_verify c signed m (b64url_string s)) as [[|]|]; [apply (K None)|eauto|eauto].
  - apply (K (Some c)).
  - apply (K None).
Qed.

(** *** Tokens made by the library *)
Scheme jval_ind4 := Induction for jval Sort Prop with jelems_ind4 := Induction for jelems Sort Prop with jmembers_ind4 := Induction for jmembers Sort Prop.
Lemma jstr_bytes : forall s b, jstr s b -> is_bytes b.
Proof.
  intros s b H. induction H as [|c s b Hc H1 H2 H3 _ IH|e x s b Hin _ IH|a b c d va vb vc vd s t Ha Hb Hc Hd _ IH].
  - constructor.
  - apply Forall_app. split; [|exact IH]. unfold utf8_bytes. unfold is_cp in Hc.
    repeat match goal with |- context [if ?x then _ else _] => destruct x eqn:? end; repeat constructor; zify; Z.to_euclidean_division_equations; lia.
  - constructor; [unfold is_byte; lia|]. constructor; [|exact IH]. unfold escape_pairs in Hin. cbn [In] in Hin. unfold is_byte. intuition congruence || idtac.
    all: repeat match goal with H : _ \/ _ |- _ => destruct H as [H|H] | H : (_, _) = (_, _) |- _ => injection H as <- <- | H : False |- _ => destruct H end; lia.
  - unfold hex_char in *. repeat (constructor; [unfold is_byte; lia|]). exact IH.
Qed.
Lemma ws_bytes : forall w, ws w -> is_bytes w.
Proof. intros w H. eapply Forall_impl; [|exact H]. intros c K. unfold ws_char in K. unfold is_byte. lia. Qed.
Lemma jval_bytes : forall v t, jval int_literal v t -> is_bytes t.
Proof.
  assert (B : forall (a : Z) s, 0 <= a < 256 -> is_bytes s -> is_bytes (a :: s)) by (intros; constructor; auto).
  assert (A : forall s t : bytes, is_bytes s -> is_bytes t -> is_bytes (s ++ t)) by (intros; apply Forall_app; auto).
  assert (S : forall s b r, jstr s b -> is_bytes r -> is_bytes (34 :: b ++ 34 :: r)).
  { intros s b r H Hr. apply B; [lia|]. apply A; [eapply jstr_bytes; eauto|]. apply B; [lia|exact Hr]. }
  assert (N : is_bytes []) by constructor.
  apply (jval_ind4 int_literal (fun v t _ => is_bytes t) (fun l t _ => is_bytes t) (fun l t _ => is_bytes t)); intros;
    try (solve [repeat constructor; unfold is_byte; lia]); try (eapply S; eauto).
  - match goal with H : int_literal _ _ |- _ => destruct H end; [|apply B; [lia|]];
      (match goal with H : Forall digit_char _ |- _ => eapply Forall_impl; [|exact H] end; intros c K; unfold digit_char in K; unfold is_byte; lia).
  - apply B; [lia|]. apply A; [auto using ws_bytes|]. apply B; [lia|exact N].
  - apply B; [lia|]. apply A; [auto|]. apply B; [lia|exact N].
  - apply B; [lia|]. apply A; [auto using ws_bytes|]. apply B; [lia|exact N].
  - apply B; [lia|]. apply A; [auto|]. apply B; [lia|exact N].
  - repeat apply A; auto using ws_bytes.
  - repeat apply A; auto using ws_bytes. apply B; auto; lia.
  - apply A; [auto using ws_bytes|]. eapply S; [eauto|]. apply A; [auto using ws_bytes|]. apply B; [lia|]. repeat apply A; auto using ws_bytes.
  - apply A; [auto using ws_bytes|]. eapply S; [eauto|]. apply A; [auto using ws_bytes|]. apply B; [lia|]. repeat apply A; auto using ws_bytes. apply B; auto; lia.
Qed.
Lemma ser_bytes : forall E utf8 v, doc_ok utf8 v -> is_bytes (ser E utf8 v).
Proof. intros E utf8 v H. eapply jval_bytes, ser_jval, H. Qed.
Lemma from_string_ser : forall L E F utf8 v, precise F = false -> doc_ok utf8 v -> exists v', from_string L F (ser E utf8 v) = Ok v' /\ same_json v v'.
Proof.
  intros L E F utf8 v HF Hv. destruct (document_round_trip L E F true utf8 v [] [] HF Hv (Forall_nil _) I) as (v' & r' & H & Hs & _).
  cbn [app] in H. rewrite app_nil_r in H. exists v'. split; [|exact Hs]. unfold from_string. change (map schar (ser E utf8 v)) with (map (as_source true) (ser E utf8 v)).
  rewrite H. reflexivity.
Qed.
Lemma b64_no_dot : forall s, is_bytes s -> no_dot (concat (b64_encode_core true false s)).
Proof.
  intros s H K. pose proof (b64url_letters s H) as F. rewrite Forall_forall in F. apply F in K. unfold b64url_letter, letter_or_digit in K. lia.
Qed.
Lemma b64_string : forall s, is_bytes s -> b64url_string (concat (b64_encode_core true false s)) = s.
Proof. intros s H. unfold b64url_string. rewrite b64url_round_trip by exact H. reflexivity. Qed.

Lemma token_round_trip : forall L E F utf8 header payload c m token, precise F = false -> doc_ok utf8 header -> doc_ok utf8 payload ->
  (forall msg sign, jc_sign c msg m = Some sign -> is_bytes sign /\ jc_verify c msg m sign = Some true) ->
  serialize_jwt E utf8 header payload c m = Some token ->
  (exists v, same_json payload v /\ parse_jwt L F None None token = Ok v /\ parse_jwt L F (Some c) (Some m) token = Ok v /\
    (forall hdr, from_string L F (ser E utf8 header) = Ok hdr ->
       m = (get_string (value_member hdr key_alg), get_string (value_member hdr key_kid)) -> parse_jwt L F (Some c) None token = Ok v)) /\
  (exists h, same_json header h /\ parse_jwt_hdr L F token = Ok h /\ from_string L F (ser E utf8 header) = Ok h).
Proof.
  intros L E F utf8 header payload c m token HF Hh Hp Hc H. unfold serialize_jwt in H. cbv zeta in H.
  set (sh := concat (b64_encode_core true false (ser E utf8 header))) in *. set (sb := concat (b64_encode_core true false (ser E utf8 payload))) in *.
  destruct (jc_sign c (sh ++ [46] ++ sb) m) as [sign|] eqn:Es; [|discriminate]. injection H as <-. destruct (Hc _ _ Es) as [Hsb Hv].
  set (ss := concat (b64_encode_core true false sign)).
  assert (D1 : no_dot sh) by (apply b64_no_dot, ser_bytes, Hh). assert (D2 : no_dot sb) by (apply b64_no_dot, ser_bytes, Hp).
  assert (D3 : no_dot ss) by (apply b64_no_dot, Hsb).
  assert (S1 : b64url_string sh = ser E utf8 header) by (apply b64_string, ser_bytes, Hh).
  assert (S2 : b64url_string sb = ser E utf8 payload) by (apply b64_string, ser_bytes, Hp).
  assert (S3 : b64url_string ss = sign) by (apply b64_string, Hsb).
  destruct (from_string_ser L E F utf8 header HF Hh) as (h & Eh & Sh). destruct (from_string_ser L E F utf8 payload HF Hp) as (v & Ev & Sv).
  assert (T : (sh ++ [46] ++ sb) ++ [46] ++ ss = sh ++ 46 :: sb ++ 46 :: ss) by (rewrite <- !app_assoc; reflexivity).
  assert (P : forall cr fo, parse_jwt L F cr fo ((sh ++ [46] ++ sb) ++ [46] ++ ss) =
    match match cr, fo with Some c, Some m => match jc_verify c (sh ++ [46] ++ sb) m sign with Some true => Some None | _ => None end | _, _ => Some cr end with
    | None => Ok VUndef
    | Some None => Ok v
    | Some (Some c) => match jc_verify c (sh ++ [46] ++ sb) (get_string (value_member h key_alg), get_string (value_member h key_kid)) sign with
       | Some true => Ok v | _ => Ok VUndef end end).
  { intros cr fo. unfold parse_jwt. rewrite T. rewrite (next_part_dot sh) by exact D1. rewrite (next_part_dot sb) by exact D2. rewrite (next_part_end ss) by exact D3.
    replace (firstn (length (sh ++ 46 :: sb ++ 46 :: ss) - length (sb ++ 46 :: ss) + length sb) (sh ++ 46 :: sb ++ 46 :: ss)) with (sh ++ [46] ++ sb).
    - rewrite binary_string, S1, S2, S3, Eh, Ev. destruct cr as [cr|]; [|reflexivity]. destruct fo as [fo|]; [|reflexivity].
      destruct (jc_verify cr _ fo sign) as [[|]|]; reflexivity.
    - replace (length (sh ++ 46%Z :: sb ++ 46%Z :: ss) - length (sb ++ 46%Z :: ss) + length sb)%nat with (length (sh ++ [46%Z] ++ sb) + 0)%nat.
      + change (46 :: sb ++ 46 :: ss) with (([46] ++ sb) ++ 46 :: ss). rewrite (app_assoc sh ([46] ++ sb)). rewrite firstn_app_2. cbn [firstn]. rewrite app_nil_r. reflexivity.
      + rewrite !app_length. cbn [length]. rewrite !app_length. cbn [length]. lia. }
  split.
  - exists v. split; [exact Sv|]. rewrite !P. split; [reflexivity|]. split; [rewrite Hv; reflexivity|]. intros hdr Ehdr Em. rewrite Eh in Ehdr. injection Ehdr as <-.
    rewrite <- Em, Hv. reflexivity.
  - exists h. split; [exact Sh|]. split; [|exact Eh]. change (parse_jwt_hdr L F ((sh ++ [46] ++ sb) ++ [46] ++ ss) = Ok h). unfold parse_jwt_hdr. rewrite T, (next_part_dot sh) by exact D1. cbn [fst]. rewrite S1, Eh. reflexivity.
Qed.

Lemma header_shape : forall a kid, jwt_header (a, kid) = VObj false ((key_alg, VStr None a) :: match kid with [] => [] | _ => [(key_kid, VStr None kid)] end).
Proof. intros a [|k kid]; cbv; reflexivity. Qed.
Lemma header_read : forall a kid h, same_json (jwt_header (a, kid)) h -> (get_string (value_member h key_alg), get_string (value_member h key_kid)) = (a, kid).
Proof.
  intros a kid h H. rewrite header_shape in H. inversion_clear H as [| | | | | |d d' l l' F].
  inversion_clear F as [|x y l0 l1 [F1 F2] F']. destruct y as [ky vy]. cbn [fst snd] in F1, F2. subst ky. inversion F2; subst. destruct kid as [|k kid].
  - inversion_clear F'. reflexivity.
  - inversion_clear F' as [|x2 y2 l2 l3 [G1 G2] G']. inversion_clear G'. destruct y2 as [ky2 vy2]. cbn [fst snd] in G1, G2. subst ky2. inversion G2; subst.
    reflexivity.
Qed.
Lemma token_method_round_trip : forall L E F utf8 payload c m token, precise F = false -> doc_ok utf8 payload ->
  text_ok utf8 (fst m) -> text_ok utf8 (snd m) -> ~ In (fst m) [word_inf; word_neg_inf] -> ~ In (snd m) [word_inf; word_neg_inf] ->
  (forall msg sign, jc_sign c msg m = Some sign -> is_bytes sign /\ jc_verify c msg m sign = Some true) ->
  serialize_jwt_method E utf8 payload c m = Some token ->
  exists v, same_json payload v /\ parse_jwt L F (Some c) None token = Ok v /\ parse_jwt L F (Some c) (Some m) token = Ok v.
Proof.
  intros L E F utf8 payload c [a kid] token HF Hp Ha Hk Na Nk Hc H. unfold serialize_jwt_method in H. cbn [fst snd In] in *.
  assert (K : text_ok utf8 key_alg /\ text_ok utf8 key_kid).
  { split; [exists key_alg|exists key_kid]; (split; [|reflexivity]); repeat constructor; unfold cp_ok, is_cp; destruct utf8; try lia; split; try lia. }
  assert (Dh : doc_ok utf8 (jwt_header (a, kid))).
  { rewrite header_shape. constructor.
    - unfold keys_increasing. destruct kid; cbn [map fst]; repeat constructor; reflexivity.
    - constructor; [cbn [fst snd]; split; [apply K|apply d_str; [exact Ha|intros X; apply Na; auto|intros X; apply Na; auto]]|]. destruct kid as [|k kid]; [constructor|]. constructor; [|constructor].
      cbn [fst snd]. split; [apply K|apply d_str; [exact Hk|intros X; apply Nk; auto|intros X; apply Nk; auto]]. }
  destruct (token_round_trip L E F utf8 _ payload c (a, kid) token HF Dh Hp Hc H) as [(v & Sv & _ & Pf & Pn) (h & Sh & _ & Eh)].
  exists v. split; [exact Sv|]. split; [|exact Pf]. apply (Pn h Eh). symmetry. apply header_read, Sh.
Qed.

Lemma token_kid_round_trip : forall L E F utf8 payload c kid token, let m := jc_preferred c kid in precise F = false -> doc_ok utf8 payload ->
  text_ok utf8 (fst m) -> text_ok utf8 (snd m) -> ~ In (fst m) [word_inf; word_neg_inf] -> ~ In (snd m) [word_inf; word_neg_inf] ->
  (forall msg sign, jc_sign c msg m = Some sign -> is_bytes sign /\ jc_verify c msg m sign = Some true) ->
  serialize_jwt_kid E utf8 payload c kid = Some token ->
  (exists v, same_json payload v /\ parse_jwt L F (Some c) None token = Ok v /\ parse_jwt L F (Some c) (Some m) token = Ok v) /\
  exists h, parse_jwt_hdr L F token = Ok h /\ (get_string (value_member h key_alg), get_string (value_member h key_kid)) = m.
Proof.
  intros L E F utf8 payload c kid token m HF Hp Ha Hk Na Nk Hc H. unfold serialize_jwt_kid in H. fold m in H. clearbody m.
  split; [exact (token_method_round_trip L E F utf8 payload c m token HF Hp Ha Hk Na Nk Hc H)|].
  destruct m as [a k]. unfold serialize_jwt_method in H. cbn [fst snd In] in *.
  assert (K : text_ok utf8 key_alg /\ text_ok utf8 key_kid).
  { split; [exists key_alg|exists key_kid]; (split; [|reflexivity]); repeat constructor; unfold cp_ok, is_cp; destruct utf8; try lia; split; try lia. }
  assert (Dh : doc_ok utf8 (jwt_header (a, k))).
  { rewrite header_shape. constructor.
    - unfold keys_increasing. destruct k; cbn [map fst]; repeat constructor; reflexivity.
    - constructor; [cbn [fst snd]; split; [apply K|apply d_str; [exact Ha|intros X; apply Na; auto|intros X; apply Na; auto]]|]. destruct k as [|x k]; [constructor|]. constructor; [|constructor].
      cbn [fst snd]. split; [apply K|apply d_str; [exact Hk|intros X; apply Nk; auto|intros X; apply Nk; auto]]. }
  destruct (token_round_trip L E F utf8 _ payload c (a, k) token HF Dh Hp Hc H) as [_ (h & Sh & Ph & _)].
  exists h. split; [exact Ph|]. apply header_read, Sh.
Qed.

(** *** Containers of keys *)
Lemma ucmp_refl : forall a, ucmp a a = Eq.
Proof. induction a as [|x a IH]; cbn [ucmp]; [reflexivity|]. rewrite Z.compare_refl. exact IH. Qed.
Lemma ucmp_eq : forall a b, ucmp a b = Eq -> a = b.
Proof.
  induction a as [|x a IH]; intros [|y b] H; cbn [ucmp] in H; try discriminate; [reflexivity|]. destruct (Z.compare_spec x y); try discriminate.
  subst. f_equal. apply IH, H.
Qed.
Lemma ucmp_opp : forall a b, ucmp b a = CompOpp (ucmp a b).
Proof.
  induction a as [|x a IH]; intros [|y b]; cbn [ucmp CompOpp]; try reflexivity. rewrite (Z.compare_antisym x y). destruct (x ?= y) eqn:E; cbn [CompOpp]; auto.
Qed.
Lemma ucmp_trans : forall a b c, ucmp a b = Lt -> ucmp b c = Lt -> ucmp a c = Lt.
Proof.
  induction a as [|x a IH]; intros [|y b] [|z c] H K; cbn [ucmp] in *; try discriminate; try reflexivity.
  destruct (Z.compare_spec x y), (Z.compare_spec y z); try discriminate; destruct (Z.compare_spec x z); try lia; try reflexivity. eauto.
Qed.
Lemma container_find_spec : forall map cmap kid, container_built map cmap ->
  (container_find cmap kid = Ok None /\ ~ In kid (List.map fst map)) \/
  (exists o, container_find cmap kid = Ok (Some (kid, o)) /\ In (kid, o) map /\ forall o', In (kid, o') map -> item_less (kid, o') (kid, o) = false).
Proof.
  intros map cmap kid (Hp & Hs).
  assert (Below : forall x : citem, item_less x (kid, None) = true <-> ucmp (fst x) kid = Lt).
  { intros [k o]. unfold item_less. cbn [fst snd]. destruct (ucmp k kid) eqn:E; [destruct o as [[i c]|]|..]; split; congruence. }
  destruct (sorted_parts item_less (fun x => item_less x (kid, None)) cmap) as (a & b & El & Ha & Hb); [|exact Hs|].
  { intros x y H1 H2. apply Below in H2. apply Below. unfold item_less in H1. destruct (ucmp (fst y) (fst x)) eqn:E; [| discriminate|].
    - apply ucmp_eq in E. rewrite <- E. exact H2.
    - eapply ucmp_trans; [|exact H2]. rewrite ucmp_opp, E. reflexivity. }
  assert (Hin : forall o, In (kid, o) map -> In (kid, o) b).
  { intros o H. apply (Permutation_in _ Hp) in H. rewrite El, in_app_iff in H. destruct H as [H|H]; [|exact H]. rewrite Forall_forall in Ha. apply Ha in H.
    apply Below in H. cbn [fst] in H. rewrite ucmp_refl in H. discriminate. }
  unfold container_find. rewrite El, (lower_bound_spec _ a b Ha Hb). cbn [bind]. rewrite nth_error_app2, Nat.sub_diag by lia. destruct b as [|x b]; cbn [nth_error].
  { left. split; [reflexivity|]. intros H. apply in_map_iff in H as ([k o] & K & H). cbn [fst] in K. subst k. apply (Hin o H). }
  assert (Sx : forall y, In y b -> item_less y x = false).
  { assert (Hs2 : StronglySorted (fun a b => item_less b a = false) (x :: b)).
    { rewrite El in Hs. clear - Hs. induction a as [|z a IH]; [exact Hs|]. apply IH. inversion Hs; auto. }
    inversion_clear Hs2 as [|? ? _ Hf]. rewrite Forall_forall in Hf. exact Hf. }
  destruct x as [k o]. cbn [fst]. destruct (beqb k kid) eqn:E.
  - apply beqb_eq in E. subst k. right. exists o. split; [reflexivity|]. split.
    + apply (Permutation_in (l := cmap)); [apply Permutation_sym, Hp|]. rewrite El. apply in_elt.
    + intros o' H. apply Hin in H as [H|H]; [injection H as <-|apply Sx, H]. unfold item_less. cbn [fst snd]. rewrite ucmp_refl.
      destruct o as [[i c]|]; [rewrite Z.eqb_refl|]; reflexivity.
  - apply beqb_neq in E. left. split; [reflexivity|]. intros H. apply in_map_iff in H as ([k' o'] & K & H). cbn [fst] in K. subst k'. apply Hin in H as [H|H]; [congruence|].
    inversion_clear Hb as [|? ? Hbx _]. specialize (Sx _ H). unfold item_less in Sx. cbn [fst snd] in Sx.
    destruct (ucmp kid k) eqn:C; [apply ucmp_eq in C; congruence|discriminate|].
    assert (X : item_less (k, o) (kid, None) = true) by (apply Below; cbn [fst]; rewrite ucmp_opp, C; reflexivity). congruence.
Qed.
Lemma container_spec : forall map cmap preferred m msg sg, container_built map cmap -> (forall kid, ~ In (kid, None) map) ->
  (~ In (snd m) (List.map fst map) /\ container_verify cmap msg m sg = Ok (Some false) /\ container_sign cmap msg m = Ok (Some []) /\
     container_preferred cmap preferred (snd m) = Ok preferred) \/
  (exists i c, In (snd m, Some (i, c)) map /\
     (forall j d, In (snd m, Some (j, d)) map -> j = i \/ ~ klt (fst (jc_preferred d [])) (fst (jc_preferred c []))) /\
     container_verify cmap msg m sg = Ok (jc_verify c msg m sg) /\ container_sign cmap msg m = Ok (jc_sign c msg m) /\
     container_preferred cmap preferred (snd m) = Ok (match snd m with [] => preferred | _ => (fst (jc_preferred c []), snd m) end)).
Proof.
  intros map cmap preferred m msg sg Hb Hn. unfold container_verify, container_sign, container_preferred.
  destruct (container_find_spec map cmap (snd m) Hb) as [[E N]|(o & E & I & M)]; rewrite E; cbn [bind].
  - left. split; [exact N|]. split; [reflexivity|]. split; [reflexivity|]. destruct (snd m); reflexivity.
  - destruct o as [[i c]|]; [|destruct (Hn _ I)]. right. exists i, c. split; [exact I|]. split; [|split; [reflexivity|]; split; [reflexivity|]; destruct (snd m); reflexivity].
    intros j d H. apply M in H. unfold item_less in H. cbn [fst snd] in H. rewrite ucmp_refl in H. destruct (Z.eqb_spec j i) as [K|K]; [left; exact K|].
    right. rewrite <- bytes_less_lt. congruence.
Qed.
