(** Proofs for C104: texts read, doubles, refutations. *)
From Coq Require Import ZifyBool.
From Verif Require Import Base ModelUtf8 SpecUtf8 ProofUtf8 ModelKeyed SpecKeyed ProofKeyed ModelValue ProofValue ModelText SpecText
  ProofText1 SpecAccept ProofAccept2 ProofAccept3 SpecJson ProofJson.
Local Open Scope Z_scope.
Ltac Zify.zify_post_hook ::= Z.div_mod_to_equations.

(** *** RFC texts are texts of the library's grammar *)
Lemma json_ws_spaces : forall w, json_ws w -> spaces w.
Proof. intros w H. eapply Forall_impl; [|exact H]. unfold space. cbv beta. intros; lia. Qed.
Lemma hex_soft : forall c, is_hex c -> exists v, soft_hex c v.
Proof.
  intros c H. unfold is_hex in H. destruct (Z_le_gt_dec c 57); [exists (c - 48); left; left; lia|].
  destruct (Z_le_gt_dec c 70); [exists (c - 55); left; right; left; lia|exists (c - 87); left; right; right; lia].
Qed.
Lemma chars_denote : forall (uni : Z -> Prop) l, (forall c, uni c -> is_cp c) -> Forall (json_char uni) l -> exists s, denotes false s (concat l).
Proof.
  intros uni l Hu H. induction H as [|x l Hx _ (s & Hs)]; [exists []; constructor|]. cbn [concat].
  destruct Hx as [c A B C D|e He|a b c d Ha Hb Hc Hd].
  - exists (utf8_bytes c ++ s). replace (utf8_bytes c) with (map (as_source false) (utf8_bytes c)) at 2 by apply map_id.
    constructor; auto.
  - assert (exists y, In (e, y) escape_pairs) as (y & Hy).
    { cbn in He. destruct He as [<-|[<-|[<-|[<-|[<-|[<-|[<-|[<-|[]]]]]]]]]; eexists; cbn; tauto. }
    exists (y :: s). cbn [app]. constructor; auto.
  - destruct (hex_soft a Ha) as (va & Va), (hex_soft b Hb) as (vb & Vb), (hex_soft c Hc) as (vc & Vc), (hex_soft d Hd) as (vd & Vd).
    eexists. cbn [app]. eapply dn_hex; eauto.
Qed.
Section Gval.
Variables (uni : Z -> Prop) (num : bytes -> Prop).
Hypothesis Hu : forall c, uni c -> is_cp c.
Lemma string_denotes : forall t, json_string uni t -> exists s b, t = 34 :: b ++ [34] /\ denotes false s b.
Proof. intros t (l & Hl & ->). destruct (chars_denote uni l Hu Hl) as (s & Hs). exists s, (concat l). auto. Qed.
Lemma string_gval : forall N t, json_string uni t -> exists v, gval (denotes false) N v t.
Proof.
  intros N t H. destruct (string_denotes t H) as (s & b & -> & Hs).
  destruct (list_eq_dec Z.eq_dec s word_inf) as [->|N1]; [eexists; apply gv_inf; exact Hs|].
  destruct (list_eq_dec Z.eq_dec s word_neg_inf) as [->|N2]; [eexists; apply gv_neg_inf; exact Hs|].
  eexists. apply gv_str; eauto.
Qed.
Lemma json_gval : forall t, json_value json_ws uni num t -> exists v, gval (denotes false) (fun _ t => num t) v t.
Proof.
  intros t H. set (N := fun (_ : ModelValue.num) (t : list Z) => num t).
  induction H using json_value_mut with
    (P0 := fun t _ => exists l, gelems (denotes false) N l t) (P1 := fun t _ => exists l, gmembers (denotes false) N l t).
  - eexists; constructor.
  - eexists; constructor.
  - eexists; constructor.
  - exists (VNum (NUInt 0)). constructor. assumption.
  - apply string_gval. assumption.
  - eexists. apply gv_arr0. apply json_ws_spaces. assumption.
  - destruct IHjson_value as (l & Hl). eexists. eapply gv_arr. exact Hl.
  - eexists. apply gv_obj0. apply json_ws_spaces. assumption.
  - destruct IHjson_value as (l & Hl). eexists. eapply gv_obj. exact Hl.
  - destruct IHjson_value as (v & Hv). eexists. apply ge_one; eauto using json_ws_spaces.
  - destruct IHjson_value as (v & Hv), IHjson_value0 as (l & Hl). eexists. apply ge_cons; eauto using json_ws_spaces.
  - destruct IHjson_value as (v & Hv). destruct (string_denotes k ltac:(assumption)) as (s & b & -> & Hs).
    eexists. replace (w1 ++ (34 :: b ++ [34]) ++ w2 ++ 58 :: w3 ++ t ++ w4) with (w1 ++ 34 :: b ++ 34 :: w2 ++ 58 :: w3 ++ t ++ w4).
    + apply gm_one; eauto using json_ws_spaces.
    + cbn [app]. rewrite <- app_assoc. reflexivity.
  - destruct IHjson_value as (v & Hv), IHjson_value0 as (l & Hl). destruct (string_denotes k ltac:(assumption)) as (s & b & -> & Hs).
    eexists. replace (w1 ++ (34 :: b ++ [34]) ++ w2 ++ 58 :: w3 ++ t ++ w4 ++ 44 :: r) with (w1 ++ 34 :: b ++ 34 :: w2 ++ 58 :: w3 ++ t ++ w4 ++ 44 :: r).
    + apply gm_cons; eauto using json_ws_spaces.
    + cbn [app]. rewrite <- app_assoc. reflexivity.
Qed.
End Gval.
Lemma num_precise : forall t, json_num t -> precise_text t.
Proof.
  intros t (sg & ip & fp & ep & -> & Hs & Hi & Hf & He). exists sg, ip, fp, ep. split; [reflexivity|]. unfold precise_number, sign.
  split; [tauto|]. assert (Hd : ip <> [] /\ digits ip).
  { destruct Hi as [->|(c & t' & -> & Hc & Ht)]; (split; [discriminate|]); constructor; try (unfold digit_char; lia); [constructor|exact Ht]. }
  split; [tauto|]. split; [tauto|]. split.
  - destruct Hf as [->|(ds & -> & _ & Hd')]; [left; reflexivity|right]. exists ds. auto.
  - destruct He as [->|(e & s & ds & -> & H1 & H2 & H3 & H4)]; [left; reflexivity|right]. exists e, s, ds. unfold sign. auto 6.
Qed.
Lemma accepts : forall L F t, json_value json_ws is_cp (fun x => json_num x /\ (precise F = false -> moderate x)) t ->
  exists v, gval (denotes false) (if precise F then precise_value else plain_value) v t /\
    forall w w', json_ws w -> json_ws w' ->
    ((allow_dup F = true \/ ~ has_dup v) ->
      exists v' r', parse_source L F (w ++ t ++ w') = Ok (v', r') /\ sorted_form v v' /\ at_pos r' w') /\
    (allow_dup F = false -> has_dup v -> parse_source L F (w ++ t ++ w') = Err).
Proof.
  intros L F t H. apply json_gval in H as (v0 & H); [|auto]. destruct (precise F) eqn:EF.
  - destruct (precise_outcome L F false v0 t EF) as (v1 & G & O).
    { eapply gval_impl; [| |exact H]; [auto|]. intros n x (A & _). apply num_precise, A. }
    exists v1. split; [exact G|]. intros w w' Hw Hw'. apply O; [apply json_ws_spaces, Hw|apply spaces_num_end, json_ws_spaces, Hw'].
  - destruct (moderate_outcome L F false v0 t EF) as (v1 & G & O).
    { eapply gval_impl; [| |exact H]; [auto|]. intros n x (_ & A). apply A. reflexivity. }
    exists v1. split; [exact G|]. intros w w' Hw Hw'. apply O; [apply json_ws_spaces, Hw|apply spaces_num_end, json_ws_spaces, Hw'].
Qed.

(** *** Reading and writing again *)
Scheme gval_mut2 := Induction for gval Sort Prop
  with gelems_mut2 := Induction for gelems Sort Prop
  with gmembers_mut2 := Induction for gmembers Sort Prop.
Lemma gval_writable : forall St v t (D : spec_float -> Prop), gval St (fun n x => json_num x /\ exists k, n = NPrec x k) v t ->
  writable D (fun _ => True) (fun _ _ => True) v.
Proof.
  intros St v t D H.
  induction H using gval_mut2 with
    (P0 := fun l _ _ => Forall (fun m => writable D (fun _ => True) (fun _ _ => True) (snd m)) l)
    (P1 := fun l _ _ => Forall (fun m => True /\ writable D (fun _ => True) (fun _ _ => True) (snd m)) l);
    try (constructor; auto; fail).
  - match goal with H : json_num _ /\ _ |- _ => destruct H as (A & k & ->) end. constructor. exact A.
  - constructor. discriminate.
  - constructor. discriminate.
Qed.
Lemma sorted_writable : forall D B v v', sorted_form v v' -> writable D (fun _ => True) B v -> writable D (fun _ => True) B v'.
Proof.
  intros D B. induction v as [| |b|n|e s|l IH|d l IH] using value_ind'; intros v' H W; inversion H; subst; auto.
  - constructor. inversion W; subst. clear - H1 IH H2. revert IH H2. induction H1 as [|a b l l' [_ Hab] _ IHl]; intros IH W; constructor.
    + inversion_clear IH. inversion_clear W. auto.
    + inversion_clear IH. inversion_clear W. auto.
  - constructor. inversion W; subst.
    assert (Hm : Forall (fun m => writable D (fun _ => True) B (snd m)) lm).
    { clear - H2 IH H1. revert IH H1. induction H2 as [|a b l l' [_ Hab] _ IHl]; intros IH W; constructor.
      + inversion_clear IH. inversion_clear W as [|? ? [_ ?]]. auto.
      + inversion_clear IH. inversion_clear W. auto. }
    apply Forall_forall. intros [k x] Hx. split; [exact I|]. cbn [snd].
    assert (Hb : binding k l' = Some x) by (apply in_binding; [apply keys_increasing_nodup|]; assumption).
    rewrite H5 in Hb. rewrite Forall_forall in Hm. apply (Hm (k, x)). apply last_binding_in. exact Hb.
Qed.
Lemma reformat : forall L F E w t w', precise F = true -> allow_dup F = true ->
  json_value json_ws is_cp json_num t -> json_ws w -> json_ws w' ->
  exists v r, parse_source L F (w ++ t ++ w') = Ok (v, r) /\ at_pos r w' /\ json_value no_ws ascii json_num (ser E false v).
Proof.
  intros L F E w t w' HF Hd H Hw Hw'. apply json_gval in H as (v0 & H); [|auto].
  destruct (grammar_outcome L F (denotes false) (fun _ x => json_num x) (fun n x => json_num x /\ exists k, n = NPrec x k) v0 t) as (v1 & G & O).
  - intros s b. apply denotes_read.
  - intros n x Hx. destruct (precise_read L F x HF (num_precise x Hx)) as (n' & A & (_ & B) & C). exists n'. auto.
  - exact H.
  - destruct (O w w' (json_ws_spaces w Hw) (spaces_num_end w' (json_ws_spaces w' Hw'))) as (P & _).
    destruct (P (or_introl Hd)) as (v' & r & Ev & Sf & At). exists v', r. split; [exact Ev|]. split; [exact At|].
    apply escaped_json. eapply sorted_writable; [exact Sf|]. eapply gval_writable. exact G.
Qed.

(** *** Refutations *)
Lemma utf8_surrogate : forall c r, utf8_bytes c ++ r = [237; 160; 128] -> scalar c -> False.
Proof.
  intros c r H Hc. unfold scalar in Hc. unfold utf8_bytes in H.
  pose proof (f_equal (fun l => nth 0 l 0) H) as H0. pose proof (f_equal (fun l => nth 1 l 0) H) as H1. pose proof (f_equal (fun l => nth 2 l 0) H) as H2.
  clear H. cbv beta in H0, H1, H2.
  destruct (c <? 0x80) eqn:E1; [cbn [app nth] in H0; lia|]. destruct (c <? 0x800) eqn:E2; [cbn [app nth] in H0; lia|].
  destruct (c <? 0x10000) eqn:E3; cbn [app nth] in H0, H1, H2; lia.
Qed.
Lemma surrogate_text : ~ json_value json_ws scalar json_num [34; 237; 160; 128; 34].
Proof.
  intros H. remember [34; 237; 160; 128; 34] as t eqn:Et. destruct H as [ | | |t Hn|t Hs|w _|t _|w _|t _]; try discriminate.
  - destruct Hn as (sg & ip & fp & ep & -> & Hs & Hi & _). destruct Hs as [->| ->]; [|discriminate]. cbn [app] in Et.
    destruct Hi as [->|(c & t' & -> & Hc & _)]; cbn [app] in Et; [discriminate|]. injection Et as Ec _. lia.
  - destruct Hs as (l & Hl & ->). injection Et as El. change [237; 160; 128; 34] with ([237; 160; 128] ++ [34]) in El. apply app_inj_tail in El as [El _].
    destruct Hl as [|x l Hx Hl]; [discriminate|]. cbn [concat] in El. destruct Hx as [c A B C D|e He|a b c d Ha Hb Hc Hd].
    + eapply utf8_surrogate; eauto.
    + discriminate.
    + discriminate.
Qed.
Lemma plus_text : ~ json_num [43; 49].
Proof.
  intros (sg & ip & fp & ep & Et & Hs & Hi & _). destruct Hs as [->| ->]; [|discriminate]. cbn [app] in Et.
  destruct Hi as [->|(c & t' & -> & Hc & _)]; cbn [app] in Et; [discriminate|]. injection Et as Ec _. lia.
Qed.
Lemma plus_value : ~ json_value json_ws is_cp json_num [43; 49].
Proof.
  intros H. remember [43; 49] as t eqn:Et. destruct H as [ | | |t Hn|t Hs|w _|t _|w _|t _]; try discriminate.
  - subst t. exact (plus_text Hn).
  - destruct Hs as (l & Hl & ->). discriminate.
Qed.
