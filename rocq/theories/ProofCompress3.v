(** The compression of documents. *)
From Coq Require Import Lia ZifyBool.
From Verif Require Import Base SpecUtf8 ModelKeyed SpecKeyed ModelValue ModelText SpecText ProofValue ProofText1 ProofText4 ModelCompress SpecCompress ProofCompress2.
Local Open Scope Z_scope.
Local Open Scope list_scope.
Ltac Zify.zify_post_hook ::= Z.div_mod_to_equations.

Lemma pr_app : forall s t, printable s -> printable t -> printable (s ++ t).
Proof.
  intros s t H K. induction H as [|b s B _ IH|a bs s L F _ IH]; [exact K|constructor; assumption|].
  rewrite <- app_comm_cons, <- app_assoc. constructor; assumption.
Qed.
Lemma pr_plains : forall s, Forall (fun b => 32 <= b < 128) s -> printable s.
Proof. intros s H. induction H; constructor; assumption. Qed.
Lemma pr_one : forall b t, (32 <=? b) && (b <? 128) = true -> printable t -> printable (b :: t).
Proof. intros b t B H. constructor; [lia|exact H]. Qed.
Lemma pr_utf8 : forall c, is_cp c -> 32 <= c -> printable (utf8_bytes c).
Proof.
  intros c C L. unfold is_cp in C. unfold utf8_bytes. destruct (Z.ltb_spec c 128); [apply pr_one; [lia|constructor]|].
  destruct (Z.ltb_spec c 2048).
  { apply (pr_seq (192 + c / 64) [128 + c mod 64] []); [left; cbn [length]; lia| |constructor]. repeat constructor; lia. }
  destruct (Z.ltb_spec c 65536).
  { apply (pr_seq (224 + c / 4096) [128 + (c / 64) mod 64; 128 + c mod 64] []); [right; left; cbn [length]; lia| |constructor]. repeat constructor; lia. }
  apply (pr_seq (240 + c / 262144) [128 + (c / 4096) mod 64; 128 + (c / 64) mod 64; 128 + c mod 64] []); [right; right; left; cbn [length]; lia| |constructor]. repeat constructor; lia.
Qed.
Lemma pr_encode : forall cs, Forall is_cp cs -> Forall (fun c => 32 <= c) cs -> printable (utf8_encode cs).
Proof.
  intros cs H. induction H as [|c cs C _ IH]; intros K; [constructor|]. inversion_clear K. cbn [utf8_encode flat_map]. apply pr_app; [apply pr_utf8; assumption|apply IH; assumption].
Qed.
Lemma pr_jstr : forall s b, jstr s b -> printable b.
Proof.
  intros s b H. induction H as [|c s b C L _ _ _ IH|e x s b E _ IH|h1 h2 h3 h4 v1 v2 v3 v4 s t A B C D _ IH]; [constructor| | |].
  - apply pr_app; [apply pr_utf8; assumption|exact IH].
  - apply pr_one; [reflexivity|]. apply pr_one; [|exact IH]. cbn in E. repeat (destruct E as [E|E]; [injection E as <- _; reflexivity|]). destruct E.
  - unfold hex_char in *. repeat (apply pr_one; [lia|]). exact IH.
Qed.
Lemma pr_string : forall utf8 s, text_ok utf8 s -> printable (write_string utf8 s).
Proof.
  intros utf8 s H. unfold write_string. apply pr_one; [reflexivity|]. apply pr_app; [exact (pr_jstr _ _ (write_string_body_jstr utf8 s H))|].
  apply pr_one; [reflexivity|constructor].
Qed.
Lemma pr_commas : forall l, Forall printable l -> printable (with_commas l).
Proof.
  intros l H. induction H as [|s l P F IH]; [constructor|]. cbn [with_commas]. destruct l as [|s' l]; [exact P|]. apply pr_app; [exact P|]. apply pr_one; [reflexivity|exact IH].
Qed.
Lemma pr_digits : forall ds, Forall digit_char ds -> printable ds.
Proof. intros ds H. apply pr_plains. eapply Forall_impl; [|exact H]. intros c C. unfold digit_char in C. lia. Qed.
Lemma ser_printable : forall E utf8 v, doc_ok utf8 v -> printable (ser E utf8 v).
Proof.
  intros E utf8. induction v as [| |b|n|e s|l IH|d l IH] using value_ind'; intros H.
  - inversion H.
  - apply pr_plains. repeat constructor; lia.
  - destruct b; apply pr_plains; repeat constructor; lia.
  - inversion H as [| |n0 Hr|n0 Hr|sg| | |]; subst; cbn [ser ser_num].
    + destruct (write_unsigned_spec n0 Hr) as (H1 & H2 & H3 & _). apply pr_digits. exact H2.
    + destruct (n0 <? 0) eqn:En.
      * destruct (write_signed_neg n0 ltac:(lia)) as (ds & -> & H1 & H2 & H3 & _). apply pr_one; [reflexivity|]. apply pr_digits. exact H2.
      * unfold write_signed. rewrite En. destruct (write_unsigned_spec n0 ltac:(lia)) as (H1 & H2 & H3 & _). apply pr_digits. exact H2.
    + cbn [f_isfinite]. destruct sg.
      * change (f_lt (S754_infinity true) (S754_zero false)) with true. cbv iota. apply pr_one; [reflexivity|].
        apply pr_app; [exact (pr_jstr _ _ (jstr_neg_inf_word utf8))|]. apply pr_one; [reflexivity|constructor].
      * change (f_lt (S754_infinity false) (S754_zero false)) with false. cbv iota. apply pr_one; [reflexivity|].
        apply pr_app; [exact (pr_jstr _ _ (jstr_inf_word utf8))|]. apply pr_one; [reflexivity|constructor].
  - inversion H; subst. cbn [ser]. apply pr_string. assumption.
  - inversion H as [| | | | | |l0 Hl|]; subst. cbn [ser]. apply pr_one; [reflexivity|]. apply pr_app; [|apply pr_one; [reflexivity|constructor]].
    apply pr_commas. apply Forall_map. rewrite Forall_forall in *. intros x Hx. apply IH; auto.
  - inversion H as [| | | | | | |d0 l0 Hk Hl]; subst. cbn [ser]. apply pr_one; [reflexivity|]. apply pr_app; [|apply pr_one; [reflexivity|constructor]].
    apply pr_commas. apply Forall_map. rewrite Forall_forall in *. intros x Hx. apply pr_app; [apply pr_string; apply Hl; auto|]. apply pr_one; [reflexivity|].
    apply IH; auto. apply Hl; auto.
Qed.
Lemma utf8_printable : forall cs, Forall is_cp cs -> Forall (fun c => 32 <= c) cs -> printable (utf8_encode cs).
Proof. exact pr_encode. Qed.
Lemma packed_document : forall ext, mask ext -> forall L E F utf8 v, precise F = false -> doc_ok utf8 v ->
  exists o t d v' r, compress_all ext (ser E utf8 v) = COk o /\
    decompress_calls ext (S (length (ser E utf8 v))) d_init o = COk (t ++ [255], d, []) /\
    parse_source L F (map schar (t ++ [255])) = Ok (v', r) /\ same_json v v'.
Proof.
  intros ext M L E F utf8 v HF Hv. destruct (round_trip ext M _ (ser_printable E utf8 v Hv)) as (o & d & C & D).
  assert (Ne : num_end [-1]) by (cbn; unfold digit_char; lia).
  destruct (document_round_trip L E F true utf8 v [] [-1] HF Hv (Forall_nil _) Ne) as (v' & r' & H & Hs & _).
  exists o, (ser E utf8 v), d, v', r'. split; [exact C|]. split; [exact D|]. split; [|exact Hs].
  rewrite map_app. exact H.
Qed.
