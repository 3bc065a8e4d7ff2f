(** Documents with floating point numbers, written and read back. *)
From Coq Require Import ZArith Reals Lia Lra Psatz Floats.SpecFloat ZifyBool.
From Flocq Require Import Core.Core IEEE754.BinarySingleNaN.
From Verif Require Import Base SpecUtf8 ModelValue SpecKeyed ModelKeyed SpecText SpecBin ModelText ProofKeyed ProofValue ProofText1 ProofText2 ProofText3 ProofText4 ProofText5 SpecDouble ProofReal ProofDouble ProofDouble2 ProofDouble3 ProofDouble4 ProofDouble5 ProofDouble6.
Local Open Scope Z_scope.

Section Doc.
Variables (L : libm) (F : pflags) (sg utf8 : bool) (E : serenv).
(** Texts read as a number, whatever comes before and after. *)
Definition reads (n : num) (t : bytes) : Prop :=
  (exists c t', t = c :: t' /\ 33 <= c < 128 /\ c <> 93 /\ c <> 125) /\ P_val L F sg (VNum n) t.

Lemma reads_text : forall n t, number_text t ->
  (forall r rest, num_end rest -> at_pos r (t ++ rest) -> parse_number L F r = Ok (VNum n, mkR (tl rest) (Some (hd_eof rest)))) ->
  reads n t.
Proof.
  intros n t Ht H. destruct (number_text_head t Ht) as (c & t' & Et & Hc). unfold digit_char in Hc.
  split; [exists c, t'; split; [exact Et|lia]|].
  intros w r rest Hw Hn Hr. unfold parse_ok. cbn [settle]. rewrite low_src in Hr by (eauto using number_text_low).
  assert (Hns : next_ws r = (c, mkR (t' ++ rest) (Some c))).
  { apply next_ws_low with w; auto; [|lia]. subst t. exact Hr. }
  exists 1%nat, (mkR (tl rest) (Some (hd_eof rest))). split; [apply at_next|]. intros [|f] Hf; [lia|].
  cbn [parse]. rewrite Hns.
  replace (c =? 123) with false by lia. replace (c =? 91) with false by lia.
  replace (c =? 34) with false by lia. replace (c =? 116) with false by lia.
  replace (c =? 102) with false by lia. replace (c =? 110) with false by lia.
  assert (isdigit c || (c =? 43) || (c =? 45) || (c =? 46) = true) as -> by (unfold isdigit; lia).
  apply H; [exact Hn|]. subst t. apply at_cons.
Qed.
Lemma reads_int : forall n t, precise F = false -> int_literal n t -> reads n t.
Proof.
  intros n t HF Hn. split; [apply (int_literal_starts n t Hn)|].
  destruct Hn as [ds H1 H2 H3|ds H1 H2 H3]; [apply C_uint|apply C_int]; auto.
Qed.

(** The document of another whose numbers are read. *)
Lemma doc_reads : forall (P : num -> Prop) (R : num -> num -> Prop),
  (forall n, P n -> exists m, reads m (ser_num E utf8 n) /\ R n m) ->
  forall v, doc_of utf8 P v -> exists v', jval reads v' (ser E utf8 v) /\ like_json R v v' /\ (forall dup, settle dup v' = Some v') /\ is_undef v' = false.
Proof.
  intros P R HP. induction v as [| |b|n|e s|l IH|d l IH] using value_ind'; intros H.
  - inversion H.
  - exists VNull. repeat split; constructor.
  - exists (VBool b). repeat split; [destruct b|]; constructor.
  - inversion H as [| |n0 Hr|s0| | |]; subst.
    + destruct (HP n Hr) as (m & A & B). exists (VNum m). repeat split; constructor; assumption.
    + exists (VNum (NDbl (S754_infinity s0))). repeat split; [|apply lj_inf]. cbn [ser ser_num f_isfinite]. destruct s0.
      * change (f_lt (S754_infinity true) (S754_zero false)) with true. cbv iota. apply jv_neg_inf. apply jstr_neg_inf_word.
      * change (f_lt (S754_infinity false) (S754_zero false)) with false. cbv iota. apply jv_inf. apply jstr_inf_word.
  - inversion H; subst. exists (VStr None s). repeat split; [|constructor]. cbn [ser]. unfold write_string.
    apply jv_str; auto. apply write_string_body_jstr. auto.
  - inversion H as [| | | | |l0 Hl|]; subst. cbn [ser].
    assert (G : exists l', Forall2 (fun a b => like_json R (snd a) (snd b)) l l' /\ Forall (fun m => forall dup, settle dup (snd m) = Some (snd m)) l' /\
      (l = [] /\ l' = [] \/ jelems reads l' (with_commas (map (fun m => ser E utf8 (snd m)) l)))).
    { clear H. induction l as [|m l IHl]; [exists []; repeat constructor|]. inversion_clear Hl as [|? ? H1 H2]. inversion_clear IH as [|? ? I1 I2].
      destruct (I1 H1) as (v' & J1 & J2 & J3 & J4). destruct (IHl I2 H2) as (l' & K1 & K2 & K3).
      exists (([], v') :: l'). split; [constructor; assumption|]. split; [constructor; assumption|]. right.
      destruct K3 as [(-> & ->)|K3].
      - pose proof (je_one reads v' [] (ser E utf8 (snd m)) [] (Forall_nil _) J1 (Forall_nil _)) as J. cbn [app] in J. rewrite app_nil_r in J. exact J.
      - destruct l as [|m2 l]; [inversion K1; subst; inversion K3|].
        pose proof (je_cons reads v' [] (ser E utf8 (snd m)) [] _ _ (Forall_nil _) J1 (Forall_nil _) K3) as J. cbn [app] in J. cbn [map] in *. rewrite with_commas_cons. exact J. }
    destruct G as (l' & G1 & G2 & G3). exists (VArr l'). split; [|split; [constructor; exact G1|split; [|reflexivity]]].
    + destruct G3 as [(-> & ->)|G3]; [apply (jv_arr0 _ []); constructor|]. apply jv_arr. exact G3.
    + intros dup. rewrite settle_arr. rewrite settle_list_id; [reflexivity|]. rewrite Forall_forall in *. auto.
  - inversion H as [| | | | | |d0 l0 Hk Hl]; subst. cbn [ser].
    assert (G : exists l', Forall2 (fun a b => fst a = fst b /\ like_json R (snd a) (snd b)) l l' /\ Forall (fun m => (forall dup, settle dup (snd m) = Some (snd m)) /\ is_undef (snd m) = false) l' /\
      (l = [] /\ l' = [] \/ jmembers reads l' (with_commas (map (fun m => write_string utf8 (fst m) ++ 58 :: ser E utf8 (snd m)) l)))).
    { clear H Hk. induction l as [|m l IHl]; [exists []; repeat constructor|]. inversion_clear Hl as [|? ? [H0 H1] H2]. inversion_clear IH as [|? ? I1 I2].
      destruct (I1 H1) as (v' & J1 & J2 & J3 & J4). destruct (IHl I2 H2) as (l' & K1 & K2 & K3).
      exists ((fst m, v') :: l'). split; [constructor; auto|]. split; [constructor; auto|]. right.
      pose proof (write_string_body_jstr utf8 (fst m) H0) as Js.
      destruct K3 as [(-> & ->)|K3].
      - pose proof (jm_one reads (fst m) _ v' [] [] [] (ser E utf8 (snd m)) [] Js (Forall_nil _) (Forall_nil _) (Forall_nil _) J1 (Forall_nil _)) as J.
        cbn [app] in J. rewrite app_nil_r in J. cbn [map with_commas]. unfold write_string. cbn [app]. rewrite <- app_assoc. exact J.
      - destruct l as [|m2 l]; [inversion K1; subst; inversion K3|].
        pose proof (jm_cons reads (fst m) _ v' [] [] [] (ser E utf8 (snd m)) [] _ _ Js (Forall_nil _) (Forall_nil _) (Forall_nil _) J1 (Forall_nil _) K3) as J.
        cbn [app] in J. cbn [map] in *. rewrite with_commas_cons. unfold write_string at 1. cbn [app]. rewrite <- app_assoc. cbn [app]. rewrite <- app_assoc. cbn [app]. exact J. }
    destruct G as (l' & G1 & G2 & G3). exists (VObj false l'). split; [|split; [constructor; exact G1|split; [|reflexivity]]].
    + destruct G3 as [(-> & ->)|G3]; [apply (jv_obj0 _ []); constructor|]. apply jv_obj. exact G3.
    + intros dup. rewrite settle_obj.
      assert (Ek : map fst l' = map fst l). { clear - G1. induction G1 as [|a b l l' [H _] _ IH]; cbn [map]; [reflexivity|]. rewrite H, IH. reflexivity. }
      rewrite settle_list_id by (rewrite Forall_forall in *; intros m Hm; apply (G2 m Hm)). cbv zeta.
      assert (build_object is_undef l' = l') as ->.
      { apply build_object_id; [unfold keys_increasing in *; rewrite Ek; exact Hk|]. rewrite Forall_forall in *. intros m Hm. apply (G2 m Hm). }
      rewrite Nat.eqb_refl. simpl negb. rewrite andb_false_r. reflexivity.
Qed.
Lemma doc_back : forall (P : num -> Prop) (R : num -> num -> Prop),
  (forall n, P n -> exists m, reads m (ser_num E utf8 n) /\ R n m) ->
  forall v w rest, doc_of utf8 P v -> ws w -> num_end rest ->
  exists v' r', parse_source L F (w ++ map (as_source sg) (ser E utf8 v) ++ rest) = Ok (v', r') /\ like_json R v v' /\ at_pos r' rest.
Proof.
  intros P R HP v w rest Hv Hw Hn. destruct (doc_reads P R HP v Hv) as (v' & J & Lk & St & _).
  pose proof (parse_complete_any L F sg reads (fun n t H => proj1 H) (fun n t H => proj2 H) v' (ser E utf8 v) J w
    (mkR (w ++ map (as_source sg) (ser E utf8 v) ++ rest) None) rest Hw Hn (at_none _)) as H.
  unfold parse_ok in H. rewrite St in H. destruct H as (f0 & r' & Hat & Hp). exists v', r'. split; [|auto].
  specialize (Hp f0 (le_n _)). rewrite <- Hp. apply parse_source_any. congruence.
Qed.
Lemma like_same_text : forall (R : num -> num -> Prop), (forall n m, R n m -> ser_num E utf8 m = ser_num E utf8 n) ->
  forall v v', like_json R v v' -> ser E utf8 v' = ser E utf8 v.
Proof.
  intros R HR. induction v as [| |b|n|e s|l IH|d l IH] using value_ind'; intros v' H; inversion H; subst; try reflexivity.
  - cbn [ser]. apply HR. assumption.
  - cbn [ser]. f_equal. f_equal. f_equal. clear H. match goal with H : Forall2 _ l _ |- _ => induction H as [|a b l l' H1 _ IHl] end; [reflexivity|].
    inversion_clear IH as [|? ? I1 I2]. cbn [map]. rewrite (I1 _ H1). f_equal. apply IHl. exact I2.
  - cbn [ser]. f_equal. f_equal. f_equal. clear H. match goal with H : Forall2 _ l _ |- _ => induction H as [|a b l l' [H0 H1] _ IHl] end; [reflexivity|].
    inversion_clear IH as [|? ? I1 I2]. cbn [map]. rewrite (I1 _ H1), H0. f_equal. apply IHl. exact I2.
Qed.
Lemma like_mono : forall (R S : num -> num -> Prop), (forall n m, R n m -> S n m) ->
  forall v v', like_json R v v' -> like_json S v v'.
Proof.
  intros R S HR. induction v as [| |b|n|e s|l IH|d l IH] using value_ind'; intros v' H; inversion H; subst; constructor; auto;
  clear H; match goal with H : Forall2 _ l _ |- _ => induction H as [|a b l l' H1 _ IHl] end; constructor; inversion_clear IH as [|? ? I1 I2]; auto.
  destruct H1; auto.
Qed.
End Doc.

(** *** Numbers *)
Lemma parts_text : forall t s n m q x, parts_of t s n m q x -> number_text t.
Proof.
  intros t s n m q x (ip & fp & ep & -> & (Di & _ & Hi) & Fr & Ex & _). exists (if s then [45] else []), ip, fp, ep.
  split; [reflexivity|]. split; [destruct s; auto|]. split; [split; [destruct Hi as [->|(c & t' & -> & _)]; discriminate|exact Di]|]. split.
  - destruct Fr as [(-> & _)|(ds & A & B & C & _)]; [left; reflexivity|right; exists ds; auto].
  - destruct Ex as [(-> & _)|(e & s0 & ds & A & B & C & D & G)]; [left; reflexivity|right; exists e, s0, ds]. repeat (split; [assumption|]). split; [|auto]. destruct G as [([->| ->] & _)|(-> & _)]; auto.
Qed.
Lemma real_zero : forall d, finite d -> real_of d = 0%R -> exists s, d = S754_zero s.
Proof.
  intros [s|s| |s m e] (_ & Hf) H; try discriminate Hf; [exists s; reflexivity|exfalso]. cbn [real_of] in H.
  apply Rmult_integral in H as [H|H]; [|exact (powerRZ_NOR 2 e ltac:(lra) H)]. apply eq_IZR_R0 in H. destruct s; discriminate.
Qed.
Section Numbers.
Variables (L : libm) (F : pflags) (sg utf8 : bool) (mp : nat) (E : serenv).
Hypotheses (GL : good_libm L) (Hnp : precise F = false) (By : doubles_by L mp E) (Hp3 : (3 <= mp)%nat).
Notation p := (Nat.min mp 9).

Lemma ser_dbl : forall d t, finite d -> write_double L utf8 mp d = Some t -> ser_num E utf8 (NDbl d) = t.
Proof. intros d t (_ & Hf) W. cbn [ser_num]. rewrite Hf. apply By. exact W. Qed.

Lemma uint_reads : forall z, 0 <= z < 2 ^ 64 -> reads L F sg (NUInt z) (write_unsigned z).
Proof.
  intros z Hz. destruct (write_unsigned_spec z Hz) as (H1 & H2 & H3 & _). apply reads_int; [exact Hnp|]. rewrite <- H3 at 1. apply il_uint; auto. lia.
Qed.
Lemma int_reads : forall n, (match n with NUInt z => 0 <= z < 2 ^ 64 | NInt z => - 2 ^ 63 < z < 2 ^ 63 | _ => False end) ->
  exists m, reads L F sg m (ser_num E utf8 n) /\ int_of m = int_of n /\ ser_num E utf8 m = ser_num E utf8 n.
Proof.
  intros [z|z|d|t k] H; try contradiction; cbn [ser_num].
  - exists (NUInt z). repeat split; try apply (uint_reads z H).
  - destruct (z <? 0) eqn:Ez.
    + exists (NInt z). split; [|auto]. destruct (write_signed_neg z ltac:(lia)) as (ds & -> & H1 & H2 & H3 & _).
      apply reads_int; [exact Hnp|]. assert (int_num (- dec_value ds) = NInt z) as <-
        by (unfold int_num; replace (- dec_value ds) with z by lia; replace (z =? 0) with false by lia; reflexivity).
      apply il_int; auto. lia.
    + exists (NUInt z). unfold write_signed. rewrite Ez. split; [apply uint_reads; lia|]. auto.
Qed.
Lemma zero_reads : forall s, reads L F sg (NUInt 0) (ser_num E utf8 (NDbl (S754_zero s))).
Proof.
  intros s. rewrite (ser_dbl (S754_zero s) [48]); [|split; reflexivity|apply zero_text; exact GL]. apply (uint_reads 0). lia.
Qed.
(** The ranges exclude each other and zero. *)
Lemma ranges : forall x, (x = 0%R -> ~ plain_range (Rabs x) /\ ~ exp_range (Rabs x)) /\ (plain_range (Rabs x) -> ~ exp_range (Rabs x)).
Proof.
  intros x. pose proof (p10_pos (-307)) as P. unfold plain_range, exp_range. split; [|lra]. intros ->. rewrite Rabs_R0. lra.
Qed.
Lemma number_reads : forall n, doc_number (fun x => x = 0%R \/ plain_range (Rabs x) \/ exp_range (Rabs x)) n ->
  exists m, reads L F sg m (ser_num E utf8 n) /\ reads_back mp n m /\
    (doc_number (fun x => x = 0%R \/ plain_range (Rabs x)) n -> ser_num E utf8 m = ser_num E utf8 n).
Proof.
  intros n H. destruct n as [z|z|d|]; [| | |contradiction].
  - destruct (int_reads (NUInt z) H) as (m & A & B & C). exists m. split; [exact A|]. split; [exact B|auto].
  - destruct (int_reads (NInt z) H) as (m & A & B & C). exists m. split; [exact A|]. split; [exact B|auto].
  - destruct H as (Fd & H). destruct (ranges (real_of d)) as (N0 & N1). destruct H as [Z0|[Pl|Ex]].
    + destruct (real_zero d Fd Z0) as (s & ->). exists (NUInt 0). split; [apply zero_reads|]. split.
      * split; [reflexivity|]. destruct (N0 Z0) as (A & B). split; intros C; contradiction.
      * intros _. rewrite (ser_dbl (S754_zero s) [48]); [reflexivity|exact Fd|apply zero_text; exact GL].
    + destruct (plain_back L F utf8 mp E GL Hnp By Hp3 d Fd Pl) as (t & u & W & (n & m & q & Pt) & H & Su & Cu & _). rewrite (ser_dbl d t Fd W).
      exists u. split; [|split; [|intros _; exact Su]].
      * apply reads_text; [apply (parts_text _ _ _ _ _ _ Pt)|exact H].
      * split; [intros Z0; exfalso; apply (proj1 (N0 Z0)); exact Pl|]. split; [intros _; eapply Rle_trans; [exact Cu|]; unfold Rdiv; lra|]. intros C. exfalso. exact (N1 Pl C).
    + destruct (scaled_back L F utf8 mp GL Hnp Hp3 d Fd Ex) as (t & X & W & _ & _ & (n & m & q & x & Pt) & d' & t' & H & Fd' & Cl & _). rewrite (ser_dbl d t Fd W).
      exists (NDbl d'). split; [|split].
      * apply reads_text; [apply (parts_text _ _ _ _ _ _ Pt)|exact H].
      * split; [intros Z0; exfalso; apply (proj2 (N0 Z0)); exact Ex|]. split; [intros C; exfalso; exact (N1 C Ex)|]. intros _. cbn [num_real]. unfold Rdiv in *. exact Cl.
      * intros (_ & [Z0|Pl]); exfalso; [apply (proj2 (N0 Z0)); exact Ex|exact (N1 Pl Ex)].
Qed.

(** *** Documents *)
Lemma document_back : forall v w rest, doc_of utf8 (doc_number (fun x => x = 0%R \/ plain_range (Rabs x) \/ exp_range (Rabs x))) v -> ws w -> num_end rest ->
  exists v' r', parse_source L F (w ++ map (as_source sg) (ser E utf8 v) ++ rest) = Ok (v', r') /\ like_json (reads_back mp) v v' /\ at_pos r' rest.
Proof.
  intros v w rest Hv Hw Hn. apply (doc_back L F sg utf8 E (doc_number (fun x => x = 0%R \/ plain_range (Rabs x) \/ exp_range (Rabs x)))); auto.
  intros n Pn. destruct (number_reads n Pn) as (m & A & B & _). eauto.
Qed.
Lemma document_same_text : forall v w rest, doc_of utf8 (doc_number (fun x => x = 0%R \/ plain_range (Rabs x))) v -> ws w -> num_end rest ->
  exists v' r', parse_source L F (w ++ map (as_source sg) (ser E utf8 v) ++ rest) = Ok (v', r') /\ like_json (reads_back mp) v v' /\ at_pos r' rest /\
    ser E utf8 v' = ser E utf8 v.
Proof.
  intros v w rest Hv Hw Hn.
  destruct (doc_back L F sg utf8 E (doc_number (fun x => x = 0%R \/ plain_range (Rabs x))) (fun n m => reads_back mp n m /\ ser_num E utf8 m = ser_num E utf8 n)) with (v := v) (w := w) (rest := rest) as (v' & r' & A & B & C); auto.
  { intros n Pn. destruct (number_reads n) as (m & H1 & H2 & H3); [destruct n; auto; cbn in *; tauto|]. exists m. auto. }
  exists v', r'. split; [exact A|]. split; [eapply like_mono; [|exact B]; intros n m (H & _); exact H|]. split; [exact C|].
  eapply like_same_text; [|exact B]. intros n m (_ & H); exact H.
Qed.
End Numbers.
