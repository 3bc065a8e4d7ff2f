From Coq Require Import ZifyBool Lia.
From Verif Require Import SpecUtf8.
From Verif Require Import Base ModelKeyed ModelValue ModelText ModelEq ModelObject ModelArray ModelEnc ModelJwt ModelNumView ModelBin ModelString ModelConv SpecText SpecConv SpecBin ProofFloat ProofText4.
Local Open Scope Z_scope.
Ltac Zify.zify_post_hook ::= Z.div_mod_to_equations.

Lemma all_some_map : forall A B (f : A -> option B) l g, (forall x, In x l -> f x = Some (g x)) -> all_some (map f l) = Some (map g l).
Proof.
  intros A B f l g. induction l as [|x l IH]; intros H; cbn; [reflexivity|].
  rewrite (H x) by (left; reflexivity). rewrite IH by (intros; apply H; right; assumption). reflexivity.
Qed.
Lemma all_some_nth : forall A (l : list (option A)) r, all_some l = Some r ->
  length r = length l /\ forall i, nth_error l i = option_map Some (nth_error r i).
Proof.
  induction l as [|[x|] l IH]; intros r H; cbn in H.
  - injection H as <-. split; [reflexivity|]. intros [|i]; reflexivity.
  - destruct (all_some l) as [q|] eqn:E; [|discriminate]. injection H as <-. destruct (IH q eq_refl) as [A1 A2].
    split; [cbn; congruence|]. intros [|i]; [reflexivity|]. cbn. apply A2.
  - discriminate.
Qed.
Lemma all_some_none : forall A (l : list (option A)), all_some l = None -> In None l.
Proof.
  induction l as [|[x|] l IH]; intros H; cbn in H; [discriminate| |left; reflexivity].
  destruct (all_some l); [discriminate|]. right. auto.
Qed.
Lemma all_some_forall2 : forall A B (f : A -> option B) l r, Forall2 (fun a b => f a = Some b) l r -> all_some (map f l) = Some r.
Proof. induction 1 as [|a b l r H _ IH]; cbn; [reflexivity|]. rewrite H, IH. reflexivity. Qed.

Lemma map_seq_nth : forall A (d : A) l, map (fun i => nth i l d) (seq 0 (length l)) = l.
Proof.
  intros A d l. induction l as [|x l IH]; [reflexivity|]. cbn [length seq map nth]. f_equal.
  rewrite <- seq_shift, map_map. exact IH.
Qed.
Lemma vec_items : forall L F B t m, conv_as L F B (CVec t) m = all_some (map (conv_as L F B t) (members_of (snd m))).
Proof.
  intros L F B t m. cbn [conv_as]. unfold vsize. rewrite <- (map_seq_nth _ ([], VUndef) (members_of (snd m))) at 2.
  rewrite map_map. reflexivity.
Qed.

Lemma int_s64 : forall L F z, - 2 ^ 63 <= z < 2 ^ 63 -> value_s64 L F (value_of_int z) = Some z.
Proof.
  intros L F z H. unfold value_of_int. destruct (Z.eqb_spec z 0) as [->|D]; reflexivity.
Qed.
Lemma round_trip : forall L F B t x, fits t x -> conv_as L F B t (conv_from t x) = Some x.
Proof.
  intros L F B. induction t as [| | | | | |t IH]; intros x H; cbn [conv_from]; try reflexivity.
  - apply int_s64. exact H.
  - cbn in *. unfold value_dbl, value_of_double. destruct x as [[]| | |]; try reflexivity. congruence.
  - rewrite vec_items. cbn [snd members_of]. apply all_some_forall2. cbn [fits] in H.
    induction H as [|a l Ha Hl IHl]; cbn; constructor; auto.
Qed.

(** *** Through the text *)
Lemma text_doc : forall utf8 t x, fits_text utf8 t x -> doc_ok utf8 (snd (conv_from t x)).
Proof.
  intros utf8. induction t as [| | | | | |t IH]; intros x H; cbn in H; cbn [conv_from snd]; try tauto.
  - destruct H as (A & B & C). constructor; assumption.
  - constructor. exact H.
  - unfold value_of_int. destruct (x =? 0); constructor; lia.
  - constructor.
  - constructor. induction H as [|a l Ha Hl IHl]; cbn; constructor; auto.
Qed.
Lemma text_as : forall L F B utf8 t x v k, fits_text utf8 t x -> same_json (snd (conv_from t x)) v -> conv_as L F B t (k, v) = Some x.
Proof.
  intros L F B utf8. induction t as [| | | | | |t IH]; intros x v k H S; cbn in H; cbn [conv_from snd] in S; try tauto.
  - inversion S; subst. reflexivity.
  - inversion S as [| |n m z E1 E2| | | |]; subst. cbn in E1. injection E1 as <-. destruct m as [m|m| |]; cbn in E2; try discriminate; injection E2 as ->; cbn.
    + reflexivity.
    + unfold value_u64. cbn. f_equal. unfold u64. lia.
  - unfold value_of_int in S. inversion S as [| |n m z E1 E2|f E1| | |]; subst.
    + assert (z = x) as -> by (destruct (Z.eqb_spec x 0); cbn in E1; congruence).
      destruct m as [m|m| |]; cbn in E2; try discriminate; injection E2 as ->; cbn; [|reflexivity].
      unfold value_s64. cbn. f_equal. unfold s64. cbv zeta. destruct (x mod 2 ^ 64 <? 2 ^ 63) eqn:Q; lia.
    + destruct (x =? 0); discriminate.
  - inversion S; subst. reflexivity.
  - inversion S as [| | | | |l l' E1|]; subst. rewrite vec_items. cbn [snd members_of]. apply all_some_forall2.
    clear S. revert x H E1. induction l' as [|[k' b] l' IHl]; intros x H E1.
    + inversion E1 as [E|]. destruct x; [constructor|discriminate].
    + destruct x as [|c x]; cbn [map] in E1; inversion E1 as [|a a1 q q1 A1 A2 E]. subst.
      inversion H; subst. constructor; [|apply IHl; assumption]. apply IH; assumption.
Qed.
Lemma schar_source : forall s, map schar s = map (as_source true) s.
Proof. intros s. apply map_ext. intros b. reflexivity. Qed.
Lemma text_trip : forall L E F B utf8 t x, precise F = false -> fits_text utf8 t x ->
  exists v, from_string L F (ser E utf8 (snd (conv_from t x))) = Ok v /\ conv_as L F B t ([], v) = Some x.
Proof.
  intros L E F B utf8 t x P H. pose proof (text_doc _ _ _ H) as D.
  destruct (document_round_trip L E F true utf8 _ [] [] P D) as (v & r & A & S & _); [constructor|exact Logic.I|].
  rewrite app_nil_r in A. cbn [app] in A. exists v. split.
  - unfold from_string. rewrite schar_source, A. reflexivity.
  - eapply text_as; eauto.
Qed.

(** *** Any value as a vector *)
Lemma as_vec : forall L F B t m l, conv_as L F B (CVec t) m = Some l <->
  length l = vsize (snd m) /\ forall i x, nth_error l i = Some x -> conv_as L F B t (vitem (snd m) i) = Some x.
Proof.
  intros L F B t m l. rewrite vec_items. unfold vsize, vitem. set (ms := members_of (snd m)). split.
  - intros H. apply all_some_nth in H. destruct H as [H1 H2]. rewrite map_length in H1. split; [exact H1|].
    intros i x E. specialize (H2 i). pose proof (f_equal (option_map Some) E) as E'. pose proof (eq_trans H2 E') as H3. clear H2. rename H3 into H2. rewrite nth_error_map in H2. destruct (nth_error ms i) as [q|] eqn:Q; [|discriminate].
    rewrite (nth_error_nth ms i _ Q). cbn in H2. congruence.
  - intros [H1 H2]. apply all_some_forall2. revert l H1 H2. induction ms as [|q ms IH]; intros [|x l] H1 H2; try discriminate; constructor.
    + exact (H2 0%nat x eq_refl).
    + apply IH; [cbn in H1; congruence|]. intros i y E. exact (H2 (S i) y E).
Qed.
Lemma scalar_vec : forall L F B t k v, match v with VArr _ | VObj _ _ => False | _ => True end -> conv_as L F B (CVec t) (k, v) = Some [].
Proof. intros L F B t k v H. rewrite vec_items. destruct v; try destruct H; reflexivity. Qed.
Lemma zero_sign : exists x, forall L F B, conv_as L F B CDouble (conv_from CDouble x) <> Some x.
Proof. exists (S754_zero true). intros L F B H. vm_compute in H. discriminate. Qed.

(** *** Defaults *)
Lemma or_default : forall L F v du ds (d : spec_float), (forall n, v <> VNum n) ->
  or_double L F v d = d /\ or_u32 L F v du = Some du /\ or_u64 L F v du = Some du /\ or_s32 L F v ds = Some ds /\ or_s64 L F v ds = Some ds.
Proof. intros L F v du ds d H. destruct v; try (repeat split; fail). exfalso. exact (H n eq_refl). Qed.
Lemma or_number : forall L F n z, int_of n = Some z -> (match n with NUInt _ => 0 <= z < 2 ^ 64 | _ => - 2 ^ 63 <= z < 2 ^ 63 end) ->
  forall d,
  (0 <= z < 2 ^ 32 -> or_u32 L F (VNum n) d = Some z) /\
  (0 <= z < 2 ^ 64 -> or_u64 L F (VNum n) d = Some z) /\
  (- 2 ^ 31 <= z < 2 ^ 31 -> or_s32 L F (VNum n) d = Some z) /\
  (- 2 ^ 63 <= z < 2 ^ 63 -> or_s64 L F (VNum n) d = Some z).
Proof.
  intros L F n z E R d. destruct n as [m|m| |]; cbn in E; try discriminate; injection E as ->;
  unfold or_u32, or_u64, or_s32, or_s64, value_u64, value_s64; cbn; unfold s64, u64, s32, u32; cbv zeta;
  split; [|split; [|split]| |split; [|split]]; intros H; f_equal;
  try (destruct (z mod 2 ^ 64 <? 2 ^ 63) eqn:Q1); try (destruct (_ <? 2 ^ 31) eqn:Q2); try reflexivity; lia.
Qed.
Lemma or_narrow : forall L F n z, int_of n = Some z -> (match n with NUInt _ => 0 <= z < 2 ^ 64 | _ => - 2 ^ 63 <= z < 2 ^ 63 end) ->
  forall d, exists u s, or_u32 L F (VNum n) d = Some u /\ or_s32 L F (VNum n) d = Some s /\
    0 <= u < 2 ^ 32 /\ - 2 ^ 31 <= s < 2 ^ 31 /\ (exists k, u = z + k * 2 ^ 32) /\ (exists k, s = z + k * 2 ^ 32).
Proof.
  intros L F n z E R d. destruct n as [m|m| |]; cbn in E; try discriminate; injection E as ->;
  unfold or_u32, or_s32, value_u64, value_s64; cbn; do 2 eexists; (split; [reflexivity|]); (split; [reflexivity|]);
  unfold s64, u64, s32, u32; cbv zeta.
  - split; [lia|]. split; [destruct (_ <? 2 ^ 31) eqn:Q2; lia|]. split; [exists (- (z / 2 ^ 32)); lia|].
    exists (- (z / 2 ^ 32) - (if z mod 2 ^ 32 <? 2 ^ 31 then 0 else 1)).
    assert (A : (if z mod 2 ^ 64 <? 2 ^ 63 then z mod 2 ^ 64 else z mod 2 ^ 64 - 2 ^ 64) mod 2 ^ 32 = z mod 2 ^ 32).
    { destruct (z mod 2 ^ 64 <? 2 ^ 63) eqn:Q1; lia. }
    rewrite A. destruct (z mod 2 ^ 32 <? 2 ^ 31) eqn:Q2; lia.
  - split; [lia|]. split; [destruct (_ <? 2 ^ 31) eqn:Q2; lia|]. split.
    + exists (- (z / 2 ^ 32)). lia.
    + exists (- (z / 2 ^ 32) - (if z mod 2 ^ 32 <? 2 ^ 31 then 0 else 1)). destruct (z mod 2 ^ 32 <? 2 ^ 31) eqn:Q2; lia.
Qed.
Lemma or_dbl : forall L F n d,
  (forall f, n = NDbl f -> or_double L F (VNum n) d = f) /\
  (forall t, n = NPrec t PkDbl -> or_double L F (VNum n) d = lm_strtod L t) /\
  (int_of n = Some 0 -> or_double L F (VNum n) d = S754_zero false) /\
  (forall z, int_of n = Some z -> z <> 0 -> - 2 ^ 63 <= z < 2 ^ 64 ->
     exists m e, or_double L F (VNum n) d = S754_finite (z <? 0) m e /\ nearest_double (Z.abs z) m e).
Proof.
  intros L F n d. split; [intros f ->; reflexivity|]. split; [intros t ->; reflexivity|]. split.
  - intros H. destruct n as [m|m| |]; cbn in H; try discriminate; injection H as ->; reflexivity.
  - intros z H Z0 R. assert (E : or_double L F (VNum n) d = f_of_Z z) by (destruct n as [m|m| |]; cbn in H; try discriminate; injection H as ->; reflexivity).
    rewrite E. unfold f_of_Z, binary_normalize. destruct z as [|p|p]; [congruence| |].
    + destruct (round_int false p) as (m & e & -> & _ & Hn); [lia|]. exists m, e. split; [reflexivity|exact Hn].
    + destruct (round_int true p) as (m & e & -> & _ & Hn); [lia|]. exists m, e. split; [reflexivity|exact Hn].
Qed.
Lemma narrow_refuted : exists v d z, int_of v = Some z /\
  forall L F, or_s32 L F (VNum v) d = Some 1 /\ or_u32 L F (VNum v) d = Some 1 /\ z <> 1 /\ d <> 1.
Proof. exists (NUInt 4294967297), 7, 4294967297. split; [reflexivity|]. intros L F. repeat split; discriminate. Qed.
Lemma or_strings : forall E utf8 v d,
  (forall s, v = VStr None s -> or_text E utf8 v d = Some s /\ or_view v d = s) /\
  ((forall e s, v <> VStr e s) -> or_text E utf8 v d = Some d /\ or_view v d = d).
Proof.
  intros E utf8 v d. split; [intros s ->; split; reflexivity|]. intros H. destruct v; try (split; reflexivity).
  exfalso. exact (H e s eq_refl).
Qed.
Lemma binary_text_refuted : exists v, forall E utf8 d, or_text E utf8 v d = Some [81; 81; 61; 61] /\ or_view v d = [65].
Proof. exists (VStr (Some EncBase64) [65]). intros E utf8 d. split; reflexivity. Qed.
Lemma or_bools : forall v d, (forall b, v = VBool b -> or_bool v d = b) /\ ((forall b, v <> VBool b) -> or_bool v d = d).
Proof. intros v d. split; [intros b ->; reflexivity|]. intros H. destruct v; try reflexivity. exfalso. exact (H b eq_refl). Qed.
Lemma or_values : forall m d, same_kind (snd (or_value m d)) (snd d) /\
  (same_kind (snd m) (snd d) -> or_value m d = m) /\ (~ same_kind (snd m) (snd d) -> or_value m d = d).
Proof. intros [k v] [j d]. unfold or_value. destruct v, d; cbn; split; try split; try tauto. Qed.
