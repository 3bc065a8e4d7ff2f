(** Proofs about documents stored in the binary form. *)
From Coq Require Import ZArith Lia Floats.SpecFloat ZifyBool.
From Verif Require Import Base ModelValue ModelKeyed SpecKeyed ModelText SpecText ModelBin SpecBin ProofBin3 SpecReread ProofReread SpecStored PropBin.
From Verif Require Import ProofValue.
Local Open Scope Z_scope.

Lemma kept_in : forall pe l x, (fix all (l : list (bytes * value)) : Prop := match l with [] => True | x :: l' => text_kept pe (snd x) /\ all l' end) l ->
  In x l -> text_kept pe (snd x).
Proof. induction l as [|y l IH]; intros x K H; [destruct H|]. destruct K as [K1 K2]. destruct H as [->|H]; auto. Qed.
Lemma ok_in : forall L F l x, (fix all (l : list (bytes * value)) : Prop := match l with [] => True | x :: l' => bin_text F (fst x) /\ bin_ok L F (snd x) /\ all l' end) l ->
  In x l -> bin_ok L F (snd x).
Proof. induction l as [|y l IH]; intros x K H; [destruct H|]. destruct K as (_ & K1 & K2). destruct H as [->|H]; auto. Qed.

Lemma stored_text : forall L E F utf8 pe v, bf_32 F = false -> bin_ok L F v -> text_kept pe v -> ser E utf8 (decoded L F pe v) = ser E utf8 v.
Proof.
  intros L E F utf8 pe v H32. induction v as [| |b|n|e s|l IH|d l IH] using value_ind'; intros B K; try reflexivity.
  - cbn [decoded ser]. destruct n as [z|z|f|t k]; cbn [decoded_num]; try rewrite H32; cbn [andb bin_ok bin_num] in *.
    + unfold decoded_int. replace (z <? 0) with false by lia. reflexivity.
    + unfold decoded_int. destruct (z <? 0) eqn:Z0; [reflexivity|]. cbn [ser_num]. unfold write_signed. rewrite Z0. reflexivity.
    + cbn in K. destruct f; try reflexivity. exfalso. eapply K. reflexivity.
    + contradiction.
  - destruct e as [e|]; [|reflexivity]. destruct K as [-> K]. destruct s; [congruence|reflexivity].
  - cbn [decoded ser]. rewrite map_map. do 2 f_equal. f_equal. apply map_ext_in. intros x Hx. cbn [snd].
    rewrite Forall_forall in IH. apply IH; [exact Hx|exact (ok_in L F l x (proj2 B) Hx)|exact (kept_in pe l x K Hx)].
  - cbn [decoded ser]. rewrite map_map. do 2 f_equal. f_equal. apply map_ext_in. intros x Hx. cbn [fst snd]. do 2 f_equal.
    rewrite Forall_forall in IH. apply IH; [exact Hx|exact (ok_in L F l x (proj2 B) Hx)|exact (kept_in pe l x K Hx)].
Qed.

Lemma decoded_same : forall L F pe v, bf_32 F = false -> read_form plain_form v -> decoded L F pe v = v.
Proof.
  intros L F pe v H32. induction v as [| |b|n|e s|l IH|d l IH] using value_ind'; intros H; inversion H; subst; try reflexivity.
  - cbn [decoded]. f_equal. destruct n as [z|z|f|t k]; cbn [decoded_num plain_form] in *; try rewrite H32; cbn [andb]; unfold decoded_int.
    + replace (z <? 0) with false by lia. reflexivity.
    + replace (z <? 0) with true by lia. reflexivity.
    + destruct f; try reflexivity. exfalso. match goal with H : forall s, _ <> _ |- _ => eapply H end. reflexivity.
    + contradiction.
  - cbn [decoded]. f_equal. rewrite <- (map_id l) at 2. apply map_ext_in. intros [k x] Hm. rewrite Forall_forall in IH. cbn [fst snd].
    f_equal. apply (IH (k, x) Hm). apply (rf_arr_inv _ _ H _ Hm).
  - cbn [decoded]. f_equal. rewrite <- (map_id l) at 2. apply map_ext_in. intros [k x] Hm. rewrite Forall_forall in IH. cbn [fst snd].
    f_equal. apply (IH (k, x) Hm). apply (rf_obj_inv _ _ _ H _ Hm).
Qed.

Lemma stored_exact : forall J L F PF pe s v r k rest, (forall n, is_bytes (J n)) -> precise PF = false -> parse_source L PF s = Ok (v, r) ->
  bf_32 F = false -> bin_text F k -> bin_ok L F v -> members_in v < 2 ^ 32 - 257 ->
  exists p', parse_item J (Some pe) (bin_fuel (serialize_binary L F (k, v) ++ rest)) (ps_init (serialize_binary L F (k, v) ++ rest))
    = Ok ((k, v), p') /\ ps_in p' = rest.
Proof.
  intros J L F PF pe s v r k rest HJ HP H H32 Hk B M.
  pose proof (parse_form L PF plain_form (fun r n r' => plain_num_form L PF r n r' HP) s v r H) as Fm.
  destruct (C19_round_trip J L F pe k v rest HJ Hk B M) as (p' & E & I). rewrite (decoded_same L F pe v H32 Fm) in E. eauto.
Qed.

Lemma stored_kept : forall J L E F utf8 pe v k rest, (forall n, is_bytes (J n)) -> bf_32 F = false -> bin_text F k -> bin_ok L F v ->
  members_in v < 2 ^ 32 - 257 -> text_kept pe v ->
  exists w p', parse_item J (Some pe) (bin_fuel (serialize_binary L F (k, v) ++ rest)) (ps_init (serialize_binary L F (k, v) ++ rest))
    = Ok ((k, w), p') /\ ps_in p' = rest /\ ser E utf8 w = ser E utf8 v.
Proof.
  intros J L E F utf8 pe v k rest HJ H32 Hk B M K.
  destruct (C19_round_trip J L F pe k v rest HJ Hk B M) as (p' & E1 & I). exists (decoded L F pe v), p'.
  split; [exact E1|]. split; [exact I|]. apply stored_text; assumption.
Qed.
