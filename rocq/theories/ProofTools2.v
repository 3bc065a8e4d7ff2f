(** Every document is packed. *)
From Coq Require Import ZArith Lia ZifyBool.
From Verif Require Import Base SpecUtf8 ModelUtf8 ModelValue ModelKeyed SpecKeyed ModelText SpecText ModelEnc ModelBin SpecBin ModelStreams ModelCompress SpecCompress ModelTools.
From Verif Require Import ProofUtf8 ProofValue ProofText1 ProofText2 ProofText3 SpecReread ProofReread ProofStored ProofCompress2 ProofCompress3 ProofCompress4 ProofCompress5 ProofTools.
From Verif Require Import ProofText4 ProofEnc.
Local Open Scope Z_scope.
Local Open Scope list_scope.
Ltac Zify.zify_post_hook ::= Z.div_mod_to_equations.

Lemma hex_plain : forall u i, 32 <= hex_digit (Z.land (Z.shiftr u i) 15) < 128.
Proof. intros u i. change 15 with (Z.ones 4). rewrite Z.land_ones by lia. unfold hex_digit. destruct (_ <? 10) eqn:E; lia. Qed.
Lemma code_printable : forall w, 0 <= w < 2 ^ 21 -> printable (write_unicode true w).
Proof.
  intros w H. unfold write_unicode. rewrite u32_small by lia. rewrite s32_small by lia.
  destruct (true && (128 <=? w) && negb (w =? 8232) && negb (w =? 8233)) eqn:E.
  - cbn [wide_to_utf8]. replace (w =? -1) with false by lia. rewrite app_nil_r. destruct (Z_le_gt_dec w 0x10FFFF) as [G|G].
    + rewrite wide_to_utf8_1_spec by (unfold is_cp; lia). apply pr_utf8; unfold is_cp; lia.
    + unfold wide_to_utf8_1. replace (w <? 128) with false by lia. replace (w <=? 2047) with false by lia. replace (w <=? 65535) with false by lia. replace (w <=? 1114111) with false by lia.
      rewrite !andb_false_r. constructor.
  - apply pr_plains. cbn [map]. repeat (constructor; [first [lia|apply hex_plain]|]). constructor.
Qed.
(** No code out of range comes before 2^32 bytes were read. *)
Definition fair (m : nat) (st : ustate) : Prop :=
  1 <= pend st <= 3 /\ 0 <= uchar st < 2 ^ (21 - 6 * pend st) \/ pend st = 0 \/ Z.of_nat m < pend st < 2 ^ 32.
Lemma step_fair : forall m st c, is_byte c -> Z.of_nat (S m) < 2 ^ 32 -> fair (S m) st ->
  fair m (fst (utf8_step st c)) /\ Forall (fun w => 0 <= w < 2 ^ 21) (snd (utf8_step st c)).
Proof.
  intros m st c B Sm G. unfold utf8_step, is_byte in *.
  destruct (Z.land c 192 =? 128).
  { cbn [fst snd]. assert (Hc : 0 <= Z.land c 63 < 64) by (change 63 with (Z.ones 6); rewrite Z.land_ones by lia; lia).
    unfold fair in *. cbn [pend uchar].
    destruct G as [(P & U)|[P|P]].
    - assert (P' : pend st = 1 \/ pend st = 2 \/ pend st = 3) by lia. destruct P' as [P'|[P'|P']]; rewrite P' in *; cbn [Z.mul Z.sub] in U.
      + change (2 ^ (21 - 6 * 1)) with 32768 in U. change (u32 (1 - 1)) with 0. rewrite Z.eqb_refl. split; [right; left; reflexivity|].
        constructor; [|constructor]. rewrite Z.shiftl_mul_pow2 by lia. change (2 ^ 6) with 64. rewrite u32_small by lia.
        rewrite ProofEnc.lor64 by lia. rewrite s32_small by lia. lia.
      + change (2 ^ (21 - 6 * 2)) with 512 in U. change (u32 (2 - 1)) with 1. cbn [Z.eqb]. split; [left|constructor]. split; [lia|].
        rewrite Z.shiftl_mul_pow2 by lia. change (2 ^ 6) with 64. rewrite u32_small by lia. rewrite ProofEnc.lor64 by lia. change (2 ^ (21 - 6 * 1)) with 32768. lia.
      + change (2 ^ (21 - 6 * 3)) with 8 in U. change (u32 (3 - 1)) with 2. cbn [Z.eqb]. split; [left|constructor]. split; [lia|].
        rewrite Z.shiftl_mul_pow2 by lia. change (2 ^ 6) with 64. rewrite u32_small by lia. rewrite ProofEnc.lor64 by lia. change (2 ^ (21 - 6 * 2)) with 512. lia.
    - rewrite P. change (u32 (0 - 1)) with (2 ^ 32 - 1). split; [right; right; lia|]. change (2 ^ 32 - 1 =? 0) with false. constructor.
    - rewrite u32_small by lia. split; [right; right; lia|]. replace (pend st - 1 =? 0) with false by lia. constructor. }
  assert (T : forall k, 0 <= k <= 5 -> 0 <= Z.land c (Z.ones k) < 2 ^ k) by (intros k Hk; rewrite Z.land_ones by lia; apply Z.mod_pos_bound; lia).
  destruct (Z.land c 224 =? 192); [split; [left|constructor]; cbn [fst pend uchar]; split; [lia|]; pose proof (T 5 ltac:(lia)) as X; change (Z.ones 5) with 31 in X; change (2 ^ 5) with 32 in X; change (2 ^ (21 - 6 * 1)) with 32768; lia|].
  destruct (Z.land c 240 =? 224); [split; [left|constructor]; cbn [fst pend uchar]; split; [lia|]; pose proof (T 4 ltac:(lia)) as X; change (Z.ones 4) with 15 in X; change (2 ^ 4) with 16 in X; change (2 ^ (21 - 6 * 2)) with 512; lia|].
  destruct (Z.land c 248 =? 240); [split; [left|constructor]; cbn [fst pend uchar]; split; [lia|]; pose proof (T 3 ltac:(lia)) as X; change (Z.ones 3) with 7 in X; change (2 ^ 3) with 8 in X; change (2 ^ (21 - 6 * 3)) with 8; lia|].
  cbn [fst snd]. split; [|constructor; [lia|constructor]]. unfold fair in *. destruct G as [G|[G|G]]; [left; exact G|right; left; exact G|right; right; lia].
Qed.
Lemma body_printable : forall s st, is_bytes s -> Z.of_nat (length s) < 2 ^ 32 -> fair (length s) st -> printable (write_body true st s).
Proof.
  induction s as [|c s IH]; intros st B Sh G; [constructor|]. inversion_clear B as [|? ? Bc Bs]. cbn [length] in Sh, G. cbn [write_body].
  assert (Ls : Z.of_nat (length s) < 2 ^ 32) by lia.
  destruct (write_direct c) as [o|] eqn:D.
  - apply pr_app.
    + unfold write_direct in D. destruct ((c =? 92) || (c =? 34)) eqn:E1; [injection D as <-; apply pr_plains; repeat constructor; lia|].
      repeat (match type of D with (if ?b then _ else _) = _ => destruct b eqn:? end; [first [discriminate D|injection D as <-; apply pr_plains; repeat constructor; lia]|]).
      injection D as <-. apply pr_plains. repeat constructor; lia.
    + apply IH; auto. unfold fair in *. destruct G as [G|[G|G]]; [left; exact G|right; left; exact G|right; right; lia].
  - destruct (step_fair (length s) st c Bc Sh G) as [F1 F2]. destruct (utf8_step st c) as [st1 ws]. cbn [fst snd] in *.
    apply pr_app; [|apply IH; auto]. clear - F2. induction F2 as [|w ws Hw _ IH]; [constructor|]. cbn [flat_map]. apply pr_app; [apply code_printable; exact Hw|exact IH].
Qed.
Definition any_text (s : bytes) : Prop := is_bytes s /\ Z.of_nat (length s) < 2 ^ 32.
Lemma any_string : forall s, any_text s -> printable (write_string true s).
Proof.
  intros s [B Sh]. unfold write_string. apply pr_one; [reflexivity|]. apply pr_app; [|apply pr_one; [reflexivity|constructor]].
  apply body_printable; auto. right; left; reflexivity.
Qed.
Lemma any_printable : forall E v, read_form plain_form v -> made_of any_text no_double v -> printable (ser E true v).
Proof.
  intros E. induction v as [| |b|n|e s|l IH|d l IH] using value_ind'; intros H M.
  - inversion H.
  - apply pr_plains. repeat constructor; lia.
  - destruct b; apply pr_plains; repeat constructor; lia.
  - assert (D : doc_ok true (VNum n)).
    { apply reread_doc; [exact H|]. inversion M; subst. constructor. assumption. }
    exact (ser_printable E true _ D).
  - inversion H; subst. inversion M; subst. cbn [ser]. apply any_string. assumption.
  - cbn [ser]. apply pr_one; [reflexivity|]. apply pr_app; [|apply pr_one; [reflexivity|constructor]].
    apply pr_commas. apply Forall_map. rewrite Forall_forall in *. intros x Hx. apply IH; [exact Hx|exact (proj2 (rf_arr_inv _ _ H x Hx))|exact (mo_arr_inv _ _ _ M x Hx)].
  - cbn [ser]. apply pr_one; [reflexivity|]. apply pr_app; [|apply pr_one; [reflexivity|constructor]].
    apply pr_commas. apply Forall_map. rewrite Forall_forall in *. intros x Hx. destruct (mo_obj_inv _ _ _ _ M x Hx) as [M1 M2].
    apply pr_app; [apply any_string; exact M1|]. apply pr_one; [reflexivity|]. apply IH; [exact Hx|exact (rf_obj_inv _ _ _ H x Hx)|exact M2].
Qed.
Lemma pack_any : forall L E s v, from_stream L (mkPF false false) s = Ok v ->
  made_of (fun t => is_bytes t /\ Z.of_nat (length t) < 2 ^ 32) no_double v ->
  exists o d, json_pack L E s = Writes o /\
    decompress_calls 128 (S (length (ser E true v))) d_init o = COk (ser E true v ++ [255], d, []).
Proof.
  intros L E s v H M. destruct (stream_inv _ _ _ _ H) as (r & P).
  pose proof (parse_form L tool_flags plain_form (fun r n r' => plain_num_form L tool_flags r n r' eq_refl) _ v r P) as Fm.
  destruct (round_trip tool_ext tool_mask _ (any_printable E v Fm M)) as (o & d & C & K). exists o, d.
  unfold json_pack. fold tool_flags in H. rewrite H, C. split; [reflexivity|exact K].
Qed.
