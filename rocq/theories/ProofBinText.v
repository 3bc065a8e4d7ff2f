(** Proofs for C105. *)
From Coq Require Import ZifyBool.
From Verif Require Import Base ModelUtf8 SpecUtf8 ProofUtf8 ModelKeyed SpecKeyed ModelValue ProofValue ModelText SpecText
  ProofText1 SpecAccept ProofAccept ProofAccept2 ProofAccept3 ModelEnc SpecEnc ProofEnc SpecBinText.
Local Open Scope Z_scope.
Ltac Zify.zify_post_hook ::= Z.div_mod_to_equations.

(** *** The writer from any state *)
Fixpoint wb_st (st : ustate) (t : bytes) : ustate :=
  match t with
  | [] => st
  | c :: t => match write_direct c with Some _ => wb_st st t | None => wb_st (fst (utf8_step st c)) t end
  end.
Lemma write_body_app : forall utf8 a st b, write_body utf8 st (a ++ b) = write_body utf8 st a ++ write_body utf8 (wb_st st a) b.
Proof.
  induction a as [|c a IH]; intros st b; cbn [app write_body wb_st]; [reflexivity|].
  destruct (write_direct c); [rewrite IH, app_assoc; reflexivity|]. destruct (utf8_step st c) as [st1 ws]. cbn [fst]. rewrite IH, app_assoc. reflexivity.
Qed.
Lemma wb_st_app : forall a st b, wb_st st (a ++ b) = wb_st (wb_st st a) b.
Proof. induction a as [|c a IH]; intros st b; cbn [app wb_st]; [reflexivity|]. destruct (write_direct c); apply IH. Qed.

(** The text of one byte of data. *)
Definition byte_text (utf8 : bool) (c : Z) : bytes := write_body utf8 u_init (utf8_bytes c).
Lemma low_bytes : forall c, c < 128 -> utf8_bytes c = [c].
Proof. intros c H. unfold utf8_bytes. replace (c <? 0x80) with true by lia. reflexivity. Qed.
Lemma high_bytes : forall c, 128 <= c < 256 -> utf8_bytes c = [192 + c / 64; 128 + c mod 64].
Proof. intros c H. unfold utf8_bytes. replace (c <? 0x80) with false by lia. replace (c <? 0x800) with true by lia. reflexivity. Qed.
Lemma low_text : forall utf8 st c, 0 <= c < 128 -> write_body utf8 st [c] = byte_text utf8 c.
Proof.
  intros utf8 st c H. unfold byte_text. rewrite low_bytes by lia. cbn [write_body]. destruct (write_direct c); [reflexivity|].
  pose proof (step_ascii false st c H) as E1. pose proof (step_ascii false u_init c H) as E2. cbn [as_source] in E1, E2. rewrite E1, E2. reflexivity.
Qed.
Lemma direct_high : forall c, 128 <= c -> write_direct c = None.
Proof.
  intros c H. unfold write_direct. replace ((c =? 92) || (c =? 34)) with false by lia. replace (c =? 12) with false by lia. replace (c =? 8) with false by lia.
  replace (c =? 13) with false by lia. replace (c =? 10) with false by lia. replace (c =? 9) with false by lia. replace ((c <? 32) || (128 <=? c)) with true by lia. reflexivity.
Qed.
Lemma lead_step : forall st x, 2 <= x < 4 -> utf8_step st (192 + x) = (mkU x 1, []).
Proof. intros st x H. assert (x = 2 \/ x = 3) as [->| ->] by lia; reflexivity. Qed.
Lemma lead_body : forall utf8 st c, 128 <= c < 256 -> write_body utf8 st [192 + c / 64] = [] /\ wb_st st [192 + c / 64] = mkU (c / 64) 1.
Proof.
  intros utf8 st c H. cbn [write_body wb_st]. rewrite direct_high by lia. rewrite lead_step by lia. split; reflexivity.
Qed.
Lemma tail_body : forall utf8 c, 128 <= c < 256 -> write_body utf8 (mkU (c / 64) 1) [128 + c mod 64] = byte_text utf8 c.
Proof.
  intros utf8 c H. unfold byte_text. rewrite high_bytes by lia. change [192 + c / 64; 128 + c mod 64] with ([192 + c / 64] ++ [128 + c mod 64]).
  rewrite write_body_app. destruct (lead_body utf8 u_init c H) as [-> ->]. reflexivity.
Qed.
(** A continuation byte at the start of a block. *)
Lemma orphan_body : forall utf8 x, 0 <= x < 64 -> write_body utf8 u_init [128 + x] = [].
Proof.
  intros utf8 x H. cbn [write_body]. rewrite direct_high by lia. unfold utf8_step.
  replace (Z.land (128 + x) 192 =? 128) with true.
  - cbn [u_init uchar pend]. change (u32 (0 - 1) =? 0) with false. reflexivity.
  - symmetry. assert (E : (forallb (fun y => Z.land (128 + y) 192 =? 128) (map Z.of_nat (seq 0 64))) = true) by (vm_compute; reflexivity).
    rewrite forallb_forall in E. apply E. apply in_map_iff. exists (Z.to_nat x). split; [lia|]. apply in_seq. lia.
Qed.

(** *** Blocks *)
Fixpoint chunked (utf8 : bool) (st : ustate) (n : nat) (s : bytes) : bytes :=
  match s with
  | [] => []
  | c :: s => write_body utf8 st [c] ++ (if (S n =? 256)%nat then chunked utf8 u_init 0 s else chunked utf8 (wb_st st [c]) (S n) s)
  end.
Lemma blocks_text : forall utf8 s buff, flat_map (write_string_body utf8) (blocks s buff) =
  write_body utf8 u_init buff ++ chunked utf8 (wb_st u_init buff) (length buff) s.
Proof.
  intros utf8. induction s as [|c s IH]; intros buff; cbn [blocks].
  - destruct buff; [reflexivity|]. cbn [flat_map chunked]. rewrite !app_nil_r. reflexivity.
  - cbn [chunked]. rewrite app_length. cbn [length]. rewrite Nat.add_1_r. destruct (S (length buff) =? 256)%nat eqn:E.
    + cbn [flat_map]. rewrite IH. unfold write_string_body. rewrite write_body_app, <- app_assoc. reflexivity.
    + rewrite IH, app_length. cbn [length]. rewrite Nat.add_1_r, write_body_app, <- app_assoc, wb_st_app. reflexivity.
Qed.
Lemma chunked_kept : forall utf8 data st n p, is_bytes data -> (n < 256)%nat -> p mod 256 = Z.of_nat n ->
  chunked utf8 st n (utf8_encode data) = flat_map (byte_text utf8) (kept p data).
Proof.
  intros utf8. induction data as [|c data IH]; intros st n p Hb Hn Hp; [reflexivity|]. inversion_clear Hb as [|? ? Hc Hd]. unfold is_byte in Hc.
  change (utf8_encode (c :: data)) with (utf8_bytes c ++ utf8_encode data). cbn [kept].
  destruct (c <? 128) eqn:E.
  - rewrite low_bytes by lia. cbn [app chunked flat_map]. rewrite low_text by lia. f_equal.
    destruct (S n =? 256)%nat eqn:En; apply IH; auto; try lia.
  - rewrite high_bytes by lia. cbn [app chunked].
    destruct (lead_body utf8 st c ltac:(lia)) as [L1 L2]. rewrite L1, L2. cbn [app].
    destruct (S n =? 256)%nat eqn:En.
    + replace (p mod 256 =? 255) with true by lia. rewrite orphan_body by lia. cbn [app].
      change (1 =? 256)%nat with false. cbv iota. apply IH; auto; lia.
    + replace (p mod 256 =? 255) with false by lia. rewrite tail_body by lia. cbn [flat_map]. f_equal.
      destruct (S (S n) =? 256)%nat eqn:En2; apply IH; auto; lia.
Qed.
Lemma whole_text : forall utf8 data st, is_bytes data -> write_body utf8 st (utf8_encode data) = flat_map (byte_text utf8) data.
Proof.
  intros utf8. induction data as [|c data IH]; intros st Hb; [reflexivity|]. inversion_clear Hb as [|? ? Hc Hd]. unfold is_byte in Hc.
  change (utf8_encode (c :: data)) with (utf8_bytes c ++ utf8_encode data). cbn [flat_map].
  destruct (Z_lt_le_dec c 128) as [L|L].
  - rewrite low_bytes by lia. rewrite write_body_app, low_text by lia. f_equal. apply IH, Hd.
  - rewrite high_bytes by lia. change [192 + c / 64; 128 + c mod 64] with ([192 + c / 64] ++ [128 + c mod 64]). rewrite <- app_assoc, write_body_app.
    destruct (lead_body utf8 st c ltac:(lia)) as [-> ->]. cbn [app]. change (128 + c mod 64 :: utf8_encode data) with ([128 + c mod 64] ++ utf8_encode data).
    rewrite write_body_app, tail_body by lia. f_equal. apply IH, Hd.
Qed.
Lemma kept_bytes : forall s p, is_bytes s -> is_bytes (kept p s).
Proof.
  induction s as [|c s IH]; intros p H; [constructor|]. inversion_clear H as [|? ? Hc Hs]. cbn [kept].
  destruct (c <? 128); [constructor; auto; apply IH, Hs|]. destruct (p mod 256 =? 255); [apply IH, Hs|constructor; auto; apply IH, Hs].
Qed.
Lemma bytes_cp : forall s, is_bytes s -> Forall is_cp s.
Proof. intros s H. eapply Forall_impl; [|exact H]. unfold is_byte, is_cp. cbv beta. intros; lia. Qed.
Lemma blocks_concat : forall s b, concat (blocks s b) = b ++ s.
Proof.
  induction s as [|c s IH]; intros b; cbn [blocks].
  - destruct b; [reflexivity|]. cbn [concat]. reflexivity.
  - destruct (length (b ++ [c]) =? 256)%nat; [cbn [concat]; rewrite IH, <- app_assoc; reflexivity|rewrite IH, <- app_assoc; reflexivity].
Qed.
(** ASCII pieces. *)
Lemma ascii_pieces : forall utf8 l, Forall (Forall (fun c => 0 <= c < 128)) l -> flat_map (write_string_body utf8) l = write_string_body utf8 (concat l).
Proof.
  intros utf8 l H. assert (A : forall t st b, Forall (fun c => 0 <= c < 128) t -> write_body utf8 st (t ++ b) = write_body utf8 u_init t ++ write_body utf8 st b).
  { induction t as [|c t IH]; intros st b Ht; [reflexivity|]. inversion_clear Ht as [|? ? Hc Ht']. cbn [app write_body].
    destruct (write_direct c); [rewrite IH, app_assoc by assumption; reflexivity|].
    pose proof (step_ascii false st c Hc) as E1. pose proof (step_ascii false u_init c Hc) as E2. cbn [as_source] in E1, E2. rewrite E1, E2.
    rewrite IH, app_assoc by assumption. reflexivity. }
  unfold write_string_body. induction H as [|t l Ht _ IH]; [reflexivity|]. cbn [flat_map concat]. rewrite A by exact Ht. rewrite IH. reflexivity.
Qed.
Lemma forall_concat : forall (P : Z -> Prop) l, Forall P (concat l) -> Forall (Forall P) l.
Proof. induction l as [|t l IH]; intros H; [constructor|]. cbn [concat] in H. apply Forall_app in H as [H1 H2]. constructor; auto. Qed.
Lemma ascii_enc : forall e s, is_bytes s -> e <> EncUtf8 -> Forall (fun c => 0 <= c < 128) (concat (encode_chunks e s)).
Proof.
  intros e s Hs He. destruct e; cbn [encode_chunks]; [| | |contradiction].
  - destruct (b64_shape s Hs) as (b & -> & Hb & _). apply Forall_app. split.
    + eapply Forall_impl; [|exact Hb]. unfold b64_letter, letter_or_digit. cbv beta. intros; lia.
    + apply Forall_forall. intros c Hc. apply repeat_spec in Hc. lia.
  - eapply Forall_impl; [|apply b64url_letters, Hs]. unfold b64url_letter, letter_or_digit. cbv beta. intros; lia.
  - clear He. pose proof (url_encode_percent s Hs) as P. revert Hs. induction P as [|c s t Hu _ IH|c s t Hu _ IH]; intros Hs; [constructor| |].
    + inversion_clear Hs. constructor; [|auto]. unfold unreserved, letter_or_digit in Hu. cbn in Hu. lia.
    + inversion_clear Hs as [|? ? Hc Hs']. unfold is_byte in Hc. unfold hex_digit. constructor; [lia|]. constructor; [destruct (c / 16 <? 10) eqn:?; lia|].
      constructor; [destruct (c mod 16 <? 10) eqn:?; lia|auto].
Qed.
(** *** What is written *)
Lemma binary_text : forall utf8 e s, is_bytes s ->
  flat_map (write_string_body utf8) (encode_chunks e s) = write_string_body utf8 (concat (encode_chunks e (carried e s))).
Proof.
  intros utf8 e s Hs. destruct e; cbn [carried]; try (apply ascii_pieces, forall_concat, ascii_enc; [exact Hs|discriminate]).
  cbn [encode_chunks]. unfold utf8_encode_blocks. rewrite blocks_text, blocks_concat. cbn [write_body app wb_st length].
  rewrite !wide_to_utf8_spec by (apply bytes_cp; try apply kept_bytes; exact Hs).
  unfold write_string_body. rewrite whole_text by (apply kept_bytes, Hs). apply chunked_kept; [exact Hs|lia|reflexivity].
Qed.
Lemma document_text : forall E utf8 v, (forall e s, se_binary E e s = encode_chunks e s) -> bin_bytes v -> ser E utf8 v = ser E utf8 (as_text v).
Proof.
  intros E utf8 v HE. induction v as [| |b|n|e s|l IH|d l IH] using value_ind'; intros H; try reflexivity.
  - destruct e as [e|]; [|reflexivity]. cbn [ser as_text]. rewrite HE. inversion H; subst; [|contradiction]. rewrite binary_text by assumption. reflexivity.
  - cbn [ser as_text]. rewrite map_map. cbn [snd]. do 3 f_equal. apply map_ext_in. intros m Hm. rewrite Forall_forall in IH. apply IH; [exact Hm|].
    inversion H; subst; [|contradiction]. rewrite Forall_forall in H1. auto.
  - cbn [ser as_text]. rewrite map_map. cbn [fst snd]. do 3 f_equal. apply map_ext_in. intros m Hm. do 2 f_equal. rewrite Forall_forall in IH. apply IH; [exact Hm|].
    inversion H; subst; [|contradiction]. rewrite Forall_forall in H1. auto.
Qed.

(** *** What is read *)
Lemma jstr_denotes : forall sg s b, jstr s b -> denotes sg s (map (as_source sg) b).
Proof.
  intros sg. assert (A : forall c, 0 <= c < 128 -> as_source sg c = c) by (intros c Hc; apply as_source_low; lia).
  induction 1 as [|c s b H1 H2 H3 H4 _ IH|e x s b He _ IH|a b c d va vb vc vd s t Ha Hb Hc Hd _ IH].
  - constructor.
  - rewrite map_app. constructor; auto.
  - cbn [map]. assert (as_source sg 92 = 92) as -> by (apply A; lia). assert (as_source sg e = e) as ->.
    { apply A. cbn in He. repeat (destruct He as [He|He]; [injection He as <- _; lia|]). contradiction. }
    constructor; auto.
  - cbn [map]. assert (X : forall y v, hex_char y v -> as_source sg y = y) by (intros y v Hy; apply A; unfold hex_char in Hy; lia).
    rewrite (X a va), (X b vb), (X c vc), (X d vd) by assumption. assert (as_source sg 92 = 92) as -> by (apply A; lia). assert (as_source sg 117 = 117) as -> by (apply A; lia).
    apply (dn_hex sg a b c d va vb vc vd); auto; left; assumption.
Qed.
Lemma carried_bytes : forall e s, is_bytes s -> is_bytes (carried e s).
Proof. intros e s H. destruct e; cbn [carried]; auto. apply kept_bytes, H. Qed.
Lemma chunks_cp : forall e s, is_bytes s -> exists cs, Forall (fun c => 0 <= c < 256) cs /\ concat (encode_chunks e s) = utf8_encode cs.
Proof.
  intros e s Hs. destruct (match e with EncUtf8 => true | _ => false end) eqn:E.
  - destruct e; try discriminate. exists s. split; [exact Hs|]. cbn [encode_chunks]. unfold utf8_encode_blocks. rewrite blocks_concat. cbn [app].
    apply wide_to_utf8_spec, bytes_cp, Hs.
  - assert (A : Forall (fun c => 0 <= c < 128) (concat (encode_chunks e s))) by (apply ascii_enc; [exact Hs|intros ->; discriminate]).
    exists (concat (encode_chunks e s)). split; [eapply Forall_impl; [|exact A]; cbv beta; intros; lia|].
    induction A as [|c t Hc _ IH]; [reflexivity|]. change (utf8_encode (c :: t)) with (utf8_bytes c ++ utf8_encode t). rewrite low_bytes by lia. cbn [app]. f_equal. exact IH.
Qed.
Lemma chunks_value : forall e s, is_bytes s -> get_binary e (VStr None (concat (encode_chunks e s))) = Some s.
Proof.
  intros e s Hs. destruct e.
  - destruct (base64_value s Hs) as (t & E & _ & G). injection E as E. subst t. exact G.
  - destruct (base64url_value s Hs) as (t & E & _ & G). injection E as E. subst t. exact G.
  - destruct (url_value s Hs) as (t & E & _ & G). injection E as E. subst t. exact G.
  - destruct (utf8_value s Hs) as (t & E & _ & _ & G). injection E as E. subst t. exact G.
Qed.
Lemma small_not_inf : forall cs, Forall (fun c => 0 <= c < 256) cs -> utf8_encode cs <> word_inf /\ utf8_encode cs <> word_neg_inf.
Proof.
  intros cs H. assert (N : Forall (fun b => b < 224) (utf8_encode cs)).
  { induction H as [|c cs Hc _ IH]; [constructor|]. change (utf8_encode (c :: cs)) with (utf8_bytes c ++ utf8_encode cs). apply Forall_app. split; [|exact IH].
    destruct (Z_lt_le_dec c 128); [rewrite low_bytes by lia; repeat constructor; lia|rewrite high_bytes by lia; repeat constructor; lia]. }
  rewrite Forall_forall in N. split; intros E; rewrite E in N; specialize (N 0xE2); cbn in N; lia.
Qed.
Lemma binary_read : forall L E F sg utf8 e s w rest, (forall e s, se_binary E e s = encode_chunks e s) -> is_bytes s -> spaces w -> num_end rest ->
  exists t r', parse_source L F (w ++ map (as_source sg) (ser E utf8 (VStr (Some e) s)) ++ rest) = Ok (VStr None t, r') /\ at_pos r' rest /\
    get_binary e (VStr None t) = Some (carried e s).
Proof.
  intros L E F sg utf8 e s w rest HE Hs Hw Hr. cbn [ser]. rewrite HE, binary_text by exact Hs.
  set (t := concat (encode_chunks e (carried e s))). destruct (chunks_cp e (carried e s) (carried_bytes e s Hs)) as (cs & Hcs & Et). fold t in Et.
  assert (Ht : text_ok utf8 t). { exists cs. split; [|exact Et]. eapply Forall_impl; [|exact Hcs]. unfold cp_ok, is_cp. cbv beta. intros c Hc. destruct utf8; lia. }
  destruct (small_not_inf cs Hcs) as [N1 N2]. rewrite <- Et in N1, N2.
  pose proof (jstr_denotes sg _ _ (write_string_body_jstr utf8 t Ht)) as Hd.
  assert (G : gval (denotes sg) (fun _ _ => False) (VStr None t) (map (as_source sg) (34 :: write_string_body utf8 t ++ [34]))).
  { cbn [map]. rewrite map_app. cbn [map]. assert (as_source sg 34 = 34) as -> by (apply as_source_low; lia). apply gv_str; auto. }
  destruct (grammar_outcome L F (denotes sg) (fun _ _ => False) (fun _ _ => False) (VStr None t) _ (denotes_read sg) ltac:(intros n x []) G) as (v1 & G1 & O).
  destruct (O w rest Hw Hr) as [P _].
  assert (V : v1 = VStr None t).
  { revert G1. cbn [map]. rewrite map_app. cbn [map]. assert (as_source sg 34 = 34) as -> by (apply as_source_low; lia). intros G1.
    inversion G1; subst; try contradiction.
    - match goal with H : _ ++ [34] = _ ++ [34] |- _ => apply app_inj_tail in H as [-> _] end. f_equal. eapply (proj2 (read_as_reads _ _ (denotes_read sg _ _ Hd))). eassumption.
    - match goal with H : _ ++ [34] = _ ++ [34] |- _ => apply app_inj_tail in H as [-> _] end. exfalso. apply N1. symmetry. eapply (proj2 (read_as_reads _ _ (denotes_read sg _ _ Hd))). eassumption.
    - match goal with H : _ ++ [34] = _ ++ [34] |- _ => apply app_inj_tail in H as [-> _] end. exfalso. apply N2. symmetry. eapply (proj2 (read_as_reads _ _ (denotes_read sg _ _ Hd))). eassumption. }
  subst v1. destruct P as (v' & r' & Ep & Sf & At).
  { right. intros D. inversion D. }
  inversion Sf; subst. exists t, r'. split; [exact Ep|]. split; [exact At|]. apply chunks_value, carried_bytes, Hs.
Qed.

(** *** When everything arrives *)
Lemma kept_length : forall s p, (length (kept p s) <= length s)%nat.
Proof. induction s as [|c s IH]; intros p; [auto|]. cbn [kept]. destruct (c <? 128); [|destruct (p mod 256 =? 255)]; cbn [length]; try pose proof (IH (p + 1)); pose proof (IH (p + 2)); lia. Qed.
Lemma kept_all : forall s p, is_bytes s ->
  kept p s = s <-> forall a c b, s = a ++ c :: b -> 128 <= c -> (p + Z.of_nat (length (utf8_encode a))) mod 256 <> 255.
Proof.
  induction s as [|x s IH]; intros p Hb.
  { split; [intros _ a c b E; destruct a; discriminate|reflexivity]. }
  inversion_clear Hb as [|? ? Hx Hs]. unfold is_byte in Hx. cbn [kept].
  assert (Step : forall k, Z.of_nat (length (utf8_bytes x)) = k -> (128 <= x -> p mod 256 <> 255) ->
    (x :: kept (p + k) s = x :: s <-> forall a c b, x :: s = a ++ c :: b -> 128 <= c -> (p + Z.of_nat (length (utf8_encode a))) mod 256 <> 255)).
  { intros k Hk Hp. split.
    - intros E a c b Ea Hc. injection E as E.
      destruct a as [|a0 a]; [cbn [app] in Ea; injection Ea as <- _; cbn; rewrite Z.add_0_r; auto|].
      cbn [app] in Ea. injection Ea as <- Ea. 
      change (utf8_encode (x :: a)) with (utf8_bytes x ++ utf8_encode a). rewrite app_length.
      pose proof (proj1 (IH (p + k) Hs) E a c b Ea Hc) as E'. rewrite Nat2Z.inj_add, Hk. replace (p + (k + Z.of_nat (length (utf8_encode a)))) with (p + k + Z.of_nat (length (utf8_encode a))) by lia. exact E'.
    - intros H. f_equal. apply (IH (p + k) Hs). intros a c b Ea Hc. specialize (H (x :: a) c b).
      change (utf8_encode (x :: a)) with (utf8_bytes x ++ utf8_encode a) in H. rewrite app_length, Nat2Z.inj_add, Hk in H.
      replace (p + k + Z.of_nat (length (utf8_encode a))) with (p + (k + Z.of_nat (length (utf8_encode a)))) by lia. apply H; [rewrite Ea; reflexivity|exact Hc]. }
  destruct (x <? 128) eqn:E.
  - apply (Step 1); [rewrite low_bytes by lia; reflexivity|lia].
  - destruct (p mod 256 =? 255) eqn:E2.
    + split.
      * intros H. exfalso. pose proof (kept_length s (p + 2)) as K. rewrite H in K. cbn [length] in K. lia.
      * intros H. exfalso. apply (H [] x s); [reflexivity|lia|]. cbn. rewrite Z.add_0_r. lia.
    + apply (Step 2); [rewrite high_bytes by lia; reflexivity|lia].
Qed.
Lemma carried_all : forall e s, is_bytes s -> carried e s = s <-> e <> EncUtf8 \/ unbroken s.
Proof.
  intros e s H. destruct e; cbn [carried]; try (split; [left; discriminate|reflexivity]).
  rewrite (kept_all s 0 H). unfold unbroken. split; [intros K; right; exact K|intros [K|K]; [contradiction|exact K]].
Qed.
Lemma encode_length : forall s, is_bytes s -> (length (utf8_encode s) <= 2 * length s)%nat.
Proof.
  induction 1 as [|c s Hc _ IH]; [auto|]. unfold is_byte in Hc. change (utf8_encode (c :: s)) with (utf8_bytes c ++ utf8_encode s). rewrite app_length.
  destruct (Z_lt_le_dec c 128); [rewrite low_bytes by lia|rewrite high_bytes by lia]; cbn [length]; lia.
Qed.
Lemma short_unbroken : forall s, is_bytes s -> (length s <= 128)%nat -> unbroken s.
Proof.
  intros s H L a c b -> Hc. unfold is_bytes in H. apply Forall_app in H as [Ha _]. pose proof (encode_length a Ha) as K. rewrite app_length in L. cbn [length] in L.
  rewrite Z.mod_small by lia. lia.
Qed.
