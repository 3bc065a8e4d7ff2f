(** What a binary parser can give, and sending it on. *)
From Coq Require Import ZifyBool.
From Verif Require Import Base ModelUtf8 ModelKeyed ModelValue ModelObject ModelEq ModelEnc ModelBin SpecEnc SpecEq SpecBin SpecWire SpecRelay
  ProofUtf8 ProofValue ProofEnc ProofFloat ProofBin ProofBin2 ProofBin3 ProofWire.
Local Open Scope Z_scope.
Ltac Zify.zify_post_hook ::= Z.div_mod_to_equations.

(** *** Doubles *)
Lemma dbl_valid : forall b, is_double (bits_dbl b).
Proof.
  intros b. unfold bits_dbl. set (s := 2 ^ 63 <=? b).
  destruct (b / 2 ^ 52 mod 2048 =? 0) eqn:E0.
  - destruct (b mod 2 ^ 52) as [|p|p] eqn:Em; try reflexivity. apply small_valid. lia.
  - destruct (b / 2 ^ 52 mod 2048 =? 2047) eqn:E1; [destruct (b mod 2 ^ 52 =? 0); reflexivity|].
    destruct (b mod 2 ^ 52 + 2 ^ 52) as [|p|p] eqn:Em; try reflexivity. apply finite_valid; [|].
    + lia.
    + assert (0 <= b / 2 ^ 52 mod 2048 < 2048) by (apply Z.mod_pos_bound; lia). lia.
Qed.
Lemma flt_valid : forall b, is_double (bits_flt b).
Proof.
  intros b. unfold bits_flt. set (s := 2 ^ 31 <=? b). cbv zeta.
  assert (N : forall m e, 0 <= m < 2 ^ 53 -> -968 <= e <= 900 -> is_double (binary_normalize fprec femax (if s then - m else m) e s)).
  { intros m e Hm He. destruct m as [|p|p]; [destruct s; reflexivity| |lia].
    destruct (round_exact s p e) as (m1 & e1 & R & V & _); [lia|lia|].
    assert (X : binary_normalize fprec femax (if s then - Z.pos p else Z.pos p) e s = binary_round fprec femax s p e) by (destruct s; reflexivity).
    rewrite X, R. exact V. }
  assert (0 <= b / 2 ^ 23 mod 256 < 256) by (apply Z.mod_pos_bound; lia).
  assert (0 <= b mod 2 ^ 23 < 2 ^ 23) by (apply Z.mod_pos_bound; lia).
  destruct (b / 2 ^ 23 mod 256 =? 0) eqn:E0; [apply N; lia|].
  destruct (b / 2 ^ 23 mod 256 =? 255) eqn:E1; [destruct (b mod 2 ^ 23 =? 0); reflexivity|]. apply N; lia.
Qed.

Lemma empty_text : received_text [].
Proof. split; [constructor|]. split; [cbn; lia|exact I]. Qed.

(** *** One parser *)
Section Received.
Variables (J : nat -> bytes) (pe : enc).
Hypothesis HJ : forall n, is_bytes (J n).
Notation item := (parse_item J (Some pe)).
Notation items := (parse_items J (Some pe)).

Definition sane (p : pstate) : Prop := is_bytes (ps_in p) /\ Forall received_text (ps_hist p).

Lemma read1_sane : forall p, sane p -> is_byte (fst (read1 p)) /\ sane (snd (read1 p)).
Proof.
  intros [s h i] [H1 H2]. unfold read1, sane in *. cbn [ps_in ps_hist] in *. destruct s as [|c s]; cbn.
  - split; [unfold is_byte; lia|]. split; auto.
  - inversion_clear H1. split; auto.
Qed.
Lemma read_n_sane : forall n p, sane p -> is_bytes (fst (read_n n p)) /\ length (fst (read_n n p)) = n /\ sane (snd (read_n n p)).
Proof.
  induction n as [|n IH]; intros p H; [cbn; repeat split; auto; [constructor|apply H|apply H]|].
  cbn [read_n]. destruct (read1_sane p H) as [H1 H2]. destruct (read1 p) as [c p1]. cbn [fst snd] in *.
  destruct (IH p1 H2) as (A & B & C). destruct (read_n n p1) as [s p2]. cbn [fst snd] in *. split; [constructor; auto|]. split; [cbn; lia|exact C].
Qed.
Lemma read_le_sane : forall n p, sane p -> 0 <= fst (read_le n p) < 256 ^ Z.of_nat n /\ sane (snd (read_le n p)).
Proof.
  intros n p H. unfold read_le. destruct (read_n_sane n p H) as (A & B & C). destruct (read_n n p) as [s p1]. cbn [fst snd] in *.
  split; [|exact C]. rewrite little_value, <- B. apply little_bound, A.
Qed.
Lemma integer_sane : forall tag p, is_byte tag -> sane p -> 0 <= fst (parse_integer tag p) < 2 ^ 64 /\ sane (snd (parse_integer tag p)).
Proof.
  intros tag p Ht H. unfold parse_integer. cbv zeta.
  assert (X : forall n, (n <= 8)%nat -> 0 <= fst (read_le n p) < 2 ^ 64 /\ sane (snd (read_le n p))).
  { intros n Hn. destruct (read_le_sane n p H) as [A B]. split; [|exact B].
    assert (256 ^ Z.of_nat n <= 256 ^ 8) by (apply Z.pow_le_mono_r; lia). change (256 ^ 8) with (2 ^ 64) in *. lia. }
  assert (Z.land tag 0xF = tag mod 16) by (change 0xF with (Z.ones 4); rewrite Z.land_ones by lia; reflexivity).
  repeat match goal with |- context [if ?b then _ else _] => destruct b end; try (apply X; lia).
  cbn [fst snd]. split; [|exact H]. unfold is_byte in Ht. lia.
Qed.

Lemma digit_plain : forall x, is_byte x -> 0 <= b64_char true (Z.land x 0x3F) < 128.
Proof.
  intros x H.
  assert (S : forallb (fun x => (0 <=? b64_char true (Z.land x 0x3F)) && (b64_char true (Z.land x 0x3F) <? 128)) (zrange 0 256) = true)
    by (vm_compute; reflexivity).
  pose proof (sweep _ 0 256 S x H) as P. cbv beta in P. lia.
Qed.
Lemma first_free : forall c, is_byte c -> (Z.land c 0xC0 =? 0x80) = false -> ~ (128 <= c < 192).
Proof.
  intros c H Hn.
  assert (S : forallb (fun c => (Z.land c 0xC0 =? 0x80) || negb ((128 <=? c) && (c <? 192))) (zrange 0 256) = true) by (vm_compute; reflexivity).
  pose proof (sweep _ 0 256 S c H) as P. cbv beta in P. lia.
Qed.
Lemma letters_bytes : forall s, is_bytes s -> is_bytes (concat (b64_encode_core true false s)).
Proof.
  intros s H. eapply Forall_impl; [|apply b64url_letters, H]. unfold b64url_letter, letter_or_digit, is_byte. cbv beta. intros; lia.
Qed.
Lemma firstn_bytes : forall k s, is_bytes s -> is_bytes (firstn k s).
Proof. induction k as [|k IH]; intros s H; [constructor|]. destruct s; [constructor|]. inversion_clear H. cbn [firstn]. constructor; auto. apply IH; auto. Qed.

Lemma string_sane : forall tag p, is_byte tag -> sane p -> exists s, fst (parse_string_bin J None tag p) = VStr None s /\
  received_text s /\ sane (snd (parse_string_bin J None tag p)).
Proof.
  intros tag p Ht H. unfold parse_string_bin. destruct (integer_sane tag p Ht H) as [A B]. destruct (parse_integer tag p) as [n p1]. cbn [fst snd] in *.
  destruct (Z.to_nat n) as [|k] eqn:Ek; [exists []; split; [reflexivity|]; split; [exact empty_text|exact B]|].
  destruct (read1_sane p1 B) as [C D]. destruct (read1 p1) as [x p2]. cbn [fst snd] in *.
  destruct (Z.land x 0xC0 =? 0x80) eqn:E.
  - cbv zeta. set (cnt := ((k * 3 + 3) / 4)%nat). destruct (read_n_sane cnt p2 D) as (G & _ & I). destruct (read_n cnt p2) as [buf p3]. cbn [fst snd] in *.
    eexists. split; [reflexivity|]. split; [|exact I].
    assert (is_bytes (concat (b64_encode_core true false (buf ++ J (S k - cnt)%nat)))) as X by (apply letters_bytes, Forall_app; split; auto; apply HJ).
    pose proof (digit_plain x C) as Y.
    split; [constructor; [unfold is_byte; lia|apply firstn_bytes, X]|]. split; [|lia].
    cbn [length]. pose proof (firstn_le_length k (concat (b64_encode_core true false (buf ++ J (S k - cnt)%nat)))). lia.
  - destruct (read_n_sane k p2 D) as (G & K & I). destruct (read_n k p2) as [s p3]. cbn [fst snd] in *.
    exists (x :: s). split; [reflexivity|]. split; [|exact I]. split; [constructor; auto|]. split; [cbn [length]; lia|]. apply first_free; auto.
Qed.
Lemma binary_sane : forall tag p, is_byte tag -> sane p -> received pe (fst (parse_string_bin J (Some pe) tag p)) /\ sane (snd (parse_string_bin J (Some pe) tag p)).
Proof.
  intros tag p Ht H. unfold parse_string_bin. destruct (integer_sane tag p Ht H) as [A B]. destruct (parse_integer tag p) as [n p1]. cbn [fst snd] in *.
  destruct (Z.to_nat n) as [|k] eqn:Ek; [split; [exact empty_text|exact B]|].
  destruct (read_n_sane (S k) p1 B) as (G & K & I). destruct (read_n (S k) p1) as [s p2]. cbn [fst snd received] in *.
  split; [|exact I]. split; [reflexivity|]. split; [destruct s; [discriminate|discriminate]|]. split; [exact G|lia].
Qed.
Lemma store_sane : forall p k, sane p -> received_text k -> sane (store_key p k).
Proof.
  intros p k [A B] Hk. unfold store_key. cbv zeta. split; cbn [ps_in ps_hist]; [exact A|].
  destruct (length (ps_hist p) =? _)%nat; [apply Forall_app; split; auto|].
  set (n := Z.to_nat _). clearbody n. rewrite <- (firstn_skipn n (ps_hist p)) in B. apply Forall_app in B as [B1 B2].
  apply Forall_app. split; [exact B1|]. constructor; [exact Hk|].
  assert (X : forall (l : list bytes) m, Forall received_text (skipn m l) -> Forall received_text (skipn (S m) l)).
  { induction l as [|y l IH]; intros m Hl; [constructor|]. destruct m as [|m]; [cbn in *; inversion Hl; auto|]. cbn [skipn] in *. apply IH, Hl. }
  apply X, B2.
Qed.
Lemma history_sane : forall p tag, sane p -> received_text (history_key p tag).
Proof.
  intros p tag [_ B]. unfold history_key. set (n := Z.to_nat _). clearbody n. destruct (nth_in_or_default n (ps_hist p) []) as [H|H].
  - rewrite Forall_forall in B. apply B, H.
  - rewrite H. exact empty_text.
Qed.

Definition all_received : list member -> Prop :=
  fix all (l : list (bytes * value)) : Prop :=
    match l with
    | [] => True
    | x :: l' => received_text (fst x) /\ received pe (snd x) /\ all l'
    end.

Lemma double_received : forall f, is_double f -> received pe (value_of_double f).
Proof. intros f H. unfold value_of_double. destruct f; cbn; try (split; [exact H|discriminate]). lia. Qed.
Lemma negative_received : forall n, 0 <= n < 2 ^ 64 -> received pe (value_of_int (- s64 n)).
Proof.
  intros n H. unfold value_of_int, s64. rewrite Z.mod_small by lia. cbv zeta.
  destruct (n <? 2 ^ 63) eqn:E; match goal with |- context [if ?b then _ else _] => destruct b eqn:E0 end; cbn; lia.
Qed.

Lemma classify_sane : forall tag p1, is_byte tag -> sane p1 ->
  match classify J (Some pe) tag p1 with
  | SLeaf v p => received pe v /\ sane p
  | SItems mk n p => (mk = VArr \/ exists d, mk = VObj d) /\ 0 <= n < 2 ^ 64 /\ sane p
  | SItem k p => received_text k /\ sane p
  | SErr => True
  end.
Proof.
  intros tag p1 Ht H. unfold classify. cbv zeta.
  destruct (Z.land tag 0xF0 =? 0).
  { destruct (tag =? op_null); [split; [exact I|exact H]|]. destruct (tag =? op_false); [split; [exact I|exact H]|].
    destruct (tag =? op_true); [split; [exact I|exact H]|]. destruct (tag =? op_undefined); [split; [exact I|exact H]|].
    destruct (tag =? op_double).
    { destruct (read_le_sane 8 p1 H) as [_ X]. destruct (read_le 8 p1) as [b p2]. split; [apply double_received, dbl_valid|exact X]. }
    destruct (tag =? op_float).
    { destruct (read_le_sane 4 p1 H) as [_ X]. destruct (read_le 4 p1) as [b p2]. split; [apply double_received, flt_valid|exact X]. }
    destruct (tag =? op_diff); [|exact I]. destruct (read1_sane p1 H) as [X Y]. destruct (read1 p1) as [op p2]. cbn [fst snd] in *.
    destruct (Z.land op 0xF0 =? op_object); [|exact I]. destruct (integer_sane op p2 X Y) as [A B]. destruct (parse_integer op p2) as [n p3].
    split; [right; eauto|]. split; auto. }
  destruct (Z.land tag 0xF0 =? op_array).
  { destruct (integer_sane tag p1 Ht H) as [A B]. destruct (parse_integer tag p1). split; [left; reflexivity|]. split; auto. }
  destruct (Z.land tag 0xF0 =? op_object).
  { destruct (integer_sane tag p1 Ht H) as [A B]. destruct (parse_integer tag p1). split; [right; eauto|]. split; auto. }
  destruct (Z.land tag 0xF0 =? op_string).
  { destruct (string_sane tag p1 Ht H) as (s & E & Hs & Hp). destruct (parse_string_bin J None tag p1) as [v p2]. cbn [fst snd] in *. subst v. split; auto. }
  destruct (Z.land tag 0xF0 =? op_binstring); [apply binary_sane; auto|].
  destruct (Z.land tag 0xF0 =? op_posint).
  { destruct (integer_sane tag p1 Ht H) as [A B]. destruct (parse_integer tag p1). split; auto. }
  destruct (Z.land tag 0xF0 =? op_negint).
  { destruct (integer_sane tag p1 Ht H) as [A B]. destruct (parse_integer tag p1). split; [apply negative_received; auto|auto]. }
  destruct (Z.land tag 0xF0 =? op_key).
  { destruct (string_sane tag p1 Ht H) as (s & E & Hs & Hp). destruct (parse_string_bin J None tag p1) as [v p2]. cbn [fst snd] in *. subst v.
    cbn [str_content]. split; [exact Hs|]. apply store_sane; auto. }
  split; [apply history_sane; auto|exact H].
Qed.

Lemma parsed_sane : forall f,
  (forall p m p', sane p -> item f p = Ok (m, p') -> received_text (fst m) /\ received pe (snd m) /\ sane p') /\
  (forall n p l p', sane p -> items f n p = Ok (l, p') -> all_received l /\ (0 <= n -> Z.of_nat (length l) = n) /\ sane p').
Proof.
  induction f as [|f [IH1 IH2]]; [split; intros; discriminate|]. split.
  - intros [s h i] m p' H E. destruct s as [|tag s]; [rewrite past_end in E; discriminate|]. rewrite item_step in E.
    destruct H as [H1 H2]. cbn [ps_in ps_hist] in *. inversion_clear H1 as [|? ? Ht Hs].
    assert (S1 : sane (mkPS s h i)) by (split; auto). pose proof (classify_sane tag _ Ht S1) as C.
    assert (received_text []) as R0 by exact empty_text.
    destruct (classify J (Some pe) tag (mkPS s h i)) as [v p| |mk n p|k p].
    + inversion E; subst. cbn [fst snd]. split; [exact R0|exact C].
    + discriminate.
    + destruct C as (C1 & C2 & C3). destruct (items f n p) as [[l p3]| |] eqn:Ei; try discriminate. cbn [bind] in E. inversion E; subst.
      destruct (IH2 _ _ _ _ C3 Ei) as (A & B & C). cbn [fst snd]. split; [exact R0|]. split; [|exact C].
      destruct C1 as [->|[d ->]]; (split; [rewrite B by lia; lia|exact A]).
    + destruct C as [C1 C2]. destruct (item f p) as [[m1 p3]| |] eqn:Ei; try discriminate. cbn [bind] in E. inversion E; subst.
      destruct (IH1 _ _ _ C2 Ei) as (_ & A & B). cbn [fst snd]. auto.
  - intros n p l p' H E. rewrite items_step in E. destruct (n <=? 0) eqn:En.
    + inversion E; subst. split; [exact I|]. split; [cbn; lia|exact H].
    + destruct (item f p) as [[m p1]| |] eqn:Ei; try discriminate. cbn [bind] in E. destruct (IH1 _ _ _ H Ei) as (A & B & C).
      destruct (items f (n - 1) p1) as [[l1 p2]| |] eqn:El; try discriminate. cbn [bind] in E. inversion E; subst.
      destruct (IH2 _ _ _ _ C El) as (A1 & B1 & C1). split; [split; [exact A|split; [exact B|exact A1]]|]. split; [|exact C1].
      intros _. cbn [length]. specialize (B1 ltac:(lia)). lia.
Qed.

Lemma session_sane : forall ops p l p', sane p -> Forall received_text (preloaded ops) -> read_session J (Some pe) ops p = Ok (l, p') ->
  Forall (fun m => received_text (fst m) /\ received pe (snd m)) l.
Proof.
  induction ops as [|[m|k|] ops IH]; intros p l p' H Hk E; cbn [read_session preloaded] in *.
  - inversion E. constructor.
  - destruct (item (bin_fuel (ps_in p)) p) as [[m1 p1]| |] eqn:Ei; try discriminate. cbn [bind] in E.
    destruct (proj1 (parsed_sane _) _ _ _ H Ei) as (A & B & C).
    destruct (read_session J (Some pe) ops p1) as [[l1 p2]| |] eqn:El; try discriminate. cbn [bind] in E. inversion E; subst.
    constructor; [auto|]. eapply IH; eauto.
  - inversion_clear Hk. eapply IH; [|eassumption|exact E]. apply store_sane; auto.
  - eapply IH; [|exact Hk|exact E]. destruct H as [A B]. split; [exact A|constructor].
Qed.
End Received.

(** *** Sending on *)
Lemma received_carried : forall L F pe v, bf_32 F = false -> received pe v -> no_overflow v -> bin_ok L F v.
Proof.
  intros L F pe v HF. assert (HL : size_limit F = 2 ^ 64) by (unfold size_limit; rewrite HF; reflexivity).
  assert (G : forall l, Forall (fun m => received pe (snd m) -> no_overflow (snd m) -> bin_ok L F (snd m)) l ->
    all_received pe l -> (fix all (l : list (bytes * value)) : Prop := match l with [] => True | x :: l' => no_overflow (snd x) /\ all l' end) l -> all_ok L F l).
  { induction 1 as [|x l Hx _ IH]; intros H1 H2; [exact I|]. cbn in H1, H2. destruct H1 as (A & B & C). destruct H2 as [D E].
    split; [unfold bin_text; rewrite HL; exact A|]. split; [apply Hx; auto|]. apply IH; auto. }
  induction v as [| |b|n|e s|l IH|d l IH] using value_ind'; intros H1 H2; cbn [received no_overflow bin_ok] in *; try exact I.
  - destruct n as [z|z|g|t k]; cbn in *; try tauto; lia.
  - destruct e as [e|]; [|unfold bin_text; rewrite HL; exact H1]. rewrite HL. destruct H1 as (_ & _ & A & B). auto.
  - rewrite HL. destruct H1 as [A B]. split; [exact A|]. apply (G l IH B H2).
  - rewrite HL. destruct H1 as [A B]. split; [exact A|]. apply (G l IH B H2).
Qed.
Lemma received_decoded : forall L F pe pe2 v, bf_32 F = false -> received pe v -> decoded L F pe2 v = relayed pe2 v.
Proof.
  intros L F pe pe2 v HF.
  assert (G : forall l, Forall (fun m => received pe (snd m) -> decoded L F pe2 (snd m) = relayed pe2 (snd m)) l ->
    all_received pe l -> map (fun x : member => (fst x, decoded L F pe2 (snd x))) l = map (fun x => (fst x, relayed pe2 (snd x))) l).
  { induction 1 as [|x l Hx _ IH]; intros H1; [reflexivity|]. cbn in H1. destruct H1 as (A & B & C). cbn [map]. rewrite Hx by auto. f_equal. apply IH; auto. }
  induction v as [| |b|n|e s|l IH|d l IH] using value_ind'; intros H1; cbn [received decoded relayed] in *; try reflexivity.
  - f_equal. destruct n as [z|z|g|t k]; cbn [decoded_num relayed_num]; rewrite ?HF; cbn [andb].
    + unfold decoded_int. cbn in H1. replace (z <? 0) with false by lia. reflexivity.
    + reflexivity.
    + unfold decoded_double. destruct g; try reflexivity. destruct H1 as [_ H1]. exfalso. eapply H1. reflexivity.
    + contradiction.
  - destruct e as [e|]; [|reflexivity]. destruct s; [|reflexivity]. exfalso. tauto.
  - f_equal. apply G; tauto.
  - f_equal. apply G; tauto.
Qed.

Lemma sent_sends : forall l, sent (map BSend l) = l.
Proof. induction l as [|m l IH]; [reflexivity|]. cbn. rewrite IH. reflexivity. Qed.
Lemma fresh_sends : forall l used, fresh_preloads used (map BSend l) .
Proof. induction l as [|m l IH]; intros used; [exact I|]. cbn. apply IH. Qed.

Lemma relay_ok : forall J J2 L F pe pe2 ops s l p rest, (forall n, is_bytes (J n)) -> (forall n, is_bytes (J2 n)) -> bf_32 F = false -> is_bytes s ->
  Forall received_text (preloaded ops) -> read_session J (Some pe) ops (ps_init s) = Ok (l, p) -> Forall (fun m => no_overflow (snd m)) l ->
  session_keys (map BSend l) < 2 ^ 32 - 256 ->
  exists p', read_session J2 (Some pe2) (map BSend l) (ps_init (fst (write_session L F (map BSend l) ws_init) ++ rest)) =
    Ok (map (fun m => (fst m, relayed pe2 (snd m))) l, p') /\ ps_in p' = rest.
Proof.
  intros J J2 L F pe pe2 ops s l p rest HJ HJ2 HF Hs Hk E Ho Hn.
  assert (R : Forall (fun m => received_text (fst m) /\ received pe (snd m)) l).
  { eapply session_sane; [exact HJ| |exact Hk|exact E]. split; [exact Hs|constructor]. }
  assert (HL : size_limit F = 2 ^ 64) by (unfold size_limit; rewrite HF; reflexivity).
  destruct (session_ok J2 L F pe2 (map BSend l) rest HJ2) as (p' & E' & Ep).
  - rewrite sent_sends. rewrite Forall_forall in *. intros m Hm. destruct (R m Hm) as [A B]. split; [unfold bin_text; rewrite HL; exact A|].
    eapply received_carried; eauto.
  - apply fresh_sends.
  - exact Hn.
  - exists p'. split; [|exact Ep]. rewrite E', sent_sends. f_equal. f_equal. apply map_ext_in. intros m Hm. f_equal. rewrite Forall_forall in R.
    eapply received_decoded; [exact HF|]. apply R, Hm.
Qed.

(** The same bytes again. *)
Lemma relayed_item : forall L F pe v, forall k st, bf_32 F = false -> write_item L F k (relayed pe v) st = write_item L F k v st.
Proof.
  intros L F pe v.
  assert (G : forall l st, bf_32 F = false -> Forall (fun m : member => forall k st, bf_32 F = false -> write_item L F k (relayed pe (snd m)) st = write_item L F k (snd m) st) l ->
    write_items L F (map (fun x => (fst x, relayed pe (snd x))) l) st = write_items L F l st).
  { intros l st HF H. revert st. induction H as [|x l Hx _ IH]; intros st; [reflexivity|]. cbn [map write_items fst snd]. rewrite Hx by exact HF.
    destruct (write_item L F (fst x) (snd x) st) as [b st1]. rewrite IH. reflexivity. }
  induction v as [| |b|n|e s|l IH|d l IH] using value_ind'; intros k st HF; rewrite !write_item_eq; destruct (write_key F k st) as [kb st1]; cbn [relayed write_value]; try reflexivity.
  - destruct n as [z|z|g|t j]; cbn [relayed_num]; try reflexivity. cbn [write_number]. destruct (z <? 0) eqn:E; [cbn [write_number]; rewrite E|]; reflexivity.
  - destruct e; reflexivity.
  - rewrite (G l st1 HF IH), map_length. reflexivity.
  - rewrite (G l st1 HF IH), map_length. reflexivity.
Qed.
Lemma relayed_bytes : forall L F pe l st, bf_32 F = false ->
  write_session L F (map BSend (map (fun m => (fst m, relayed pe (snd m))) l)) st = write_session L F (map BSend l) st.
Proof.
  intros L F pe l st HF. revert st. induction l as [|m l IH]; intros st; [reflexivity|]. cbn [map write_session fst snd]. rewrite relayed_item by exact HF.
  destruct (write_item L F (fst m) (snd m) st) as [b st1]. rewrite IH. reflexivity.
Qed.
Lemma relayed_equal : forall L pe pe2 v, received pe v -> no_overflow v -> proper L v -> veq L v (relayed pe2 v) = true.
Proof.
  intros L pe pe2 v H1 H2 H3. set (F := mkBF false false false). rewrite <- (received_decoded L F pe pe2 v eq_refl H1).
  apply decoded_eq; [reflexivity| |exact H3]. eapply received_carried; eauto.
Qed.

(** Negative integers too large for the type. *)
Lemma too_negative : forall J pe n s rest, sized k_negative n s -> 2 ^ 63 <= n ->
  exists p', parse_binary J (Some pe) (s ++ rest) = Ok (([], VNum (NInt (2 ^ 64 - n))), p') /\ ps_in p' = rest.
Proof.
  intros J pe n s rest Hz Hn. destruct (sized_ok k_negative n s ltac:(unfold k_negative; lia) Hz) as (tag & tl & -> & Hg & Hr & Hp).
  change (16 * k_negative) with op_negint in Hg. unfold parse_binary, ps_init. cbn [app].
  assert (B : exists f, bin_fuel (tag :: tl ++ rest) = S f) by (unfold bin_fuel; eexists; rewrite Nat.add_succ_r; reflexivity).
  destruct B as [f ->]. rewrite item_negint, Hp by exact Hg. eexists. split; [|instantiate (1 := mkPS rest [] 0); reflexivity]. repeat f_equal.
  unfold value_of_int, s64. rewrite Z.mod_small by lia. cbv zeta. replace (n <? 2 ^ 63) with false by lia.
  replace (- (n - 2 ^ 64)) with (2 ^ 64 - n) by lia. replace (2 ^ 64 - n =? 0) with false by lia. reflexivity.
Qed.
