(** Rules of the validator on one word. *)
From Coq Require Import String Ascii Lia ZifyBool ZifyNat.
From Verif Require Import ModelJwt.
From Verif Require Import Base ModelValue ModelText ModelEq ModelEnc SpecEnc ProofEnc ModelString ModelRpc ModelNumView ModelDate ModelValidator SpecValidator
  ProofValidator ProofValidator2 ProofValidator4 SpecTextRule.
Local Open Scope Z_scope.
Local Open Scope list_scope.
Ltac Zify.zify_post_hook ::= Z.div_mod_to_equations.

Lemma nonempty_all_spec : forall p (P : Z -> Prop) s, (forall c, p c = true <-> P c) -> nonempty_all p s = true <-> s <> [] /\ Forall P s.
Proof.
  intros p P s H. unfold nonempty_all. destruct s as [|c s]; [split; [discriminate|intros [N _]; congruence]|].
  rewrite forallb_forall, Forall_forall. split.
  - intros A. split; [discriminate|]. intros x I. apply H, A, I.
  - intros [_ A] x I. apply H, A, I.
Qed.
Lemma word_text : forall V vars k v e s w P, to_string (v_E V) (v_utf8 V) v = Some s -> In (w, P) char_words ->
  let holds := s <> [] /\ Forall P s in
  (accepts V vars (k, v) (VStr e (txt w)) <-> holds) /\ (rejects V vars (k, v) (VStr e (txt w)) <-> ~ holds).
Proof.
  intros V vars k v e s w P T I holds. unfold char_words in I. cbn [In] in I.
  repeat (destruct I as [I|I]; [injection I as <- <-;
    match goal with |- context [txt ?w] =>
      match w with
      | "hex"%string => apply (text_rule V vars k v s e _ op_hex)
      | "uppercase"%string => apply (text_rule V vars k v s e _ op_uppercase)
      | "lowercase"%string => apply (text_rule V vars k v s e _ op_lowercase)
      | "alpha"%string => apply (text_rule V vars k v s e _ op_alpha)
      | "alnum"%string => apply (text_rule V vars k v s e _ op_alnum)
      | "digits"%string => apply (text_rule V vars k v s e _ op_digits)
      end end; [exact T|reflexivity|]; apply nonempty_all_spec; intros c;
      unfold is_xdigit, is_upper, is_lower, ModelValidator.is_alnum, is_alpha, is_upper, is_lower, is_digit, in_range, letter_or_digit; lia|]).
  destruct I.
Qed.

Lemma nth_firstn_last : forall (s : bytes) n, (0 < n <= List.length s)%nat -> firstn n s = firstn (n - 1) s ++ [nth (n - 1) s 0].
Proof.
  intros s n H. destruct n as [|n]; [lia|]. replace (S n - 1)%nat with n by lia. revert s H. induction n as [|n IH]; intros [|c s] H; cbn [List.length] in H; try lia; [reflexivity|].
  change (firstn (S (S n)) (c :: s)) with (c :: firstn (S n) s). rewrite IH by lia. reflexivity.
Qed.
Lemma base64_spec : forall s, op_base64 s = true <-> s <> [] /\ base64_form s.
Proof.
  intros s. unfold op_base64, base64_form. destruct s as [|c0 s0] eqn:E; [split; [discriminate|intros [N _]; congruence]|]. rewrite <- E.
  assert (L0 : (0 < List.length s)%nat) by (rewrite E; cbn; lia). clear E.
  assert (K : forall c, is_alnum c || (c =? 47) || (c =? 43) = true <-> b64_letter c).
  { intros c. unfold is_alnum, is_alpha, is_upper, is_lower, in_range, is_digit, b64_letter, letter_or_digit. lia. }
  assert (FA : forall l, forallb (fun c => is_alnum c || (c =? 47) || (c =? 43)) l = true <-> Forall b64_letter l).
  { intros l. rewrite forallb_forall, Forall_forall. split; intros H x I; apply K, H, I. }
  destruct (List.length s mod 4 =? 0)%nat eqn:M; cbn [negb].
  2:{ split; [discriminate|]. intros (_ & body & n & -> & _ & _ & Q). apply Nat.eqb_neq in M. congruence. }
  apply Nat.eqb_eq in M. assert (L4 : (4 <= List.length s)%nat) by (destruct (List.length s) as [|[|[|[|n]]]]; cbn in M; lia).
  rewrite FA. split.
  - intros H. split; [destruct s; [cbn in L0; lia|discriminate]|].
    change (drop_pad (List.length s) s) with (if nth (List.length s - 1) s 0 =? 61 then (List.length s - 1)%nat else List.length s) in H.
    destruct (nth (List.length s - 1) s 0 =? 61) eqn:A.
    + unfold drop_pad in H. destruct (nth (List.length s - 1 - 1) s 0 =? 61) eqn:B.
      * exists (firstn (List.length s - 1 - 1) s), 2%nat. split; [|auto]. apply Z.eqb_eq in A, B.
        rewrite <- (firstn_all s) at 1. rewrite nth_firstn_last, A by lia. rewrite nth_firstn_last, B by lia. rewrite <- app_assoc. reflexivity.
      * exists (firstn (List.length s - 1) s), 1%nat. split; [|auto]. apply Z.eqb_eq in A.
        rewrite <- (firstn_all s) at 1. rewrite nth_firstn_last, A by lia. reflexivity.
    + unfold drop_pad in H. rewrite A in H. rewrite firstn_all in H. exists s, 0%nat. cbn [repeat]. rewrite app_nil_r. auto with arith.
  - intros (_ & body & n & E & H & N & _).
    assert (LB : List.length s = (List.length body + n)%nat) by (rewrite E, app_length, repeat_length; reflexivity).
    assert (BL : forall x, In x body -> x <> 61).
    { intros x I. rewrite Forall_forall in H. specialize (H x I). unfold b64_letter, letter_or_digit in H. lia. }
    assert (LAST : (0 < List.length body)%nat -> nth (List.length body - 1) s 0 <> 61).
    { intros G. rewrite E, app_nth1 by lia. apply BL. apply nth_In. lia. }
    assert (PAD : forall i, (List.length body <= i < List.length s)%nat -> nth i s 0 = 61).
    { intros i G. rewrite E, app_nth2 by lia. apply (repeat_spec n 61). apply nth_In. rewrite repeat_length. lia. }
    assert (R : firstn (drop_pad (drop_pad (List.length s) s) s) s = body).
    { assert (DP : forall i, (List.length body < i <= List.length s)%nat -> drop_pad i s = (i - 1)%nat).
      { intros i G. unfold drop_pad. rewrite PAD by lia. reflexivity. }
      assert (DB : (0 < List.length body)%nat -> drop_pad (List.length body) s = List.length body).
      { intros G. unfold drop_pad. destruct (nth (List.length body - 1) s 0 =? 61) eqn:A; [exfalso; apply LAST; lia|reflexivity]. }
      assert (X : drop_pad (drop_pad (List.length s) s) s = List.length body).
      { destruct n as [|[|[|n]]]; [| | |lia].
        - replace (List.length s) with (List.length body) by lia. rewrite !DB by lia. reflexivity.
        - rewrite (DP (List.length s)) by lia. replace (List.length s - 1)%nat with (List.length body) by lia. apply DB. lia.
        - rewrite (DP (List.length s)) by lia. rewrite DP by lia. lia. }
      rewrite X, E, firstn_app, firstn_all, Nat.sub_diag. cbn. apply app_nil_r. }
    rewrite R. exact H.
Qed.
Lemma base64url_spec : forall s, op_base64url s = true <-> s <> [] /\ base64url_form s.
Proof.
  intros s. unfold op_base64url, base64url_form. destruct s as [|c0 s0] eqn:E; [split; [discriminate|intros [N _]; congruence]|]. rewrite <- E.
  assert (K : forall c, is_alnum c || (c =? 45) || (c =? 95) = true <-> b64url_letter c).
  { intros c. unfold is_alnum, is_alpha, is_upper, is_lower, in_range, is_digit, b64url_letter, letter_or_digit. lia. }
  destruct (Nat.eqb_spec (List.length s mod 4) 1) as [M|M]; [split; [discriminate|intros (_ & _ & Q); congruence]|].
  rewrite forallb_forall, Forall_forall. split.
  - intros H. split; [subst; discriminate|]. split; [|exact M]. intros x I. apply K, H, I.
  - intros (_ & H & _) x I. apply K, H, I.
Qed.
Lemma identifier_spec : forall s, op_identifier s = true <-> s = [] \/ identifier_form s.
Proof.
  intros s. unfold op_identifier, identifier_form. destruct s as [|c s]; [split; [left; reflexivity|reflexivity]|].
  rewrite Bool.andb_true_iff, forallb_forall. split.
  - intros [A B]. right. exists c, s. split; [reflexivity|]. split; [unfold is_alpha, is_upper, is_lower, in_range in A; lia|].
    apply Forall_forall. intros x I. specialize (B x I). unfold is_alnum, is_alpha, is_upper, is_lower, in_range, is_digit in B. unfold letter_or_digit. lia.
  - intros [Q|(c' & s' & Q & A & B)]; [discriminate|]. injection Q as <- <-.
    split; [unfold is_alpha, is_upper, is_lower, in_range; lia|]. rewrite Forall_forall in B. intros x I. specialize (B x I).
    unfold is_alnum, is_alpha, is_upper, is_lower, in_range, is_digit. unfold letter_or_digit in B. lia.
Qed.
Section Words.
Variables (V : venv) (vars : list (bytes * value)) (k : bytes) (v : value) (e : option enc) (s : bytes).
Hypothesis T : to_string (v_E V) (v_utf8 V) v = Some s.
Lemma base64_word : let holds := s <> [] /\ base64_form s in
  (accepts V vars (k, v) (VStr e (txt "base64")) <-> holds) /\ (rejects V vars (k, v) (VStr e (txt "base64")) <-> ~ holds).
Proof. intros P. apply (text_rule V vars k v s e _ op_base64); [exact T|reflexivity|apply base64_spec]. Qed.
Lemma base64url_word : let holds := s <> [] /\ base64url_form s in
  (accepts V vars (k, v) (VStr e (txt "base64url")) <-> holds) /\ (rejects V vars (k, v) (VStr e (txt "base64url")) <-> ~ holds).
Proof. intros P. apply (text_rule V vars k v s e _ op_base64url); [exact T|reflexivity|apply base64url_spec]. Qed.
Lemma identifier_word : let holds := s = [] \/ identifier_form s in
  (accepts V vars (k, v) (VStr e (txt "identifier")) <-> holds) /\ (rejects V vars (k, v) (VStr e (txt "identifier")) <-> ~ holds).
Proof. intros P. apply (text_rule V vars k v s e _ op_identifier); [exact T|reflexivity|apply identifier_spec]. Qed.
End Words.

(** Encodings are accepted. *)
Lemma digit_letter : forall d, 0 <= d -> b64_letter (b64_digit false d) /\ b64url_letter (b64_digit true d).
Proof.
  intros d H. unfold b64_digit, b64_letter, b64url_letter, letter_or_digit. destruct (d <? 26) eqn:A; [lia|]. destruct (d <? 52) eqn:B; [lia|].
  destruct (d <? 62) eqn:C; [lia|]. destruct (d =? 62); lia.
Qed.
Lemma encoded_forms : forall d, is_bytes d -> base64_form (b64_text false true d) /\ base64url_form (b64_text true false d).
Proof.
  intros d. remember (List.length d) as n eqn:N. assert (Le : (List.length d <= n)%nat) by lia. clear N. revert d Le.
  induction n as [|n IH]; intros d Le B.
  { destruct d; [|cbn in Le; lia]. split; [exists [], O; cbn; auto with arith|split; [constructor|cbn; lia]]. }
  assert (P : forall x, 0 <= x -> b64_letter (b64_digit false x)) by (intros x X; apply digit_letter, X).
  assert (Q : forall x, 0 <= x -> b64url_letter (b64_digit true x)) by (intros x X; apply digit_letter, X).
  destruct d as [|a [|b [|c d]]].
  - split; [exists [], O; cbn; auto with arith|split; [constructor|cbn; lia]].
  - inversion B; subst. unfold is_byte in *. split.
    + exists [b64_digit false (a * 16 / 64); b64_digit false ((a * 16) mod 64)], 2%nat. split; [reflexivity|]. split; [repeat (apply Forall_cons; [apply P; lia|]); apply Forall_nil|]. split; [lia|reflexivity].
    + split; [|cbn; lia]. cbn [b64_text padding app]. repeat (apply Forall_cons; [apply Q; lia|]); apply Forall_nil.
  - inversion B as [|? ? B1 B2]; subst. inversion B2; subst. unfold is_byte in *. split.
    + exists [b64_digit false ((a * 256 + b) * 4 / 4096); b64_digit false ((a * 256 + b) * 4 / 64 mod 64); b64_digit false (((a * 256 + b) * 4) mod 64)], 1%nat.
      split; [reflexivity|]. split; [repeat (apply Forall_cons; [apply P; lia|]); apply Forall_nil|]. split; [lia|reflexivity].
    + split; [|cbn; lia]. cbn [b64_text padding app]. repeat (apply Forall_cons; [apply Q; lia|]); apply Forall_nil.
  - inversion B as [|? ? B1 B2]; subst. inversion B2 as [|? ? B3 B4]; subst. inversion B4 as [|? ? B5 B6]; subst. unfold is_byte in *.
    destruct (IH d ltac:(cbn in Le; lia) B6) as [(body & m & E & F & G & H) (K & M)].
    set (t := (a * 256 + b) * 256 + c). assert (T : 0 <= t) by (unfold t; lia). clear B1 B3 B5. split.
    + exists ([b64_digit false (t / 262144); b64_digit false (t / 4096 mod 64); b64_digit false (t / 64 mod 64); b64_digit false (t mod 64)] ++ body), m.
      split; [cbn [b64_text]; fold t; rewrite E at 1; rewrite app_assoc; reflexivity|].
      split; [apply Forall_app; split; [repeat (apply Forall_cons; [apply P; clear - T; clearbody t; lia|]); apply Forall_nil|exact F]|]. split; [exact G|].
      cbn [b64_text]. fold t. rewrite app_length. cbn [List.length]. lia.
    + split.
      * cbn [b64_text]. fold t. apply Forall_app; split; [repeat (apply Forall_cons; [apply Q; clear - T; clearbody t; lia|]); apply Forall_nil|exact K].
      * cbn [b64_text]. fold t. rewrite app_length. cbn [List.length]. lia.
Qed.

(** Types *)
Lemma type_word : forall V vars m e w (P : value -> Prop), In (w, P) (type_words (v_L V)) ->
  (accepts V vars m (VStr e (txt w)) <-> P (snd m)) /\ (rejects V vars m (VStr e (txt w)) <-> ~ P (snd m)).
Proof.
  intros V vars m e w P I.
  assert (X : exists b, simple_rule V (snd m) (txt w) = SVerdict b /\ (b = true <-> P (snd m))).
  { unfold type_words in I. cbn [In] in I. generalize (snd m) as v. intros v.
    repeat (destruct I as [I|I]; [injection I as <- <-; eexists; (split; [reflexivity|])|]); [..|destruct I].
    all: destruct v as [| |b|n|x s|l|d l]; unfold op_empty, op_nonempty; cbn -[Z.of_nat SFleb get_number].
    all: try (split; [discriminate|intros (? & ? & ?); discriminate]). all: try (split; [discriminate|intros (? & ?); discriminate]).
    all: try (split; [discriminate|congruence]). all: try (split; [intros _; eauto|reflexivity]; discriminate).
    all: try (split; [intros _; eauto|reflexivity]). all: try (split; [discriminate|intros (? & ? & ? & ?); discriminate]).
    all: try (split; [discriminate|intros H; solve [inversion H]]). all: try (split; [discriminate|intros (? & H & ?); inversion H]).
    all: try (split; [intros H; eapply eq_rect; [constructor|lia]|intros H; inversion H; lia]).
    all: try (split; [intros H; eexists; split; [constructor|lia]|intros (? & H & ?); inversion H; subst; lia]).
    - split.
      + destruct n as [z|z|f|t [|z|z]]; cbn; intros H; try discriminate; (eexists; exists z; split; [reflexivity|]; cbn; tauto).
      + intros (n0 & i & [= <-] & [H|H]); destruct n as [z|z|f|t [|z|z]]; cbn in *; congruence.
    - split; [intros H; exists n; auto|]. intros (n0 & [= <-] & H). exact H.
 }
  destruct X as (b & X1 & X2). apply (verdict_iff V vars _ _ b); [|exact X2]. apply simple_ends. exact X1.
Qed.

(** Constants and comments *)
Lemma constant_word : forall V vars m e w,
  (accepts V vars m (VStr e (39 :: w)) <-> text_is (snd m) w) /\
  (rejects V vars m (VStr e (39 :: w)) <-> ~ text_is (snd m) w).
Proof.
  intros V vars m e w. apply (verdict_iff V vars _ _ (beqb (get_string (snd m)) w)).
  - apply simple_ends. reflexivity.
  - rewrite beqb_eq. destruct (snd m) as [| |b|[n|n|f|t k]|x s|l|d l]; cbn; split; auto; congruence.
Qed.
Lemma comment_word : forall V vars m e w, rejects V vars m (VStr e (35 :: w)) /\ rejects V vars m (VStr e []).
Proof. intros V vars m e w. split; apply (simple_ends V vars m e _ false); reflexivity. Qed.
