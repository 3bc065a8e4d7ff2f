(** Errors of the parser: what they name and where they leave the source (C99). *)
From Verif Require Import Base ModelKeyed ModelValue ModelUtf8 ModelText ModelParseErr ModelParser SpecParser ProofParser.
From Coq Require Import ZifyBool.
Local Open Scope list_scope.
Local Open Scope Z_scope.

Notation ld := (last_delivered (fun x => x)).

(** * What is left to be read *)
Definition avc (c : Z) (s : list Z) : list Z :=
  if c =? -1 then match s with [] => [] | _ => c :: s end else c :: s.
Definition av (r : reader) : list Z := match cur r with Some c => avc c (src r) | None => src r end.
Lemma lo_refl : forall a, left_of a a.
Proof. exists []. reflexivity. Qed.
Lemma lo_trans : forall a b c, left_of a b -> left_of b c -> left_of a c.
Proof. intros a b c [x ->] [y ->]. exists (x ++ y). apply app_assoc. Qed.
Lemma lo_cons : forall x a b, left_of a b -> left_of (x :: a) b.
Proof. intros x a b [y ->]. exists (x :: y). reflexivity. Qed.
Lemma lo_avc : forall c s, left_of (avc c s) s.
Proof. intros c s. unfold avc. destruct (c =? -1); [destruct s|]; try apply lo_refl; apply lo_cons, lo_refl. Qed.
Lemma avc_lo : forall c s, left_of (c :: s) (avc c s).
Proof. intros c s. unfold avc. destruct (c =? -1); [destruct s|]; try apply lo_refl. apply lo_cons, lo_refl. Qed.
Lemma lo_pull : forall s c s1, pull s = (c, s1) -> left_of s (avc c s1).
Proof.
  intros [|x s] c s1 H; injection H as <- <-; [apply lo_refl|]. apply avc_lo.
Qed.
Lemma lo_eof : forall a, left_of a (avc (-1) []).
Proof. intros a. exists a. cbn. symmetry. apply app_nil_r. Qed.
Lemma lo_nil : forall a, left_of a [].
Proof. intros a. exists a. symmetry. apply app_nil_r. Qed.
#[local] Hint Resolve lo_refl lo_avc lo_eof lo_nil : core.

Definition adv (r r' : reader) : Prop := left_of (av r) (av r').
Lemma adv_refl : forall r, adv r r. Proof. intros. apply lo_refl. Qed.
Lemma adv_trans : forall a b c, adv a b -> adv b c -> adv a c.
Proof. intros a b c. apply lo_trans. Qed.
Lemma adv_src : forall r, left_of (av r) (src r).
Proof. intros [s [c|]]; cbn; auto. Qed.
Lemma adv_commit : forall r, adv r (commit r).
Proof. intros r. apply adv_src. Qed.

(** [c] is the last character read, seen as an [int] or a [char]. *)
Definition lst (r : reader) (c : Z) (r' : reader) : Prop := ld (av r) (src r') c.
Lemma lst_adv : forall a b c d, adv a b -> lst b c d -> lst a c d.
Proof.
  intros a b c d [x H] [K|(y & z & K & E)]; [left; exact K|right]. exists (x ++ y), z.
  rewrite H, K, app_assoc. auto.
Qed.

Lemma pull_lst : forall s c s1, pull s = (c, s1) -> ld s s1 c.
Proof. intros [|x s] c s1 H; injection H as <- <-; [left; auto|right]. exists [], x. auto. Qed.

Lemma next_ok : forall r c r1, next r = (c, r1) -> adv r r1 /\ cur r1 = Some c /\ lst r c r1.
Proof.
  intros [s [x|]] c r1 H; unfold next in H; cbn in H.
  - injection H as <- <-. split; [apply adv_refl|split; [reflexivity|]]. unfold lst, av. cbn.
    unfold avc. destruct (Z.eqb_spec x (-1)) as [->|N]; [destruct s as [|y s]|].
    + left. auto.
    + right. exists [], (-1). auto.
    + right. exists [], x. auto.
  - destruct (pull s) as [y s1] eqn:E. injection H as <- <-. split; [exact (lo_pull _ _ _ E)|].
    split; [reflexivity|]. exact (pull_lst _ _ _ E).
Qed.
Lemma char_eof : char_of (-1) = -1. Proof. reflexivity. Qed.
Lemma lst_char : forall r x r', lst r x r' -> last_delivered char_of (av r) (src r') (char_of x).
Proof.
  intros r x r' [[-> H]|(a & y & H & ->)]; [left; auto|right]. exists a, y. auto.
Qed.

Lemma skip_ok : forall s c c' s', skip_ws c s = (c', s') ->
  left_of (avc c s) (avc c' s') /\ ld (avc c s) s' c' /\ isspace (char_of c') = false.
Proof.
  assert (T : forall c s, ld (avc c s) s c).
  { intros c s. unfold avc. destruct (Z.eqb_spec c (-1)) as [->|N]; [destruct s|]; [left; auto|right|right];
      eexists [], _; split; try reflexivity; auto. }
  induction s as [|y s IH]; intros c c' s' H; cbn in H.
  - destruct (isspace (char_of c)) eqn:E; injection H as <- <-; [|auto].
    split; [auto|]. split; [left; auto|reflexivity].
  - destruct (isspace (char_of c)) eqn:E; [|injection H as <- <-; auto].
    destruct (IH _ _ _ H) as (A & B & C). 
    assert (P : left_of (avc c (y :: s)) (avc y s)) by (apply lo_trans with (y :: s); [apply lo_avc|apply avc_lo]).
    split; [exact (lo_trans _ _ _ P A)|]. split; [|exact C].
    destruct P as [p P]. destruct B as [B|(a & x & B & K)]; [left; exact B|right].
    exists (p ++ a), x. rewrite P, B, app_assoc. auto.
Qed.
Lemma next_ws_ok : forall r c r1, next_ws r = (c, r1) ->
  adv r r1 /\ (exists x, cur r1 = Some x /\ c = char_of x) /\ last_delivered char_of (av r) (src r1) c /\ isspace c = false.
Proof.
  intros r c r1 H. unfold next_ws in H. destruct (next r) as [x r0] eqn:E.
  destruct (skip_ws x (src r0)) as [c' s'] eqn:K. injection H as <- <-.
  destruct (next_ok _ _ _ E) as (A & B & _). destruct (skip_ok _ _ _ _ K) as (C & D & G).
  assert (Q : av r0 = avc x (src r0)) by (unfold av; rewrite B; reflexivity).
  rewrite <- Q in C, D.
  split; [exact (adv_trans _ _ (mkR s' (Some c')) A C)|]. split; [exists c'; auto|]. split; [|exact G].
  apply (lst_char r c' (mkR s' (Some c'))). exact (lst_adv _ _ _ (mkR s' (Some c')) A D).
Qed.

(** * Number parts *)
Lemma pu_ok : forall s acc cnt c ok v n c' s', pu_loop acc cnt c s = (ok, v, n, c', s') -> left_of (avc c s) (avc c' s').
Proof.
  induction s as [|y s IH]; intros acc cnt c ok v n c' s' H; cbn in H.
  - destruct (isdigit c); [|injection H as <- <- <- <- <-; auto].
    destruct (_ <? acc); [injection H as <- <- <- <- <-; auto|].
    destruct (_ <? acc); injection H as <- <- <- <- <-; auto.
  - destruct (isdigit c); [|injection H as <- <- <- <- <-; auto].
    destruct (_ <? acc); [injection H as <- <- <- <- <-; auto|].
    destruct (_ <? acc); [injection H as <- <- <- <- <-; auto|].
    apply lo_trans with (y :: s); [apply lo_avc|]. apply lo_trans with (avc y s); [apply avc_lo|]. exact (IH _ _ _ _ _ _ _ _ H).
Qed.
Lemma unsigned_ok : forall r ok v n r', parse_unsigned r = (ok, v, n, r') -> adv r r' /\ exists c, cur r' = Some c.
Proof.
  intros r ok v n r' H. unfold parse_unsigned in H. destruct (next r) as [c r1] eqn:E.
  destruct (pu_loop 0 0 c (src r1)) as [[[[k v'] n'] c'] s'] eqn:K. injection H as <- <- <- <-.
  destruct (next_ok _ _ _ E) as (A & B & _). split; [|exists c'; reflexivity]. apply adv_trans with r1; [exact A|].
  unfold adv, av. rewrite B. cbn. exact (pu_ok _ _ _ _ _ _ _ _ _ K).
Qed.
Lemma dec_ok : forall s d p c d' p' c' s', decimal_loop d p c s = (d', p', c', s') -> left_of (avc c s) (avc c' s').
Proof.
  induction s as [|y s IH]; intros d p c d' p' c' s' H; cbn in H.
  - destruct (isdigit c); injection H as <- <- <- <-; auto.
  - destruct (isdigit c); [|injection H as <- <- <- <-; auto].
    apply lo_trans with (y :: s); [apply lo_avc|]. apply lo_trans with (avc y s); [apply avc_lo|]. exact (IH _ _ _ _ _ _ _ H).
Qed.
Lemma decimal_ok : forall L r d r', parse_decimal L r = (d, r') -> adv r r'.
Proof.
  intros L r d r' H. unfold parse_decimal in H. destruct (next r) as [c r1] eqn:E.
  destruct (decimal_loop _ 0 c (src r1)) as [[[d' p'] c'] s'] eqn:K. injection H as <- <-.
  destruct (next_ok _ _ _ E) as (A & B & _). apply adv_trans with r1; [exact A|].
  unfold adv, av. rewrite B. cbn. exact (dec_ok _ _ _ _ _ _ _ _ K).
Qed.
Lemma sign_ok : forall r b r', read_sign r = (b, r') -> adv r r'.
Proof.
  intros r b r' H. unfold read_sign in H. destruct (next r) as [c r1] eqn:E.
  destruct (next_ok _ _ _ E) as (A & _).
  destruct (c =? 45); [injection H as <- <-; apply adv_trans with r1; [exact A|apply adv_commit]|].
  destruct (c =? 43); injection H as <- <-; [apply adv_trans with r1; [exact A|apply adv_commit]|exact A].
Qed.

(** * Errors *)
Definition told (r : reader) (m : message) (c : Z) (r' : reader) : Prop :=
  adv r r' /\ blames m c /\
  (names_last m = true -> last_delivered (seen_as m) (av r) (src r') c) /\
  (if keeps m then exists x, cur r' = Some x /\ (names_last m = true -> c = seen_as m x) else cur r' = None).
Lemma ld_lo : forall g a b s c, left_of a b -> last_delivered g b s c -> last_delivered g a s c.
Proof.
  intros g a b s c [p ->] [B|(x & y & -> & K)]; [left; exact B|right]. exists (p ++ x), y. rewrite app_assoc. auto.
Qed.
Lemma told_adv : forall a b m c r, adv a b -> told b m c r -> told a m c r.
Proof.
  intros a b m c r H (A & B & C & D). split; [exact (adv_trans _ _ _ H A)|]. split; [exact B|].
  split; [|exact D]. intros N. exact (ld_lo _ _ _ _ _ H (C N)).
Qed.
(** The error of a character just read and not taken, or taken. *)
Definition plain_m (m : message) : Prop := forall x, seen_as m x = x.
Definition char_m (m : message) : Prop := forall x, seen_as m x = char_of x.
Lemma ld_ext : forall g h a b c, (forall x, g x = h x) -> last_delivered g a b c -> last_delivered h a b c.
Proof. intros g h a b c E [K|(p & x & K & ->)]; [left; exact K|right]. exists p, x. auto. Qed.
Lemma told_next : forall r c r1 m, next r = (c, r1) -> keeps m = true -> plain_m m -> blames m c -> told r m c r1.
Proof.
  intros r c r1 m H K P B. destruct (next_ok _ _ _ H) as (A & C & D). split; [exact A|]. split; [exact B|].
  split; [intros _; exact (ld_ext _ _ _ _ _ (fun x => eq_sym (P x)) D)|]. rewrite K. exists c. auto.
Qed.
Lemma told_ws : forall r c r1 m, next_ws r = (c, r1) -> keeps m = true -> char_m m -> blames m c -> told r m c r1.
Proof.
  intros r c r1 m H K P B. destruct (next_ws_ok _ _ _ H) as (A & (x & C & E) & D & _). split; [exact A|]. split; [exact B|].
  split; [intros _; exact (ld_ext _ _ _ _ _ (fun x => eq_sym (P x)) D)|]. rewrite K. exists x. rewrite P. auto.
Qed.
Lemma told_took : forall r c r1 m, next_ws r = (c, r1) -> keeps m = false -> char_m m -> blames m c -> told r m c (commit r1).
Proof.
  intros r c r1 m H K P B. destruct (next_ws_ok _ _ _ H) as (A & _ & D & _).
  split; [apply adv_trans with r1; [exact A|apply adv_commit]|]. split; [exact B|].
  split; [intros _; exact (ld_ext _ _ _ _ _ (fun x => eq_sym (P x)) D)|]. rewrite K. reflexivity.
Qed.

Definition ntold {A} (r : reader) (o : nout A) : Prop :=
  match o with NOk _ r' => adv r r' | NErr m c r' => told r m c r' | NOut => True end.
Lemma ntold_adv : forall A a b (o : nout A), adv a b -> ntold b o -> ntold a o.
Proof. intros A a b [v r|m c r|] H K; cbn in *; [exact (adv_trans _ _ _ H K)|exact (told_adv _ _ _ _ _ H K)|exact I]. Qed.
Lemma ntold_bind : forall A B r (x : nout A) (k : A -> reader -> nout B), ntold r x -> (forall v r', ntold r' (k v r')) -> ntold r (nbind x k).
Proof. intros A B r [v r'|m c r'|] k H K; cbn in *; [exact (ntold_adv _ _ _ _ H (K v r'))|exact H|exact I]. Qed.
Lemma digit_of : forall c, isdigit c = true -> 48 <= c <= 57.
Proof. unfold isdigit. lia. Qed.
Lemma no_digit : forall c, isdigit c = false -> ~ 48 <= c <= 57.
Proof. unfold isdigit. lia. Qed.

Lemma large_ok : forall L f d r, ntold r (n_large L f d r).
Proof.
  induction f as [|f IH]; intros d r; cbn [n_large]; [exact I|].
  destruct (next r) as [c r1] eqn:E. destruct (next_ok _ _ _ E) as (A & B & _).
  destruct (isdigit c) eqn:D; [|exact A].
  destruct (parse_unsigned r1) as [[[ok part] cnt] r2] eqn:U. destruct (unsigned_ok _ _ _ _ _ U) as (P & x & Q).
  assert (T : adv r r2) by exact (adv_trans _ _ _ A P).
  destruct (f_isinf _); [|exact (ntold_adv _ _ _ _ T (IH _ _))].
  split; [exact T|]. split; [exact (digit_of _ D)|]. split; [discriminate|]. cbn. exists x. split; [exact Q|discriminate].
Qed.
Lemma frac_ok : forall L d r, ntold r (n_fraction L d r).
Proof.
  intros L d r. unfold n_fraction. destruct (next r) as [c r1] eqn:E. destruct (next_ok _ _ _ E) as (A & B & _).
  destruct (c =? 46); [|exact A]. destruct (next (commit r1)) as [c1 r2] eqn:E2.
  apply (ntold_adv _ _ (commit r1)); [exact (adv_trans _ _ _ A (adv_commit _))|].
  destruct (isdigit c1) eqn:D.
  - destruct (parse_decimal L r2) as [fr r3] eqn:E3. destruct (next_ok _ _ _ E2) as (A2 & _).
    exact (adv_trans _ _ _ A2 (decimal_ok _ _ _ _ E3)).
  - apply (told_next _ _ _ MFraction E2 eq_refl (fun _ => eq_refl)). exact (no_digit _ D).
Qed.
Lemma expo_ok : forall L d r, ntold r (n_exponent L d r).
Proof.
  intros L d r. unfold n_exponent. destruct (next r) as [c r1] eqn:E. destruct (next_ok _ _ _ E) as (A & B & _).
  destruct (is_e c); [|exact A]. destruct (read_sign (commit r1)) as [ng r5] eqn:S.
  apply (ntold_adv _ _ r5); [exact (adv_trans _ _ _ A (adv_trans _ _ _ (adv_commit _) (sign_ok _ _ _ S)))|].
  destruct (next r5) as [c3 r6] eqn:E3. destruct (isdigit c3) eqn:D.
  - destruct (parse_unsigned r6) as [[[ok ex] cnt] r7] eqn:U. destruct (unsigned_ok _ _ _ _ _ U) as (P & x & Q).
    destruct (next_ok _ _ _ E3) as (A3 & _). assert (T : adv r5 r7) by exact (adv_trans _ _ _ A3 P).
    destruct ok; [exact T|].
    split; [exact T|]. split; [exact (digit_of _ D)|]. split; [discriminate|]. cbn. exists x. split; [exact Q|discriminate].
  - apply (told_next _ _ _ MExponent E3 eq_refl (fun _ => eq_refl)). exact (no_digit _ D).
Qed.
Lemma double_ok : forall L i b r, ntold r (n_double L i b r).
Proof.
  intros. unfold n_double. apply ntold_bind; [apply large_ok|]. intros. apply ntold_bind; [apply frac_ok|].
  intros. apply ntold_bind; [apply expo_ok|]. intros. apply adv_refl.
Qed.
Lemma plain_ok : forall L r, ntold r (n_plain L r).
Proof.
  intros L r. unfold n_plain. destruct (read_sign r) as [ng r1] eqn:S.
  apply (ntold_adv _ _ r1); [exact (sign_ok _ _ _ S)|]. destruct (next r1) as [c r2] eqn:E.
  destruct (negb (isdigit c) && negb (c =? 46)) eqn:D.
  - apply (told_next _ _ _ MNumber E eq_refl (fun _ => eq_refl)). cbn. unfold isdigit in D. lia.
  - destruct (parse_unsigned r2) as [[[ok ip] cnt] r3] eqn:U. destruct (unsigned_ok _ _ _ _ _ U) as (P & _).
    destruct (next r3) as [c3 r4] eqn:E3. destruct (next_ok _ _ _ E) as (A & _). destruct (next_ok _ _ _ E3) as (A3 & _).
    assert (T : adv r1 r4) by exact (adv_trans _ _ _ A (adv_trans _ _ _ P A3)).
    apply (ntold_adv _ _ r4 _ T).
    destruct (negb ok || (c3 =? 46) || is_e c3); [apply double_ok|].
    destruct ng; [destruct (Z.testbit ip 63)|]; apply adv_refl.
Qed.

Lemma drun_ok : forall s c ds c' s', digit_run c s = (ds, c', s') -> left_of (avc c s) (avc c' s') /\
  (ld (avc c s) s' c').
Proof.
  assert (T : forall c s, ld (avc c s) s c).
  { intros c s. unfold avc. destruct (Z.eqb_spec c (-1)) as [->|N]; [destruct s|]; [left; auto|right|right];
      eexists [], _; split; try reflexivity; auto. }
  induction s as [|y s IH]; intros c ds c' s' H; cbn in H.
  - destruct (isdigit c); injection H as <- <- <-; split; auto. left. auto.
  - destruct (isdigit c); [|injection H as <- <- <-; auto].
    destruct (digit_run y s) as [[ds1 c1] s1] eqn:E. injection H as <- <- <-.
    destruct (IH _ _ _ _ E) as (A & B).
    assert (P : left_of (avc c (y :: s)) (avc y s)) by (apply lo_trans with (y :: s); [apply lo_avc|apply avc_lo]).
    split; [exact (lo_trans _ _ _ P A)|].
    destruct P as [p P]. destruct B as [B|(a & x & B & K)]; [left; exact B|right].
    exists (p ++ a), x. rewrite P, B, app_assoc. auto.
Qed.

(** A character [c] read, with [s] behind it. *)
Definition at_ (r : reader) (c : Z) (s : list Z) : Prop := left_of (av r) (avc c s) /\ ld (av r) s c.
Lemma at_pull : forall r c s c' s', at_ r c s -> pull s = (c', s') -> at_ r c' s'.
Proof.
  intros r c s c' s' [A B] H. assert (P : left_of (av r) s) by (apply lo_trans with (avc c s); [exact A|apply lo_avc]).
  split; [exact (lo_trans _ _ _ P (lo_pull _ _ _ H))|exact (ld_lo _ _ _ _ _ P (pull_lst _ _ _ H))].
Qed.
Lemma at_run : forall r c s ds c' s', at_ r c s -> digit_run c s = (ds, c', s') -> at_ r c' s'.
Proof.
  intros r c s ds c' s' [A B] H. destruct (drun_ok _ _ _ _ _ H) as [C D].
  split; [exact (lo_trans _ _ _ A C)|exact (ld_lo _ _ _ _ _ A D)].
Qed.
Lemma next_commit_at : forall r c r1, next_commit r = (c, r1) -> at_ r c (src r1).
Proof.
  intros r c r1 H. destruct r as [s [x|]]; unfold next_commit in H; cbn in H.
  - injection H as <- <-. pose proof (next_ok (mkR s (Some x)) x _ eq_refl) as (A & _ & B). split; [exact A|exact B].
  - destruct (pull s) as [y s1] eqn:E. injection H as <- <-. split; [exact (lo_pull _ _ _ E)|exact (pull_lst _ _ _ E)].
Qed.

Definition ptold {A} (r : reader) (o : pout A) : Prop :=
  match o with Done _ s => adv r (s_rd s) | Throws e s => told r (e_msg e) (e_last e) (s_rd s) | _ => True end.
Lemma ptold_adv : forall A a b (o : pout A), adv a b -> ptold b o -> ptold a o.
Proof. intros A a b [v s|e s| |] H K; cbn in *; [exact (adv_trans _ _ _ H K)|exact (told_adv _ _ _ _ _ H K)|exact I|exact I]. Qed.

Lemma at_fail : forall r c s, at_ r c s -> isdigit c = false -> told r MPrecise c (mkR s (Some c)).
Proof.
  intros r c s [A B] D. split; [exact A|]. split; [exact (no_digit _ D)|]. split; [intros _; exact B|]. exists c. auto.
Qed.
Lemma precise_ok : forall s, ptold (s_rd s) (p_precise s).
Proof.
  intros s. unfold p_precise. destruct (next_commit (s_rd s)) as [c0 r0] eqn:E0. apply next_commit_at in E0.
  set (r := s_rd s) in *.
  assert (X : exists str0 c1 s1, at_ r c1 s1 /\ (if (c0 =? 43) || (c0 =? 45) then let '(c, s') := pull (src r0) in (s_str s ++ [to_byte c0], c, s') else (s_str s, c0, src r0)) = (str0, c1, s1)).
  { destruct ((c0 =? 43) || (c0 =? 45)).
    - destruct (pull (src r0)) as [c s'] eqn:P. eexists _, _, _. split; [exact (at_pull _ _ _ _ _ E0 P)|reflexivity].
    - eexists _, _, _. split; [exact E0|reflexivity]. }
  destruct X as (str0 & c1 & s1 & A1 & ->). clear E0.
  destruct (isdigit c1) eqn:D1; [|exact (at_fail _ _ _ A1 D1)].
  destruct (digit_run c1 s1) as [[ip c2] s2] eqn:R1. pose proof (at_run _ _ _ _ _ _ A1 R1) as A2.
  assert (X : exists str2 isf c3 s3, at_ r c3 s3 /\ (if c2 =? 46
        then let '(c, s') := pull s2 in let '(ds, c', s'') := digit_run c s' in ((str0 ++ ip) ++ to_byte c2 :: ds, true, c', s'')
        else (str0 ++ ip, false, c2, s2)) = (str2, isf, c3, s3)).
  { destruct (c2 =? 46).
    - destruct (pull s2) as [c s'] eqn:P. destruct (digit_run c s') as [[ds c'] s''] eqn:R2. eexists _, _, _, _.
      split; [exact (at_run _ _ _ _ _ _ (at_pull _ _ _ _ _ A2 P) R2)|reflexivity].
    - eexists _, _, _, _. split; [exact A2|reflexivity]. }
  destruct X as (str2 & isf & c3 & s3 & A3 & ->).
  destruct (is_e c3); [|exact (proj1 A3)].
  destruct (pull s3) as [c4 s4] eqn:P4. pose proof (at_pull _ _ _ _ _ A3 P4) as A4.
  assert (X : exists str3 c5 s5, at_ r c5 s5 /\ (if (c4 =? 43) || (c4 =? 45)
        then let '(c, s') := pull s4 in (str2 ++ [to_byte c3; to_byte c4], c, s') else (str2 ++ [to_byte c3], c4, s4)) = (str3, c5, s5)).
  { destruct ((c4 =? 43) || (c4 =? 45)).
    - destruct (pull s4) as [c s'] eqn:P. eexists _, _, _. split; [exact (at_pull _ _ _ _ _ A4 P)|reflexivity].
    - eexists _, _, _. split; [exact A4|reflexivity]. }
  destruct X as (str3 & c5 & s5 & A5 & ->).
  destruct (isdigit c5) eqn:D5; [|exact (at_fail _ _ _ A5 D5)].
  destruct (digit_run c5 s5) as [[ed c6] s6] eqn:R6. exact (proj1 (at_run _ _ _ _ _ _ A5 R6)).
Qed.
Lemma free_rd : forall i s s', free_str i s = Some s' -> s_rd s' = s_rd s.
Proof. intros i s s' H. unfold free_str in H. destruct (_ =? _)%nat; [injection H as <-; reflexivity|discriminate]. Qed.
Lemma number_ok : forall L F s, ptold (s_rd s) (p_number L F s).
Proof.
  intros L F s. unfold p_number. destruct (precise F).
  - pose proof (precise_ok s) as H. destruct (p_precise s) as [[numb isf] s1|e s1| |]; auto.
    destruct (free_str numb s1) as [s2|] eqn:E; [|exact I]. cbn. rewrite (free_rd _ _ _ E). exact H.
  - pose proof (plain_ok L (s_rd s)) as H. destruct (n_plain L (s_rd s)); exact H.
Qed.

(** * Strings and words *)
Lemma escape_not : forall e, simple_escape e = None -> (e =? 117) = false -> blames MEscape e.
Proof.
  intros e H K. cbn. intros X. repeat destruct X as [<-|X]; try discriminate. exact X.
Qed.
Lemma rs_ok : forall n s st str, (length s <= n)%nat ->
  match rs_loop st str s with
  | inl (_, rest) => left_of s rest
  | inr (m, c, _, rest) => left_of s rest /\ ld s rest c /\ blames m c /\ keeps m = false /\ plain_m m
  end.
Proof.
  assert (Z0 : ld [] [] (-1)) by (left; auto).
  assert (ST : forall p s (o : (bytes * list Z) + (message * Z * bytes * list Z)),
    match o with
    | inl (_, rest) => left_of s rest
    | inr (m, c, _, rest) => left_of s rest /\ ld s rest c /\ blames m c /\ keeps m = false /\ plain_m m
    end ->
    match o with
    | inl (_, rest) => left_of (p ++ s) rest
    | inr (m, c, _, rest) => left_of (p ++ s) rest /\ ld (p ++ s) rest c /\ blames m c /\ keeps m = false /\ plain_m m
    end).
  { intros p s o. assert (P : left_of (p ++ s) s) by (exists p; reflexivity).
    destruct o as [[t rest]|[[[m c] t] rest]].
    - intros H. exact (lo_trans _ _ _ P H).
    - intros (A & B & C & D). split; [exact (lo_trans _ _ _ P A)|]. split; [exact (ld_lo _ _ _ _ _ P B)|]. auto. }
  induction n as [|n IH]; intros s st str H.
  - destruct s; [|cbn in H; lia]. cbn. repeat split; auto.
  - destruct s as [|c s1]; [cbn; repeat split; auto|]. cbn [rs_loop]. cbn [length] in H.
    destruct (c =? -1) eqn:E1.
    { apply Z.eqb_eq in E1. subst c. split; [apply lo_cons, lo_refl|]. split; [|repeat split; reflexivity]. right. exists [], (-1). auto. }
    destruct (c =? 34); [apply lo_cons, lo_refl|].
    destruct (c =? 92).
    + destruct s1 as [|e s2].
      { split; [apply lo_nil|]. split; [left; auto|]. split; [|split; [reflexivity|intros x; reflexivity]]. cbn. intuition lia. }
      cbn [length] in H.
      destruct (simple_escape e) as [x|] eqn:ES; [apply (ST [c; e]), IH; lia|].
      destruct (e =? 117) eqn:EU.
      * destruct s2 as [|h1 [|h2 [|h3 [|h4 s3]]]];
          try (split; [apply lo_nil|split; [left; auto|repeat split; reflexivity]]).
        apply (ST [c; e; h1; h2; h3; h4]), IH. cbn [length] in H. lia.
      * split; [exists [c; e]; reflexivity|]. split; [right; exists [c], e; auto|]. split; [exact (escape_not _ ES EU)|split; [reflexivity|intros x; reflexivity]].
    + destruct (utf8_step st c) as [st1 ws]. apply (ST [c]), IH. lia.
Qed.
Lemma read_ok : forall s, cur (s_rd s) = None -> ptold (s_rd s) (p_read_string s).
Proof.
  intros [[s k] str arr] H. cbn in H. subst k. unfold p_read_string. cbn [s_rd s_str src].
  pose proof (rs_ok _ s u_init str (le_n _)) as K. destruct (rs_loop u_init str s) as [[t rest]|[[[m c] t] rest]]; [exact K|].
  destruct K as (A & B & C & D & G). split; [exact A|]. split; [exact C|].
  split; [intros _; exact (ld_ext _ _ _ _ _ (fun x => eq_sym (G x)) B)|]. cbn. rewrite D. reflexivity.
Qed.
Lemma string_ok : forall s, cur (s_rd s) = None -> ptold (s_rd s) (p_string s).
Proof.
  intros s H. unfold p_string. pose proof (read_ok s H) as K. destruct (p_read_string s) as [i s1|e s1| |]; auto.
  destruct (free_str i s1) as [s2|] eqn:E; [|exact I]. cbn. rewrite (free_rd _ _ _ E). exact K.
Qed.
Lemma cs_ok : forall str s, match cs_rest str s with
  | inl rest => left_of s rest | inr (c, rest) => left_of s rest /\ ld s rest c end.
Proof.
  induction str as [|k str IH]; intros s; cbn; [apply lo_refl|]. destruct (pull s) as [c s1] eqn:E.
  assert (P : left_of s s1) by exact (lo_trans _ _ _ (lo_pull _ _ _ E) (lo_avc _ _)).
  destruct (c =? k).
  - specialize (IH s1). destruct (cs_rest str s1) as [rest|[c' rest]]; [exact (lo_trans _ _ _ P IH)|].
    destruct IH as [A B]. split; [exact (lo_trans _ _ _ P A)|exact (ld_lo _ _ _ _ _ P B)].
  - split; [exact P|exact (pull_lst _ _ _ E)].
Qed.
Lemma keyword_ok : forall str v s, ptold (s_rd s) (p_keyword str v s).
Proof.
  intros str v s. unfold p_keyword. destruct (next (s_rd s)) as [c r1] eqn:E. destruct (next_ok _ _ _ E) as (A & B & C).
  destruct (c =? hd 0 str).
  - pose proof (cs_ok (tl str) (src (commit r1))) as K. cbn [src commit] in *.
    assert (P : left_of (av (s_rd s)) (src r1)) by exact (lo_trans _ _ _ A (adv_src _)).
    destruct (cs_rest (tl str) (src r1)) as [rest|[c' rest]].
    + exact (lo_trans _ _ _ P K).
    + destruct K as [K1 K2]. split; [exact (lo_trans _ _ _ P K1)|]. split; [exact I|].
      split; [intros _; exact (ld_lo _ _ _ _ _ P K2)|]. reflexivity.
  - split; [exact (adv_trans _ _ _ A (adv_commit _))|]. split; [exact I|]. split; [intros _; exact C|]. reflexivity.
Qed.

(** * Values *)
Lemma not_space : forall c, isspace c = false -> ~ (c = 32 \/ 9 <= c <= 13).
Proof. unfold isspace. lia. Qed.
(** In the loop of an object the character looked at has been read before. *)
Definition otold (r : reader) (c : Z) (o : pout value) : Prop :=
  match o with
  | Throws e s' => (e_msg e = MKey /\ e_last e = c /\ s_rd s' = r /\ blames MKey c) \/ told r (e_msg e) (e_last e) (s_rd s')
  | _ => ptold r o
  end.
Lemma otold_told : forall r c o, ptold r o -> otold r c o.
Proof. intros r c [v s|e s| |] K; cbn in *; auto. Qed.
Lemma told_all : forall L F f,
  (forall s, ptold (s_rd s) (p_parse L F f s)) /\
  (forall pos prev c x s, cur (s_rd s) = Some x -> c = char_of x -> isspace c = false ->
    otold (s_rd s) c (p_members L F f pos prev c s)) /\
  (forall pos s, ptold (s_rd s) (p_items L F f pos s)).
Proof.
  intros L F. induction f as [|f (IHv & IHo & IHa)]; [repeat split; intros; exact I|].
  (* entering the loop of an object after its first character *)
  assert (EN : forall pos prev s r c r1, next_ws r = (c, r1) ->
    ptold r (p_members L F f pos prev c (with_rd s r1))).
  { intros pos prev s r c r1 E. destruct (next_ws_ok _ _ _ E) as (A & (x & B & C) & D & G).
    specialize (IHo pos prev c x (with_rd s r1) B C G). cbn [with_rd s_rd] in IHo.
    destruct (p_members L F f pos prev c (with_rd s r1)) as [v s'|e s'| |]; try exact I.
    - exact (adv_trans _ _ _ A IHo).
    - destruct IHo as [(M & K & R & T)|K]; [|exact (told_adv _ _ _ _ _ A K)].
      cbn. rewrite M, K, R. exact (told_ws _ _ _ MKey E eq_refl (fun _ => eq_refl) T). }
  split; [|split].
  - intros s. cbn [p_parse]. destruct (next_ws (s_rd s)) as [c r1] eqn:E.
    destruct (next_ws_ok _ _ _ E) as (A & _ & _ & G).
    pose proof (adv_trans _ _ _ A (adv_commit r1)) as A1.
    destruct (c =? 123) eqn:E123.
    { destruct (next_ws (commit r1)) as [c1 r2] eqn:E2. destruct (next_ws_ok _ _ _ E2) as (A2 & _).
      destruct (c1 =? 125); [exact (adv_trans _ _ _ A1 (adv_trans _ _ _ A2 (adv_commit _)))|].
      exact (ptold_adv _ _ _ _ A1 (EN _ _ s _ _ _ E2)). }
    destruct (c =? 91) eqn:E91.
    { destruct (next_ws (commit r1)) as [c1 r2] eqn:E2. destruct (next_ws_ok _ _ _ E2) as (A2 & _).
      pose proof (adv_trans _ _ _ A1 A2) as A12.
      destruct (c1 =? 93); [exact (adv_trans _ _ _ A12 (adv_commit _))|].
      exact (ptold_adv _ _ _ _ A12 (IHa _ (with_rd s r2))). }
    destruct (c =? 34) eqn:E34; [exact (ptold_adv _ _ _ _ A1 (string_ok (with_rd s (commit r1)) eq_refl))|].
    destruct (c =? 116) eqn:E116; [exact (ptold_adv _ _ _ _ A (keyword_ok _ _ (with_rd s r1)))|].
    destruct (c =? 102) eqn:E102; [exact (ptold_adv _ _ _ _ A (keyword_ok _ _ (with_rd s r1)))|].
    destruct (c =? 110) eqn:E110; [exact (ptold_adv _ _ _ _ A (keyword_ok _ _ (with_rd s r1)))|].
    destruct (c =? -1) eqn:E1; [apply (told_ws _ _ _ MEnd E eq_refl (fun _ => eq_refl)); cbn; lia|].
    destruct (isdigit c || (c =? 43) || (c =? 45) || (c =? 46)) eqn:EN4; [exact (ptold_adv _ _ _ _ A (number_ok _ _ (with_rd s r1)))|].
    apply (told_ws _ _ _ MData E eq_refl (fun _ => eq_refl)). unfold isdigit in EN4. cbn. unfold starts_value. cbn.
    pose proof (not_space _ G). lia.
  - intros pos prev c x s Hx Hc Hs. cbn [p_members].
    destruct (c =? 34) eqn:E34.
    2:{ left. cbn. pose proof (not_space _ Hs). repeat split; auto; lia. }
    apply otold_told. apply (ptold_adv _ _ (commit (s_rd s))); [apply adv_commit|].
    pose proof (read_ok (with_rd s (commit (s_rd s))) eq_refl) as R. cbn [s_rd with_rd] in R.
    destruct (p_read_string (with_rd s (commit (s_rd s)))) as [name s1|e s1| |]; auto.
    apply (ptold_adv _ _ (s_rd s1)); [exact R|].
    match goal with |- ptold _ (match ?b with _ => _ end) => set (body := b) end.
    assert (B : ptold (s_rd s1) body).
    { subst body. destruct (next_ws (s_rd s1)) as [c1 r2] eqn:E. destruct (next_ws_ok _ _ _ E) as (A & _ & _ & G).
      destruct (c1 =? 58) eqn:E58.
      - specialize (IHv (with_rd s1 (commit r2))). cbn [s_rd with_rd] in IHv.
        pose proof (ptold_adv _ _ _ _ (adv_trans _ _ _ A (adv_commit r2)) IHv) as K.
        destruct (p_parse L F f (with_rd s1 (commit r2))) as [v s2|e s2| |]; auto.
        destruct (free_str name _) as [s3|] eqn:Fr; [|exact I]. cbn. rewrite (free_rd _ _ _ Fr). exact K.
      - apply (told_ws _ _ _ MColon E eq_refl (fun _ => eq_refl)). cbn. pose proof (not_space _ G). lia. }
    destruct body as [[] s2|e s2| |]; auto.
    + apply (ptold_adv _ _ (s_rd s2)); [exact B|]. destruct (next_ws (s_rd s2)) as [c2 r4] eqn:E.
      destruct (next_ws_ok _ _ _ E) as (A & _ & _ & G). pose proof (adv_trans _ _ _ A (adv_commit r4)) as A1.
      destruct (c2 =? 125) eqn:E125.
      { destruct (negb (allow_dup F) && _); [|exact A1]. apply (told_took _ _ _ MDup E eq_refl (fun _ => eq_refl)). cbn. lia. }
      destruct (c2 =? 44) eqn:E44.
      { destruct (next_ws (commit r4)) as [c3 r6] eqn:E6. exact (ptold_adv _ _ _ _ A1 (EN _ _ s2 _ _ _ E6)). }
      apply (told_took _ _ _ MObjNext E eq_refl (fun _ => eq_refl)). cbn. pose proof (not_space _ G). lia.
    + destruct (free_str name s2) as [s3|] eqn:Fr; [|exact I]. cbn. rewrite (free_rd _ _ _ Fr). exact B.
  - intros pos s. cbn [p_items]. pose proof (IHv s) as K. destruct (p_parse L F f s) as [v s1|e s1| |]; auto.
    apply (ptold_adv _ _ (s_rd s1)); [exact K|]. destruct (next_ws (s_rd s1)) as [c r2] eqn:E.
    destruct (next_ws_ok _ _ _ E) as (A & _ & _ & G). pose proof (adv_trans _ _ _ A (adv_commit r2)) as A1.
    destruct (c =? 93) eqn:E93; [exact A1|].
    destruct (c =? 44) eqn:E44; [exact (ptold_adv _ _ _ _ A1 (IHa _ (mkS (commit r2) _ _)))|].
    apply (told_took _ _ _ MArrNext E eq_refl (fun _ => eq_refl)). cbn. pose proof (not_space _ G). lia.
Qed.
