(** A source that repeats its end mark is read as one that gives it once. *)
From Coq Require Import Lia ZifyBool.
From Coq Require Import SpecFloat.
From Verif Require Import Base SpecUtf8 ModelUtf8 ModelKeyed ModelValue ModelText SpecText ProofText3 ProofDocs.
Local Open Scope list_scope.
Local Open Scope Z_scope.

Definition padded (s s' : list Z) : Prop := exists k, s' = s ++ repeat (-1) k.
Definition psim (r r' : reader) : Prop := cur r' = cur r /\ padded (src r) (src r').
Definition psame {A} (a b : res (A * reader)) : Prop :=
  match a, b with
  | Ok (x, r), Ok (y, r') => x = y /\ psim r r'
  | Err, Err => True
  | Fuel, Fuel => True
  | _, _ => False
  end.
Lemma pad_nil : forall s', padded [] s' -> s' = [] \/ exists s1, s' = -1 :: s1 /\ padded [] s1.
Proof. intros s' ([|k] & ->); [left; reflexivity|right]. cbn. eexists. split; [reflexivity|]. exists k. reflexivity. Qed.
Lemma pad_cons : forall c s s', padded (c :: s) s' -> exists s1, s' = c :: s1 /\ padded s s1.
Proof. intros c s s' (k & ->). cbn. eexists. split; [reflexivity|]. exists k. reflexivity. Qed.
Lemma pad_ok : forall k, padded [] (repeat (-1) k).
Proof. intros k. exists k. reflexivity. Qed.
Lemma pad_refl : forall s, padded s s.
Proof. intros s. exists 0%nat. rewrite app_nil_r. reflexivity. Qed.
Lemma pad_length : forall s s', padded s s' -> (length s <= length s')%nat.
Proof. intros s s' (k & ->). rewrite app_length. lia. Qed.

Lemma pull_p : forall s s' c s1, padded s s' -> pull s = (c, s1) -> exists s1', pull s' = (c, s1') /\ padded s1 s1'.
Proof.
  intros [|x s] s' c s1 P H; cbn in H; injection H as <- <-.
  - destruct (pad_nil _ P) as [->|(s2 & -> & P2)]; cbn; eexists; split; try reflexivity; assumption.
  - destruct (pad_cons _ _ _ P) as (s2 & -> & P2). cbn. eauto.
Qed.
Lemma next_p : forall r r' c r1, psim r r' -> next r = (c, r1) -> exists r1', next r' = (c, r1') /\ psim r1 r1'.
Proof.
  intros [s k] [s' k'] c r1 (Ek & P) H. cbn [cur src] in *. subst k'. unfold next in *. cbn [cur src] in *. destruct k as [x|].
  - injection H as <- <-. eexists. split; [reflexivity|]. split; [reflexivity|exact P].
  - destruct (pull s) as (y, s1) eqn:Q. injection H as <- <-. destruct (pull_p _ _ _ _ P Q) as (s1' & -> & P1). eexists. split; [reflexivity|]. split; [reflexivity|exact P1].
Qed.
Lemma commit_p : forall r r', psim r r' -> psim (commit r) (commit r').
Proof. intros r r' (_ & P). split; [reflexivity|exact P]. Qed.
Lemma next_commit_p : forall r r' c r1, psim r r' -> next_commit r = (c, r1) -> exists r1', next_commit r' = (c, r1') /\ padded (src r1) (src r1').
Proof.
  intros [s k] [s' k'] c r1 (Ek & P) H. cbn [cur src] in *. subst k'. unfold next_commit in *. cbn [cur src] in *. destruct k as [x|].
  - injection H as <- <-. eexists. split; [reflexivity|exact P].
  - destruct (pull s) as (y, s1) eqn:Q. injection H as <- <-. destruct (pull_p _ _ _ _ P Q) as (s1' & -> & P1). eexists. split; [reflexivity|exact P1].
Qed.
Lemma skip_stop_p : forall c s, isspace (char_of c) = false -> skip_ws c s = (c, s).
Proof. intros c s H. destruct s; cbn; rewrite H; reflexivity. Qed.
Lemma skip_p : forall s c s' c1 s1, padded s s' -> skip_ws c s = (c1, s1) -> exists s1', skip_ws c s' = (c1, s1') /\ padded s1 s1'.
Proof.
  induction s as [|x s IH]; intros c s' c1 s1 P H.
  - destruct (isspace (char_of c)) eqn:B; [|rewrite skip_stop_p in * by exact B; injection H as <- <-; eauto].
    cbn in H. rewrite B in H. injection H as <- <-. destruct (pad_nil _ P) as [->|(s2 & -> & P2)]; cbn; rewrite B; [eauto|]. rewrite skip_stop_p by reflexivity. eauto.
  - destruct (pad_cons _ _ _ P) as (s2 & -> & P2). cbn in *. destruct (isspace (char_of c)); [exact (IH _ _ _ _ P2 H)|]. injection H as <- <-. eauto.
Qed.
Lemma next_ws_p : forall r r' c r1, psim r r' -> next_ws r = (c, r1) -> exists r1', next_ws r' = (c, r1') /\ psim r1 r1'.
Proof.
  intros r r' c r1 S H. unfold next_ws in *. destruct (next r) as (x, r2) eqn:N. destruct (next_p r r' x r2 S N) as (r2' & -> & (_ & P)).
  destruct (skip_ws x (src r2)) as (y, s1) eqn:K. injection H as <- <-. destruct (skip_p _ _ _ _ _ P K) as (s1' & -> & P1).
  eexists. split; [reflexivity|]. split; [reflexivity|exact P1].
Qed.

(** *** Strings and words *)
Lemma marks_string : forall k st acc, read_string st acc (repeat (-1) k) = Err.
Proof. intros [|k] st acc; reflexivity. Qed.
Lemma read_string_p : forall n s st acc k, (length s <= n)%nat ->
  match read_string st acc s, read_string st acc (s ++ repeat (-1) k) with
  | Ok (t, s1), Ok (t', s1') => t = t' /\ padded s1 s1'
  | Err, Err => True
  | _, _ => False
  end.
Proof.
  induction n as [|n IH]; intros s st acc k Hl.
  { destruct s; [|cbn in Hl; lia]. cbn [app]. rewrite marks_string. exact I. }
  destruct s as [|c s1]; [cbn [app]; rewrite marks_string; exact I|]. cbn [length] in Hl. cbn [app read_string].
  destruct (Z.eqb_spec c (-1)); [exact I|]. destruct (c =? 34); [split; [reflexivity|exists k; reflexivity]|].
  destruct (Z.eqb_spec c 92) as [->|N92].
  2: { destruct (utf8_step st c) as (st1, ws). apply IH; lia. }
  destruct s1 as [|e s2]; [destruct k; exact I|]. cbn [app length] in *. destruct (simple_escape e) as [x|]; [apply IH; lia|].
  destruct (Z.eqb_spec e 117) as [->|]; [|exact I].
  destruct s2 as [|h1 [|h2 [|h3 [|h4 s3]]]]; cbn [app length] in *.
  1: destruct k as [|[|[|[|k]]]]; cbn [repeat]; try exact I; rewrite marks_string; exact I.
  1: destruct k as [|[|[|k]]]; cbn [repeat]; try exact I; rewrite marks_string; exact I.
  1: destruct k as [|[|k]]; cbn [repeat]; try exact I; rewrite marks_string; exact I.
  1: destruct k as [|k]; cbn [repeat]; try exact I; rewrite marks_string; exact I.
  apply IH; lia.
Qed.
Lemma read_string_rp : forall r r', psim r r' -> psame (read_string_r r) (read_string_r r').
Proof.
  intros [s k] [s' k'] (Ek & (n & P)). cbn [cur src] in *. subst k' s'. unfold read_string_r. cbn [src cur].
  pose proof (read_string_p (length s) s u_init [] n (le_n _)) as X. destruct (read_string u_init [] s) as [(t, s1)| |].
  - destruct (read_string u_init [] (s ++ repeat (-1) n)) as [(t', s1')| |]; try contradiction. destruct X as (-> & P). split; [reflexivity|]. split; [reflexivity|exact P].
  - destruct (read_string u_init [] (s ++ repeat (-1) n)) as [(t', s1')| |]; try contradiction. exact I.
  - contradiction.
Qed.
Lemma check_rest_p : forall str s s', padded s s' ->
  match check_rest str s, check_rest str s' with
  | Ok s1, Ok s1' => padded s1 s1'
  | Err, Err => True
  | _, _ => False
  end.
Proof.
  induction str as [|k str IH]; intros s s' P; [exact P|]. cbn [check_rest].
  destruct (pull s) as (c, s1) eqn:Q. destruct (pull_p _ _ _ _ P Q) as (s1' & -> & P1). destruct (c =? k); [|exact I]. apply IH, P1.
Qed.
Lemma word_p : forall str (v : value) r r', psim r r' -> psame (do r2 <- check_string str r; Ok (v, r2)) (do r2 <- check_string str r'; Ok (v, r2)).
Proof.
  intros [|k str] v r r' S; [exact I|]. unfold check_string. destruct (next r) as (c, r1) eqn:N. destruct (next_p _ _ _ _ S N) as (r1' & -> & (_ & P)).
  destruct (c =? k); [|exact I]. pose proof (check_rest_p str _ _ P) as X. destruct (check_rest str (src r1)), (check_rest str (src r1')); try contradiction; [|exact I].
  split; [reflexivity|]. split; [reflexivity|exact X].
Qed.

(** *** Numbers *)
Lemma sign_p : forall r r' b r1, psim r r' -> read_sign r = (b, r1) -> exists r1', read_sign r' = (b, r1') /\ psim r1 r1'.
Proof.
  intros r r' b r1 S H. unfold read_sign in *. destruct (next r) as (c, r2) eqn:N. destruct (next_p _ _ _ _ S N) as (r2' & -> & S2).
  destruct (c =? 45); [injection H as <- <-; eexists; split; [reflexivity|apply commit_p, S2]|].
  destruct (c =? 43); [injection H as <- <-; eexists; split; [reflexivity|apply commit_p, S2]|].
  injection H as <- <-. eauto.
Qed.
Lemma pu_stop_p : forall acc cnt c s, isdigit c = false -> pu_loop acc cnt c s = (true, acc, cnt, c, s).
Proof. intros acc cnt c s H. destruct s; cbn; rewrite H; reflexivity. Qed.
Lemma pu_p : forall s acc cnt c s' ok v n c1 s1, padded s s' -> pu_loop acc cnt c s = (ok, v, n, c1, s1) ->
  exists s1', pu_loop acc cnt c s' = (ok, v, n, c1, s1') /\ padded s1 s1'.
Proof.
  induction s as [|x s IH]; intros acc cnt c s' ok v n c1 s1 P H.
  - destruct (isdigit c) eqn:B; [|rewrite pu_stop_p in * by exact B; injection H as <- <- <- <- <-; eauto].
    destruct (pad_nil _ P) as [->|(s2 & -> & P2)]; [eexists; split; [exact H|apply pad_refl]|]. cbn [pu_loop] in *. rewrite B in *. cbn zeta in *.
    destruct (overflow_detection <? acc); [injection H as <- <- <- <- <-; eauto|].
    destruct (_ <? acc); [injection H as <- <- <- <- <-; eauto|]. injection H as <- <- <- <- <-. rewrite pu_stop_p by reflexivity. eauto.
  - destruct (pad_cons _ _ _ P) as (s2 & -> & P2). cbn [pu_loop] in *. cbn zeta in *.
    destruct (isdigit c); [|injection H as <- <- <- <- <-; eauto].
    destruct (overflow_detection <? acc); [injection H as <- <- <- <- <-; eauto|].
    destruct (_ <? acc); [injection H as <- <- <- <- <-; eauto|]. exact (IH _ _ _ _ _ _ _ _ _ P2 H).
Qed.
Lemma unsigned_p : forall r r' ok v n r1, psim r r' -> parse_unsigned r = (ok, v, n, r1) -> exists r1', parse_unsigned r' = (ok, v, n, r1') /\ psim r1 r1'.
Proof.
  intros r r' ok v n r1 S H. unfold parse_unsigned in *. destruct (next r) as (c, r2) eqn:N. destruct (next_p _ _ _ _ S N) as (r2' & -> & (_ & P)).
  destruct (pu_loop 0 0 c (src r2)) as [[[[ok1 v1] n1] c1] s1] eqn:Q. injection H as <- <- <- <-. destruct (pu_p _ _ _ _ _ _ _ _ _ _ P Q) as (s1' & -> & P1).
  eexists. split; [reflexivity|]. split; [reflexivity|exact P1].
Qed.
Lemma dec_stop_p : forall d p c s, isdigit c = false -> decimal_loop d p c s = (d, p, c, s).
Proof. intros d p c s H. destruct s; cbn; rewrite H; reflexivity. Qed.
Lemma dec_p : forall s d p c s' d1 p1 c1 s1, padded s s' -> decimal_loop d p c s = (d1, p1, c1, s1) ->
  exists s1', decimal_loop d p c s' = (d1, p1, c1, s1') /\ padded s1 s1'.
Proof.
  induction s as [|x s IH]; intros d p c s' d1 p1 c1 s1 P H.
  - destruct (isdigit c) eqn:B; [|rewrite dec_stop_p in * by exact B; injection H as <- <- <- <-; eauto].
    destruct (pad_nil _ P) as [->|(s2 & -> & P2)]; [eexists; split; [exact H|apply pad_refl]|]. cbn [decimal_loop] in *. rewrite B in *. cbn zeta in *.
    injection H as <- <- <- <-. rewrite dec_stop_p by reflexivity. eauto.
  - destruct (pad_cons _ _ _ P) as (s2 & -> & P2). cbn [decimal_loop] in *. cbn zeta in *.
    destruct (isdigit c); [|injection H as <- <- <- <-; eauto]. exact (IH _ _ _ _ _ _ _ _ P2 H).
Qed.
Lemma decimal_p : forall L r r' d r1, psim r r' -> parse_decimal L r = (d, r1) -> exists r1', parse_decimal L r' = (d, r1') /\ psim r1 r1'.
Proof.
  intros L r r' d r1 S H. unfold parse_decimal in *. destruct (next r) as (c, r2) eqn:N. destruct (next_p _ _ _ _ S N) as (r2' & -> & (_ & P)).
  destruct (decimal_loop (S754_zero false) 0 c (src r2)) as [[[d1 p1] c1] s1] eqn:Q. injection H as <- <-. destruct (dec_p _ _ _ _ _ _ _ _ _ P Q) as (s1' & -> & P1).
  eexists. split; [reflexivity|]. split; [reflexivity|exact P1].
Qed.
Lemma large_p : forall L f d r r', psim r r' -> psame (parse_large L f d r) (parse_large L f d r').
Proof.
  intros L. induction f as [|f IH]; intros d r r' S; [exact I|]. cbn [parse_large]. destruct (next r) as (c, r1) eqn:N. destruct (next_p _ _ _ _ S N) as (r1' & -> & S1).
  destruct (isdigit c); [|split; [reflexivity|exact S1]]. destruct (parse_unsigned r1) as [[[ok v] n] r2] eqn:U. destruct (unsigned_p _ _ _ _ _ _ S1 U) as (r2' & -> & S2). cbn zeta.
  destruct (f_isinf _); [exact I|]. apply IH, S2.
Qed.
Lemma large_any_p : forall L d r r', psim r r' -> psame (parse_large L (large_fuel r) d r) (parse_large L (large_fuel r') d r').
Proof.
  intros L d r r' S. rewrite <- (parse_large_mono L (large_fuel r) (large_fuel r') d r); [apply large_p, S| |apply large_enough].
  unfold large_fuel. pose proof (pad_length _ _ (proj2 S)). lia.
Qed.
Lemma double_p : forall L i neg r r', psim r r' -> psame (parse_double L i neg r) (parse_double L i neg r').
Proof.
  intros L i neg r r' S. unfold parse_double. pose proof (large_any_p L (f_of_Z i) r r' S) as X.
  destruct (parse_large L (large_fuel r) (f_of_Z i) r) as [(d0, r0)| |], (parse_large L (large_fuel r') (f_of_Z i) r') as [(d0', r0')| |]; try contradiction; try exact I.
  destruct X as (<- & S0). cbn [bind]. destruct (next r0) as (c, r1) eqn:N. destruct (next_p _ _ _ _ S0 N) as (r1' & -> & S1).
  match goal with |- psame (bind ?a _) (bind ?b _) => assert (A : psame a b) end.
  { destruct (c =? 46); [|split; [reflexivity|exact S1]]. destruct (next (commit r1)) as (c1, r2) eqn:N2. destruct (next_p _ _ _ _ (commit_p _ _ S1) N2) as (r2' & -> & S2).
    destruct (isdigit c1); [|exact I]. destruct (parse_decimal L r2) as (fr, r3) eqn:D. destruct (decimal_p L _ _ _ _ S2 D) as (r3' & -> & S3). split; [reflexivity|exact S3]. }
  match goal with |- psame (bind ?a _) (bind ?b _) => destruct a as [(d1, r2)| |], b as [(d1', r2')| |]; try contradiction; try exact I end. cbn [bind].
  destruct A as (<- & S2). destruct (next r2) as (c2, r3) eqn:N3. destruct (next_p _ _ _ _ S2 N3) as (r3' & -> & S3).
  match goal with |- psame (bind ?a _) (bind ?b _) => assert (A : psame a b) end.
  { destruct (is_e c2); [|split; [reflexivity|exact S3]]. destruct (read_sign (commit r3)) as (ng, r5) eqn:R5. destruct (sign_p _ _ _ _ (commit_p _ _ S3) R5) as (r5' & -> & S5).
    destruct (next r5) as (c3, r6) eqn:N6. destruct (next_p _ _ _ _ S5 N6) as (r6' & -> & S6).
    destruct (isdigit c3); [|exact I]. destruct (parse_unsigned r6) as [[[ok v] n] r7] eqn:U. destruct (unsigned_p _ _ _ _ _ _ S6 U) as (r7' & -> & S7). destruct ok; [split; [reflexivity|exact S7]|exact I]. }
  match goal with |- psame (bind ?a _) (bind ?b _) => destruct a as [(d2, r4)| |], b as [(d2', r4')| |]; try contradiction; try exact I end. cbn [bind].
  destruct A as (<- & S4). split; [reflexivity|exact S4].
Qed.
Lemma run_stop_p : forall c s, isdigit c = false -> digit_run c s = ([], c, s).
Proof. intros c s H. destruct s; cbn; rewrite H; reflexivity. Qed.
Lemma run_p : forall s c s' ds c1 s1, padded s s' -> digit_run c s = (ds, c1, s1) -> exists s1', digit_run c s' = (ds, c1, s1') /\ padded s1 s1'.
Proof.
  induction s as [|x s IH]; intros c s' ds c1 s1 P H.
  - destruct (isdigit c) eqn:B; [|rewrite run_stop_p in * by exact B; injection H as <- <- <-; eauto].
    destruct (pad_nil _ P) as [->|(s2 & -> & P2)]; [eexists; split; [exact H|apply pad_refl]|]. cbn [digit_run] in *. rewrite B in *. injection H as <- <- <-. rewrite run_stop_p by reflexivity. eauto.
  - destruct (pad_cons _ _ _ P) as (s2 & -> & P2). cbn [digit_run] in *. destruct (isdigit c); [|injection H as <- <- <-; eauto].
    destruct (digit_run x s) as [[ds2 c2] s3] eqn:D. injection H as <- <- <-. destruct (IH _ _ _ _ _ P2 D) as (s3' & -> & P3). eauto.
Qed.
Lemma psign_p : forall c0 s s' sg c1 s1, padded s s' -> p_sign c0 s = (sg, c1, s1) -> exists s1', p_sign c0 s' = (sg, c1, s1') /\ padded s1 s1'.
Proof.
  intros c0 s s' sg c1 s1 P H. unfold p_sign in *. destruct ((c0 =? 43) || (c0 =? 45))%bool; [|injection H as <- <- <-; eauto].
  destruct (pull s) as (c, s2) eqn:Q. injection H as <- <- <-. destruct (pull_p _ _ _ _ P Q) as (s2' & -> & P2). eauto.
Qed.
Lemma pfrac_p : forall c0 s s' fp fl c1 s1, padded s s' -> p_frac c0 s = (fp, fl, c1, s1) -> exists s1', p_frac c0 s' = (fp, fl, c1, s1') /\ padded s1 s1'.
Proof.
  intros c0 s s' fp fl c1 s1 P H. unfold p_frac in *. destruct (c0 =? 46); [|injection H as <- <- <- <-; eauto].
  destruct (pull s) as (c, s2) eqn:Q. destruct (pull_p _ _ _ _ P Q) as (s2' & -> & P2).
  destruct (digit_run c s2) as [[ds c4] s4] eqn:D4. injection H as <- <- <- <-. destruct (run_p _ _ _ _ _ _ P2 D4) as (s4' & -> & P4). eauto.
Qed.
Lemma precise_p : forall r r', psim r r' -> psame (parse_precise r) (parse_precise r').
Proof.
  intros r r' S. rewrite !parse_precise_eq. destruct (next_commit r) as (c0, r0) eqn:N. destruct (next_commit_p _ _ _ _ S N) as (r0' & -> & P0).
  destruct (p_sign c0 (src r0)) as [[sg c1] s1] eqn:Ps. destruct (psign_p _ _ _ _ _ _ P0 Ps) as (s1' & -> & P1). destruct (isdigit c1); [|exact I].
  destruct (digit_run c1 s1) as [[ip c2] s2] eqn:D. destruct (run_p _ _ _ _ _ _ P1 D) as (s2' & -> & P2). unfold p_rest.
  destruct (p_frac c2 s2) as [[[fp fl] c3] s3] eqn:Pf. destruct (pfrac_p _ _ _ _ _ _ _ P2 Pf) as (s3' & -> & P3). destruct (is_e c3).
  2: { split; [reflexivity|]. split; [reflexivity|exact P3]. }
  destruct (pull s3) as (c4, s4) eqn:Q. destruct (pull_p _ _ _ _ P3 Q) as (s4' & -> & P4).
  destruct (p_sign c4 s4) as [[es c5] s5] eqn:Pe. destruct (psign_p _ _ _ _ _ _ P4 Pe) as (s5' & -> & P5). destruct (isdigit c5); [|exact I].
  destruct (digit_run c5 s5) as [[ed c6] s6] eqn:D6. destruct (run_p _ _ _ _ _ _ P5 D6) as (s6' & -> & P6).
  split; [reflexivity|]. split; [reflexivity|exact P6].
Qed.
Lemma number_p : forall L F r r', psim r r' -> psame (parse_number L F r) (parse_number L F r').
Proof.
  intros L F r r' S. unfold parse_number. destruct (precise F).
  - pose proof (precise_p r r' S) as X. destruct (parse_precise r) as [((t, b), r1)| |], (parse_precise r') as [((t', b'), r1')| |]; try contradiction; try exact I.
    destruct X as (E & X). injection E as <- <-. split; [reflexivity|exact X].
  - destruct (read_sign r) as (ng, r1) eqn:R. destruct (sign_p _ _ _ _ S R) as (r1' & -> & S1). destruct (next r1) as (c, r2) eqn:N. destruct (next_p _ _ _ _ S1 N) as (r2' & -> & S2).
    destruct (negb (isdigit c) && negb (c =? 46))%bool; [exact I|]. destruct (parse_unsigned r2) as [[[ok v] n] r3] eqn:U. destruct (unsigned_p _ _ _ _ _ _ S2 U) as (r3' & -> & S3).
    destruct (next r3) as (c3, r4) eqn:N3. destruct (next_p _ _ _ _ S3 N3) as (r4' & -> & S4).
    destruct (negb ok || (c3 =? 46) || is_e c3)%bool; [apply double_p, S4|]. destruct ng; [destruct (Z.testbit v 63)|]; (split; [reflexivity|exact S4]).
Qed.

(** *** Documents *)
Lemma psame_bind : forall A B (a b : res (A * reader)) (k k' : A -> reader -> res (B * reader)),
  psame a b -> (forall x r r', psim r r' -> psame (k x r) (k' x r')) -> psame (do (x, r) <- a; k x r) (do (x, r) <- b; k' x r).
Proof.
  intros A B a b k k' X H. destruct a as [(x, r)| |], b as [(y, r')| |]; try contradiction; try exact I. destruct X as (<- & S). cbn. apply H, S.
Qed.
Lemma parse_p : forall L F f,
  (forall r r', psim r r' -> psame (parse L F f r) (parse L F f r')) /\
  (forall c r r' acc, psim r r' -> psame (parse_obj L F f c r acc) (parse_obj L F f c r' acc)) /\
  (forall r r' acc, psim r r' -> psame (parse_arr L F f r acc) (parse_arr L F f r' acc)).
Proof.
  intros L F. induction f as [|f (IHp & IHo & IHa)]; [repeat split; intros; exact I|]. split; [|split].
  - intros r r' S. cbn [parse]. destruct (next_ws r) as (c, r1) eqn:N. destruct (next_ws_p _ _ _ _ S N) as (r1' & -> & S1). pose proof (commit_p _ _ S1) as Cm.
    destruct (c =? 123).
    { destruct (next_ws (commit r1)) as (c1, r2) eqn:N2. destruct (next_ws_p _ _ _ _ Cm N2) as (r2' & -> & S2).
      destruct (c1 =? 125); [split; [reflexivity|apply commit_p, S2]|]. apply IHo; assumption. }
    destruct (c =? 91).
    { destruct (next_ws (commit r1)) as (c1, r2) eqn:N2. destruct (next_ws_p _ _ _ _ Cm N2) as (r2' & -> & S2).
      destruct (c1 =? 93); [split; [reflexivity|apply commit_p, S2]|]. apply IHa; assumption. }
    destruct (c =? 34).
    { apply psame_bind; [apply read_string_rp, Cm|]. intros t a b Sab. split; [reflexivity|exact Sab]. }
    destruct (c =? 116); [apply word_p, S1|]. destruct (c =? 102); [apply word_p, S1|]. destruct (c =? 110); [apply word_p, S1|].
    destruct (_ || _)%bool; [apply number_p, S1|exact I].
  - intros c r r' acc S. cbn [parse_obj]. destruct (c =? 34); [|exact I].
    apply psame_bind; [apply read_string_rp, commit_p, S|]. intros name r1 r1' S1.
    destruct (next_ws r1) as (c1, r2) eqn:N2. destruct (next_ws_p _ _ _ _ S1 N2) as (r2' & -> & S2). destruct (c1 =? 58); [|exact I].
    apply psame_bind; [apply IHp, commit_p, S2|]. intros v r3 r3' S3. cbn zeta.
    destruct (next_ws r3) as (c2, r4) eqn:N4. destruct (next_ws_p _ _ _ _ S3 N4) as (r4' & -> & S4). pose proof (commit_p _ _ S4) as S5.
    destruct (c2 =? 125).
    { destruct (finish_object F (rev ((name, v) :: acc))); [split; [reflexivity|exact S5]|exact I|exact I]. }
    destruct (c2 =? 44); [|exact I].
    destruct (next_ws (commit r4)) as (c3, r6) eqn:N6. destruct (next_ws_p _ _ _ _ S5 N6) as (r6' & -> & S6). apply IHo; assumption.
  - intros r r' acc S. cbn [parse_arr]. apply psame_bind; [apply IHp, S|]. intros v r1 r1' S1. cbn zeta.
    destruct (next_ws r1) as (c, r2) eqn:N. destruct (next_ws_p _ _ _ _ S1 N) as (r2' & -> & S2). pose proof (commit_p _ _ S2) as S3.
    destruct (c =? 93); [split; [reflexivity|exact S3]|]. destruct (c =? 44); [|exact I]. apply IHa, S3.
Qed.
Lemma marks_same : forall L F s n, psame (parse_source L F s) (parse_source L F (s ++ repeat (-1) n)).
Proof.
  intros L F s n. set (f := S (2 * length (s ++ repeat (-1) n))).
  assert (E1 : parse_source L F s = parse L F f (mkR s None)).
  { unfold parse_source. symmetry. apply parse_mono; [unfold f; rewrite app_length; lia|apply parse_source_fuel]. }
  rewrite E1. apply (proj1 (parse_p L F f)). split; [reflexivity|exists n; reflexivity].
Qed.
Lemma marks_value : forall L F s n,
  match parse_source L F s, parse_source L F (s ++ repeat (-1) n) with
  | Ok (v, r), Ok (v', r') => v = v' /\ cur r' = cur r /\ exists k, src r' = src r ++ repeat (-1) k
  | Err, Err => True
  | _, _ => False
  end.
Proof.
  intros L F s n. pose proof (marks_same L F s n) as X. pose proof (parse_source_fuel L F s) as Y.
  destruct (parse_source L F s) as [[v r]| |], (parse_source L F (s ++ repeat (-1) n)) as [[v' r']| |]; try contradiction; try exact I.
  destruct X as (-> & A & k & B). eauto.
Qed.
