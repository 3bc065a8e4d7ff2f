(** The end of a source: what comes after it. *)
From Coq Require Import Lia ZifyBool.
From Coq Require Import SpecFloat.
From Verif Require Import Base SpecEnd SpecUtf8 ModelUtf8 ModelKeyed ModelValue ModelText SpecText ProofText3 ProofDocs.
Local Open Scope list_scope.
Local Open Scope Z_scope.

Section End_mark.
Variables whole after : list Z.
Hypothesis chars : ~ In (-1) whole.
Definition suf (s : list Z) : Prop := exists pre, whole = pre ++ s.
Definition simc (c : Z) (s s' : list Z) : Prop := (c <> -1 /\ s' = s ++ -1 :: after) \/ (c = -1 /\ s = [] /\ s' = after).
Definition sim (r r' : reader) : Prop :=
  cur r' = cur r /\ suf (src r) /\ match cur r with None => src r' = src r ++ -1 :: after | Some c => simc c (src r) (src r') end.
Definition same {A} (a b : res (A * reader)) : Prop :=
  match a, b with
  | Ok (x, r), Ok (y, r') => x = y /\ sim r r'
  | Err, Err => True
  | Fuel, Fuel => True
  | _, _ => False
  end.
Definition rel {A} (a b : res (A * reader)) : Prop := same a b \/ (a = Err /\ inside_escape whole).

Lemma suf_tail : forall c s, suf (c :: s) -> suf s.
Proof. intros c s (p & E). exists (p ++ [c]). rewrite E, <- app_assoc. reflexivity. Qed.
Lemma suf_head : forall c s, suf (c :: s) -> c <> -1.
Proof. intros c s (p & E) ->. apply chars. rewrite E. apply in_app_iff. right. left. reflexivity. Qed.
Lemma pull_s : forall s c s1, suf s -> pull s = (c, s1) -> exists s1', pull (s ++ -1 :: after) = (c, s1') /\ simc c s1 s1' /\ suf s1.
Proof.
  intros [|x s] c s1 S H; cbn in H; injection H as <- <-; cbn.
  - exists after. split; [reflexivity|]. split; [right; auto|exact S].
  - exists (s ++ -1 :: after). split; [reflexivity|]. split; [left; split; [apply (suf_head _ _ S)|reflexivity]|apply (suf_tail _ _ S)].
Qed.
Lemma live_s : forall c s s', simc c s s' -> c <> -1 -> s' = s ++ -1 :: after.
Proof. intros c s s' [(_ & H)|(-> & _)] N; [exact H|congruence]. Qed.
Lemma next_s : forall r r' c r1, sim r r' -> next r = (c, r1) -> exists r1', next r' = (c, r1') /\ sim r1 r1' /\ cur r1 = Some c.
Proof.
  intros [s k] [s' k'] c r1 (Ek & S & M) H. cbn [cur src] in *. subst k'. unfold next in *. cbn [cur src] in *. destruct k as [x|].
  - injection H as <- <-. eexists. split; [reflexivity|]. split; [|reflexivity]. split; [reflexivity|]. split; [exact S|exact M].
  - subst s'. destruct (pull s) as (y, s1) eqn:P. injection H as <- <-. destruct (pull_s s y s1 S P) as (s1' & -> & C & S1).
    eexists. split; [reflexivity|]. split; [|reflexivity]. split; [reflexivity|]. split; [exact S1|exact C].
Qed.
Lemma commit_s : forall r r', sim r r' -> cur r <> Some (-1) -> sim (commit r) (commit r').
Proof.
  intros [s k] [s' k'] (Ek & S & M) N. cbn [cur src] in *. split; [reflexivity|]. split; [exact S|]. cbn. destruct k as [x|]; [|exact M]. apply (live_s x); [exact M|congruence].
Qed.
Lemma next_commit_s : forall r r' c r1, sim r r' -> next_commit r = (c, r1) ->
  exists r1', next_commit r' = (c, r1') /\ simc c (src r1) (src r1') /\ suf (src r1) /\ cur r1' = None.
Proof.
  intros [s k] [s' k'] c r1 (Ek & S & M) H. cbn [cur src] in *. subst k'. unfold next_commit in *. cbn [cur src] in *. destruct k as [x|].
  - injection H as <- <-. eexists. split; [reflexivity|]. split; [exact M|]. split; [exact S|reflexivity].
  - subst s'. destruct (pull s) as (y, s1) eqn:P. injection H as <- <-. destruct (pull_s s y s1 S P) as (s1' & -> & C & S1).
    eexists. split; [reflexivity|]. split; [exact C|]. split; [exact S1|reflexivity].
Qed.

Lemma skip_stop : forall c s, isspace (char_of c) = false -> skip_ws c s = (c, s).
Proof. intros c s H. destruct s; cbn; rewrite H; reflexivity. Qed.
Lemma skip_s : forall s c s' c1 s1, suf s -> simc c s s' -> skip_ws c s = (c1, s1) ->
  exists s1', skip_ws c s' = (c1, s1') /\ simc c1 s1 s1' /\ suf s1.
Proof.
  induction s as [|x s IH]; intros c s' c1 s1 S C H.
  - destruct C as [(N & ->)|(-> & _ & ->)].
    + cbn in *. destruct (isspace (char_of c)).
      * injection H as <- <-. rewrite skip_stop by reflexivity. exists after. split; [reflexivity|]. split; [right; auto|exact S].
      * injection H as <- <-. eexists. split; [reflexivity|]. split; [left; auto|exact S].
    + injection H as <- <-. rewrite skip_stop by reflexivity. exists after. split; [reflexivity|]. split; [right; auto|exact S].
  - destruct C as [(N & ->)|(_ & E & _)]; [|discriminate]. cbn in *. destruct (isspace (char_of c)).
    + apply (IH x _ c1 s1 (suf_tail _ _ S)); [left; split; [apply (suf_head _ _ S)|reflexivity]|exact H].
    + injection H as <- <-. eexists. split; [reflexivity|]. split; [left; auto|exact S].
Qed.
Lemma next_ws_s : forall r r' c r1, sim r r' -> next_ws r = (c, r1) ->
  exists r1', next_ws r' = (c, r1') /\ sim r1 r1' /\ (c <> -1 -> cur r1 <> Some (-1)).
Proof.
  intros r r' c r1 S H. unfold next_ws in *. destruct (next r) as (x, r2) eqn:N. destruct (next_s r r' x r2 S N) as (r2' & -> & (Ek & S2 & M) & Ex).
  rewrite Ex in M. destruct (skip_ws x (src r2)) as (y, s1) eqn:K. injection H as <- <-.
  destruct (skip_s _ _ _ _ _ S2 M K) as (s1' & -> & C & S1). eexists. split; [reflexivity|]. split; [split; [reflexivity|split; [exact S1|exact C]]|].
  cbn. intros X Y. injection Y as ->. apply X. reflexivity.
Qed.

(** *** Strings and words *)
Lemma read_string_s : forall n s st acc, (length s <= n)%nat -> suf s ->
  match read_string st acc s, read_string st acc (s ++ -1 :: after) with
  | Ok (t, s1), Ok (t', s1') => t = t' /\ s1' = s1 ++ -1 :: after /\ suf s1
  | Err, Err => True
  | Err, _ => inside_escape whole
  | _, _ => False
  end.
Proof.
  induction n as [|n IH]; intros s st acc Hl S.
  { destruct s; [|cbn in Hl; lia]. exact I. }
  destruct s as [|c s1]; [exact I|]. cbn [length] in Hl. pose proof (suf_head _ _ S) as Hc. cbn [app read_string].
  destruct (Z.eqb_spec c (-1)); [exact I|]. destruct (c =? 34); [split; [reflexivity|split; [reflexivity|apply (suf_tail _ _ S)]]|].
  destruct (Z.eqb_spec c 92) as [->|N92].
  2: { destruct (utf8_step st c) as (st1, ws). apply IH; [lia|apply (suf_tail _ _ S)]. }
  pose proof (suf_tail _ _ S) as S1. destruct s1 as [|e s2]; [exact I|]. cbn [app length] in *. destruct (simple_escape e) as [x|]; [apply IH; [lia|apply (suf_tail _ _ S1)]|].
  destruct (Z.eqb_spec e 117) as [->|]; [|exact I]. pose proof (suf_tail _ _ S1) as S2.
  assert (Cut : (length s2 < 4)%nat -> inside_escape whole) by (intros L4; destruct S as (p & E); exists p, s2; auto).
  destruct s2 as [|h1 [|h2 [|h3 [|h4 s3]]]]; cbn [app length] in *.
  1-4: repeat match goal with |- context [match ?l with [] => _ | _ :: _ => _ end] => destruct l; try exact I end;
       match goal with |- match read_string ?a ?b ?c with _ => _ end => destruct (read_string a b c) as [[]| |]; try exact I; apply Cut; lia end.
  apply IH; [lia|]. apply (suf_tail h4), (suf_tail h3), (suf_tail h2), (suf_tail h1), S2.
Qed.
Lemma read_string_rs : forall r r', sim r r' -> cur r = None -> rel (read_string_r r) (read_string_r r').
Proof.
  intros [s k] [s' k'] (Ek & S & M) Hn. cbn [cur src] in *. subst k k'. subst s'. unfold read_string_r. cbn [src cur].
  pose proof (read_string_s (length s) s u_init [] (le_n _) S) as X. destruct (read_string u_init [] s) as [(t, s1)| |].
  - destruct (read_string u_init [] (s ++ -1 :: after)) as [(t', s1')| |]; try contradiction. destruct X as (-> & -> & S1). left. cbn. split; [reflexivity|].
    split; [reflexivity|]. split; [exact S1|reflexivity].
  - destruct (read_string u_init [] (s ++ -1 :: after)) as [(t', s1')| |]; [right; auto|left; exact I|right; auto].
  - contradiction.
Qed.
Lemma check_rest_s : forall str s, Forall (fun k => k <> -1) str -> suf s ->
  match check_rest str s, check_rest str (s ++ -1 :: after) with
  | Ok s1, Ok s1' => s1' = s1 ++ -1 :: after /\ suf s1
  | Err, Err => True
  | _, _ => False
  end.
Proof.
  induction str as [|k str IH]; intros s Hk S; [cbn; auto|]. inversion Hk as [|? ? K1 K2]; subst. cbn [check_rest].
  destruct (pull s) as (c, s1) eqn:P. destruct (pull_s s c s1 S P) as (s1' & -> & C & S1). destruct (Z.eqb_spec c k) as [->|]; [|exact I].
  rewrite (live_s _ _ _ C K1). apply IH; assumption.
Qed.
Definition same1 (a b : res reader) : Prop := match a, b with Ok r, Ok r' => sim r r' | Err, Err => True | _, _ => False end.
Lemma check_string_s : forall str r r', Forall (fun k => k <> -1) str -> sim r r' -> same1 (check_string str r) (check_string str r').
Proof.
  intros [|k str] r r' Hk S; [exact I|]. inversion Hk as [|? ? K1 K2]; subst. unfold check_string. destruct (next r) as (c, r1) eqn:N.
  destruct (next_s r r' c r1 S N) as (r1' & -> & (_ & S1 & M) & Ec). rewrite Ec in M. destruct (Z.eqb_spec c k) as [->|]; [|exact I].
  rewrite (live_s _ _ _ M K1). pose proof (check_rest_s str (src r1) K2 S1) as X. destruct (check_rest str (src r1)) as [s1| |].
  - destruct (check_rest str (src r1 ++ -1 :: after)) as [s1'| |]; try contradiction. destruct X as (-> & X). cbn. split; [reflexivity|]. split; [exact X|reflexivity].
  - destruct (check_rest str (src r1 ++ -1 :: after)) as [s1'| |]; try contradiction. exact I.
  - contradiction.
Qed.

(** *** Numbers *)
Lemma sign_s : forall r r' b r1, sim r r' -> read_sign r = (b, r1) -> exists r1', read_sign r' = (b, r1') /\ sim r1 r1'.
Proof.
  intros r r' b r1 S H. unfold read_sign in *. destruct (next r) as (c, r2) eqn:N. destruct (next_s r r' c r2 S N) as (r2' & -> & S2 & Ec).
  destruct (Z.eqb_spec c 45) as [->|]; [injection H as <- <-; eexists; split; [reflexivity|apply commit_s; [exact S2|congruence]]|].
  destruct (Z.eqb_spec c 43) as [->|]; [injection H as <- <-; eexists; split; [reflexivity|apply commit_s; [exact S2|congruence]]|].
  injection H as <- <-. eexists. split; [reflexivity|exact S2].
Qed.
Lemma pu_stop : forall acc cnt c s, isdigit c = false -> pu_loop acc cnt c s = (true, acc, cnt, c, s).
Proof. intros acc cnt c s H. destruct s; cbn; rewrite H; reflexivity. Qed.
Lemma pu_s : forall s acc cnt c s' ok v n c1 s1, suf s -> simc c s s' -> pu_loop acc cnt c s = (ok, v, n, c1, s1) ->
  exists s1', pu_loop acc cnt c s' = (ok, v, n, c1, s1') /\ simc c1 s1 s1' /\ suf s1.
Proof.
  induction s as [|x s IH]; intros acc cnt c s' ok v n c1 s1 S C H.
  - destruct C as [(N & ->)|(-> & _ & ->)].
    2: { injection H as <- <- <- <- <-. rewrite pu_stop by reflexivity. eexists. split; [reflexivity|]. split; [right; auto|exact S]. }
    cbn [app pu_loop] in *. destruct (isdigit c); [|injection H as <- <- <- <- <-; eexists; split; [reflexivity|]; split; [left; auto|exact S]].
    destruct (overflow_detection <? acc); [injection H as <- <- <- <- <-; eexists; split; [reflexivity|]; split; [left; auto|exact S]|].
    cbn zeta in *. destruct (_ <? acc); [injection H as <- <- <- <- <-; eexists; split; [reflexivity|]; split; [left; auto|exact S]|].
    injection H as <- <- <- <- <-. rewrite pu_stop by reflexivity. eexists. split; [reflexivity|]. split; [right; auto|exact S].
  - destruct C as [(N & ->)|(_ & E & _)]; [|discriminate]. cbn [app pu_loop] in *.
    destruct (isdigit c); [|injection H as <- <- <- <- <-; eexists; split; [reflexivity|]; split; [left; auto|exact S]].
    destruct (overflow_detection <? acc); [injection H as <- <- <- <- <-; eexists; split; [reflexivity|]; split; [left; auto|exact S]|].
    cbn zeta in *. destruct (_ <? acc); [injection H as <- <- <- <- <-; eexists; split; [reflexivity|]; split; [left; auto|exact S]|].
    refine (IH _ _ x (s ++ -1 :: after) _ _ _ _ _ (suf_tail _ _ S) _ H). left. split; [apply (suf_head _ _ S)|reflexivity].
Qed.
Lemma unsigned_s : forall r r' ok v n r1, sim r r' -> parse_unsigned r = (ok, v, n, r1) ->
  exists r1', parse_unsigned r' = (ok, v, n, r1') /\ sim r1 r1'.
Proof.
  intros r r' ok v n r1 S H. unfold parse_unsigned in *. destruct (next r) as (c, r2) eqn:N. destruct (next_s r r' c r2 S N) as (r2' & -> & (_ & S2 & M) & Ec). rewrite Ec in M.
  destruct (pu_loop 0 0 c (src r2)) as [[[[ok1 v1] n1] c1] s1] eqn:P. injection H as <- <- <- <-. destruct (pu_s _ _ _ _ _ _ _ _ _ _ S2 M P) as (s1' & -> & C & S1).
  eexists. split; [reflexivity|]. split; [reflexivity|]. split; [exact S1|exact C].
Qed.
Lemma dec_stop : forall d p c s, isdigit c = false -> decimal_loop d p c s = (d, p, c, s).
Proof. intros d p c s H. destruct s; cbn; rewrite H; reflexivity. Qed.
Lemma dec_s : forall s d p c s' d1 p1 c1 s1, suf s -> simc c s s' -> decimal_loop d p c s = (d1, p1, c1, s1) ->
  exists s1', decimal_loop d p c s' = (d1, p1, c1, s1') /\ simc c1 s1 s1' /\ suf s1.
Proof.
  induction s as [|x s IH]; intros d p c s' d1 p1 c1 s1 S C H.
  - destruct C as [(N & ->)|(-> & _ & ->)].
    2: { injection H as <- <- <- <-. rewrite dec_stop by reflexivity. eexists. split; [reflexivity|]. split; [right; auto|exact S]. }
    cbn [app decimal_loop] in *. destruct (isdigit c); [|injection H as <- <- <- <-; eexists; split; [reflexivity|]; split; [left; auto|exact S]].
    cbn zeta in *. injection H as <- <- <- <-. rewrite dec_stop by reflexivity. eexists. split; [reflexivity|]. split; [right; auto|exact S].
  - destruct C as [(N & ->)|(_ & E & _)]; [|discriminate]. cbn [app decimal_loop] in *.
    destruct (isdigit c); [|injection H as <- <- <- <-; eexists; split; [reflexivity|]; split; [left; auto|exact S]].
    cbn zeta in *. refine (IH _ _ x (s ++ -1 :: after) _ _ _ _ (suf_tail _ _ S) _ H). left. split; [apply (suf_head _ _ S)|reflexivity].
Qed.
Lemma decimal_s : forall L r r' d r1, sim r r' -> parse_decimal L r = (d, r1) -> exists r1', parse_decimal L r' = (d, r1') /\ sim r1 r1'.
Proof.
  intros L r r' d r1 S H. unfold parse_decimal in *. destruct (next r) as (c, r2) eqn:N. destruct (next_s r r' c r2 S N) as (r2' & -> & (_ & S2 & M) & Ec). rewrite Ec in M.
  destruct (decimal_loop (S754_zero false) 0 c (src r2)) as [[[d1 p1] c1] s1] eqn:P. injection H as <- <-. destruct (dec_s _ _ _ _ _ _ _ _ _ S2 M P) as (s1' & -> & C & S1).
  eexists. split; [reflexivity|]. split; [reflexivity|]. split; [exact S1|exact C].
Qed.
Lemma large_s : forall L f d r r', sim r r' -> same (parse_large L f d r) (parse_large L f d r').
Proof.
  intros L. induction f as [|f IH]; intros d r r' S; [exact I|]. cbn [parse_large]. destruct (next r) as (c, r1) eqn:N. destruct (next_s r r' c r1 S N) as (r1' & -> & S1 & _).
  destruct (isdigit c); [|split; [reflexivity|exact S1]]. destruct (parse_unsigned r1) as [[[ok v] n] r2] eqn:U. destruct (unsigned_s _ _ _ _ _ _ S1 U) as (r2' & -> & S2). cbn zeta.
  destruct (f_isinf _); [exact I|]. apply IH, S2.
Qed.
Lemma sim_length : forall r r', sim r r' -> (length (src r) <= length (src r'))%nat.
Proof.
  intros r r' (_ & _ & M). destruct (cur r) as [c|]; [destruct M as [(_ & ->)|(_ & -> & _)]|rewrite M]; try rewrite app_length; cbn; lia.
Qed.
Lemma large_any : forall L d r r', sim r r' -> same (parse_large L (large_fuel r) d r) (parse_large L (large_fuel r') d r').
Proof.
  intros L d r r' S. rewrite <- (parse_large_mono L (large_fuel r) (large_fuel r') d r); [apply large_s, S| |apply large_enough].
  unfold large_fuel. pose proof (sim_length r r' S). lia.
Qed.
Lemma double_s : forall L i neg r r', sim r r' -> same (parse_double L i neg r) (parse_double L i neg r').
Proof.
  intros L i neg r r' S. unfold parse_double. pose proof (large_any L (f_of_Z i) r r' S) as X.
  destruct (parse_large L (large_fuel r) (f_of_Z i) r) as [(d0, r0)| |], (parse_large L (large_fuel r') (f_of_Z i) r') as [(d0', r0')| |]; try contradiction; try exact I.
  destruct X as (<- & S0). cbn [bind]. destruct (next r0) as (c, r1) eqn:N. destruct (next_s r0 r0' c r1 S0 N) as (r1' & -> & S1 & E1).
  match goal with |- same (bind ?a _) (bind ?b _) => assert (A : same a b) end.
  { destruct (Z.eqb_spec c 46) as [->|]; [|split; [reflexivity|exact S1]]. assert (Sc : sim (commit r1) (commit r1')) by (apply commit_s; [exact S1|congruence]).
    destruct (next (commit r1)) as (c1, r2) eqn:N2. destruct (next_s _ _ c1 r2 Sc N2) as (r2' & -> & S2 & _). destruct (isdigit c1); [|exact I].
    destruct (parse_decimal L r2) as (fr, r3) eqn:D. destruct (decimal_s L _ _ _ _ S2 D) as (r3' & -> & S3). split; [reflexivity|exact S3]. }
  match goal with |- same (bind ?a _) (bind ?b _) => destruct a as [(d1, r2)| |], b as [(d1', r2')| |]; try contradiction; try exact I end. cbn [bind].
  destruct A as (<- & S2). destruct (next r2) as (c2, r3) eqn:N3. destruct (next_s _ _ c2 r3 S2 N3) as (r3' & -> & S3 & E3).
  match goal with |- same (bind ?a _) (bind ?b _) => assert (A : same a b) end.
  { destruct (is_e c2) eqn:Ee; [|split; [reflexivity|exact S3]]. assert (Sc : sim (commit r3) (commit r3')) by (apply commit_s; [exact S3|rewrite E3; intros Y; injection Y as ->; discriminate]).
    destruct (read_sign (commit r3)) as (ng, r5) eqn:R5. destruct (sign_s _ _ _ _ Sc R5) as (r5' & -> & S5). destruct (next r5) as (c3, r6) eqn:N6. destruct (next_s _ _ c3 r6 S5 N6) as (r6' & -> & S6 & _).
    destruct (isdigit c3); [|exact I]. destruct (parse_unsigned r6) as [[[ok v] n] r7] eqn:U. destruct (unsigned_s _ _ _ _ _ _ S6 U) as (r7' & -> & S7). destruct ok; [split; [reflexivity|exact S7]|exact I]. }
  match goal with |- same (bind ?a _) (bind ?b _) => destruct a as [(d2, r4)| |], b as [(d2', r4')| |]; try contradiction; try exact I end. cbn [bind].
  destruct A as (<- & S4). split; [reflexivity|exact S4].
Qed.
Lemma run_stop : forall c s, isdigit c = false -> digit_run c s = ([], c, s).
Proof. intros c s H. destruct s; cbn; rewrite H; reflexivity. Qed.
Lemma run_s : forall s c s' ds c1 s1, suf s -> simc c s s' -> digit_run c s = (ds, c1, s1) ->
  exists s1', digit_run c s' = (ds, c1, s1') /\ simc c1 s1 s1' /\ suf s1.
Proof.
  induction s as [|x s IH]; intros c s' ds c1 s1 S C H.
  - destruct C as [(N & ->)|(-> & _ & ->)].
    2: { injection H as <- <- <-. rewrite run_stop by reflexivity. eexists. split; [reflexivity|]. split; [right; auto|exact S]. }
    cbn [app digit_run] in *. destruct (isdigit c); [|injection H as <- <- <-; eexists; split; [reflexivity|]; split; [left; auto|exact S]].
    rewrite run_stop by reflexivity. injection H as <- <- <-. eexists. split; [reflexivity|]. split; [right; auto|exact S].
  - destruct C as [(N & ->)|(_ & E & _)]; [|discriminate]. cbn [app digit_run] in *.
    destruct (isdigit c); [|injection H as <- <- <-; eexists; split; [reflexivity|]; split; [left; auto|exact S]].
    destruct (digit_run x s) as [[ds2 c2] s2] eqn:D. injection H as <- <- <-.
    destruct (IH x (s ++ -1 :: after) ds2 c2 s2 (suf_tail _ _ S) ltac:(left; split; [apply (suf_head _ _ S)|reflexivity]) D) as (s2' & -> & C2 & S2).
    eexists. split; [reflexivity|]. split; [exact C2|exact S2].
Qed.
Lemma psign_s : forall c0 s s' sg c1 s1, suf s -> simc c0 s s' -> p_sign c0 s = (sg, c1, s1) ->
  exists s1', p_sign c0 s' = (sg, c1, s1') /\ simc c1 s1 s1' /\ suf s1.
Proof.
  intros c0 s s' sg c1 s1 S C H. unfold p_sign in *. destruct ((c0 =? 43) || (c0 =? 45))%bool eqn:B; [|injection H as <- <- <-; eauto].
  rewrite (live_s _ _ _ C) by lia. destruct (pull s) as (c, s2) eqn:P. injection H as <- <- <-. destruct (pull_s _ _ _ S P) as (s2' & -> & C2 & S2). eauto.
Qed.
Lemma pfrac_s : forall c0 s s' fp fl c1 s1, suf s -> simc c0 s s' -> p_frac c0 s = (fp, fl, c1, s1) ->
  exists s1', p_frac c0 s' = (fp, fl, c1, s1') /\ simc c1 s1 s1' /\ suf s1.
Proof.
  intros c0 s s' fp fl c1 s1 S C H. unfold p_frac in *. destruct (Z.eqb_spec c0 46) as [->|]; [|injection H as <- <- <- <-; eauto].
  rewrite (live_s _ _ _ C) by lia. destruct (pull s) as (c, s2) eqn:P. destruct (pull_s _ _ _ S P) as (s2' & -> & C2 & S2).
  destruct (digit_run c s2) as [[ds c4] s4] eqn:D4. injection H as <- <- <- <-. destruct (run_s _ _ _ _ _ _ S2 C2 D4) as (s4' & -> & C4 & S4). eauto.
Qed.
Lemma precise_s : forall r r', sim r r' -> same (parse_precise r) (parse_precise r').
Proof.
  intros r r' S. rewrite !parse_precise_eq. destruct (next_commit r) as (c0, r0) eqn:N. destruct (next_commit_s r r' c0 r0 S N) as (r0' & -> & C0 & S0 & _).
  destruct (p_sign c0 (src r0)) as [[sg c1] s1] eqn:Ps. destruct (psign_s _ _ _ _ _ _ S0 C0 Ps) as (s1' & -> & C1 & S1). destruct (isdigit c1); [|exact I].
  destruct (digit_run c1 s1) as [[ip c2] s2] eqn:D. destruct (run_s _ _ _ _ _ _ S1 C1 D) as (s2' & -> & C2 & S2). unfold p_rest.
  destruct (p_frac c2 s2) as [[[fp fl] c3] s3] eqn:Pf. destruct (pfrac_s _ _ _ _ _ _ _ S2 C2 Pf) as (s3' & -> & C3 & S3). destruct (is_e c3) eqn:Ee.
  2: { split; [reflexivity|]. split; [reflexivity|]. split; [exact S3|exact C3]. }
  rewrite (live_s _ _ _ C3) by (intros ->; discriminate). destruct (pull s3) as (c4, s4) eqn:P. destruct (pull_s _ _ _ S3 P) as (s4' & -> & C4 & S4).
  destruct (p_sign c4 s4) as [[es c5] s5] eqn:Pe. destruct (psign_s _ _ _ _ _ _ S4 C4 Pe) as (s5' & -> & C5 & S5). destruct (isdigit c5); [|exact I].
  destruct (digit_run c5 s5) as [[ed c6] s6] eqn:D6. destruct (run_s _ _ _ _ _ _ S5 C5 D6) as (s6' & -> & C6 & S6).
  split; [reflexivity|]. split; [reflexivity|]. split; [exact S6|exact C6].
Qed.
Lemma number_s : forall L F r r', sim r r' -> same (parse_number L F r) (parse_number L F r').
Proof.
  intros L F r r' S. unfold parse_number. destruct (precise F).
  - pose proof (precise_s r r' S) as X. destruct (parse_precise r) as [((t, b), r1)| |], (parse_precise r') as [((t', b'), r1')| |]; try contradiction; try exact I.
    destruct X as (E & X). injection E as <- <-. split; [reflexivity|exact X].
  - destruct (read_sign r) as (ng, r1) eqn:R. destruct (sign_s _ _ _ _ S R) as (r1' & -> & S1). destruct (next r1) as (c, r2) eqn:N. destruct (next_s _ _ _ _ S1 N) as (r2' & -> & S2 & _).
    destruct (negb (isdigit c) && negb (c =? 46))%bool; [exact I|]. destruct (parse_unsigned r2) as [[[ok v] n] r3] eqn:U. destruct (unsigned_s _ _ _ _ _ _ S2 U) as (r3' & -> & S3).
    destruct (next r3) as (c3, r4) eqn:N3. destruct (next_s _ _ _ _ S3 N3) as (r4' & -> & S4 & _).
    destruct (negb ok || (c3 =? 46) || is_e c3)%bool; [apply double_s, S4|]. destruct ng; [destruct (Z.testbit v 63)|]; (split; [reflexivity|exact S4]).
Qed.

(** *** Documents *)
Lemma rel_bind : forall A B (a b : res (A * reader)) (k k' : A -> reader -> res (B * reader)),
  rel a b -> (forall x r r', a = Ok (x, r) -> sim r r' -> rel (k x r) (k' x r')) ->
  rel (do (x, r) <- a; k x r) (do (x, r) <- b; k' x r).
Proof.
  intros A B a b k k' [X|(-> & X)] H; [|right; auto]. destruct a as [(x, r)| |], b as [(y, r')| |]; try contradiction; [|left; exact I|left; exact I].
  destruct X as (<- & S). cbn. apply H; [reflexivity|exact S].
Qed.
Lemma word_s : forall str (v : value) r r', Forall (fun k => k <> -1) str -> sim r r' ->
  rel (do r2 <- check_string str r; Ok (v, r2)) (do r2 <- check_string str r'; Ok (v, r2)).
Proof.
  intros str v r r' H S. left. pose proof (check_string_s str r r' H S) as X. destruct (check_string str r), (check_string str r'); try contradiction; [|exact I]. cbn. auto.
Qed.
Lemma parse_s : forall L F f,
  (forall r r', sim r r' -> rel (parse L F f r) (parse L F f r')) /\
  (forall c r r' acc, sim r r' -> (c <> -1 -> cur r <> Some (-1)) -> rel (parse_obj L F f c r acc) (parse_obj L F f c r' acc)) /\
  (forall r r' acc, sim r r' -> rel (parse_arr L F f r acc) (parse_arr L F f r' acc)).
Proof.
  intros L F. induction f as [|f (IHp & IHo & IHa)]; [repeat split; intros; left; exact I|]. split; [|split].
  - intros r r' S. cbn [parse]. destruct (next_ws r) as (c, r1) eqn:N. destruct (next_ws_s _ _ _ _ S N) as (r1' & -> & S1 & L1).
    assert (Cm : c <> -1 -> sim (commit r1) (commit r1')) by (intros H; apply commit_s; auto).
    destruct (Z.eqb_spec c 123) as [->|].
    { specialize (Cm ltac:(lia)). destruct (next_ws (commit r1)) as (c1, r2) eqn:N2. destruct (next_ws_s _ _ _ _ Cm N2) as (r2' & -> & S2 & L2).
      destruct (Z.eqb_spec c1 125) as [->|]; [left; split; [reflexivity|apply commit_s; [exact S2|apply L2; lia]]|]. apply IHo; assumption. }
    destruct (Z.eqb_spec c 91) as [->|].
    { specialize (Cm ltac:(lia)). destruct (next_ws (commit r1)) as (c1, r2) eqn:N2. destruct (next_ws_s _ _ _ _ Cm N2) as (r2' & -> & S2 & L2).
      destruct (Z.eqb_spec c1 93) as [->|]; [left; split; [reflexivity|apply commit_s; [exact S2|apply L2; lia]]|]. apply IHa; assumption. }
    destruct (Z.eqb_spec c 34) as [->|].
    { apply rel_bind; [apply read_string_rs; [apply Cm; lia|reflexivity]|]. intros t a b _ Sab. left. split; [reflexivity|exact Sab]. }
    destruct (c =? 116); [apply word_s; [repeat constructor; lia|exact S1]|]. destruct (c =? 102); [apply word_s; [repeat constructor; lia|exact S1]|].
    destruct (c =? 110); [apply word_s; [repeat constructor; lia|exact S1]|]. destruct (_ || _)%bool; [left; apply number_s, S1|left; exact I].
  - intros c r r' acc S Lc. cbn [parse_obj]. destruct (Z.eqb_spec c 34) as [->|]; [|left; exact I].
    apply rel_bind; [apply read_string_rs; [apply commit_s; [exact S|apply Lc; lia]|reflexivity]|]. intros name r1 r1' _ S1.
    destruct (next_ws r1) as (c1, r2) eqn:N2. destruct (next_ws_s _ _ _ _ S1 N2) as (r2' & -> & S2 & L2). destruct (Z.eqb_spec c1 58) as [->|]; [|left; exact I].
    apply rel_bind; [apply IHp, commit_s; [exact S2|apply L2; lia]|]. intros v r3 r3' _ S3. cbn zeta.
    destruct (next_ws r3) as (c2, r4) eqn:N4. destruct (next_ws_s _ _ _ _ S3 N4) as (r4' & -> & S4 & L4).
    destruct (Z.eqb_spec c2 125) as [->|].
    { assert (S5 : sim (commit r4) (commit r4')) by (apply commit_s; [exact S4|apply L4; lia]). left. destruct (finish_object F (rev ((name, v) :: acc))); [split; [reflexivity|exact S5]|exact I|exact I]. }
    destruct (Z.eqb_spec c2 44) as [->|]; [|left; exact I]. assert (S5 : sim (commit r4) (commit r4')) by (apply commit_s; [exact S4|apply L4; lia]).
    destruct (next_ws (commit r4)) as (c3, r6) eqn:N6. destruct (next_ws_s _ _ _ _ S5 N6) as (r6' & -> & S6 & L6). apply IHo; assumption.
  - intros r r' acc S. cbn [parse_arr]. apply rel_bind; [apply IHp, S|]. intros v r1 r1' _ S1. cbn zeta.
    destruct (next_ws r1) as (c, r2) eqn:N. destruct (next_ws_s _ _ _ _ S1 N) as (r2' & -> & S2 & L2).
    destruct (Z.eqb_spec c 93) as [->|]; [left; split; [reflexivity|apply commit_s; [exact S2|apply L2; lia]]|].
    destruct (Z.eqb_spec c 44) as [->|]; [|left; exact I]. apply IHa, commit_s; [exact S2|apply L2; lia].
Qed.
End End_mark.

Lemma same_end : forall L F s t, ~ In (-1) s -> ~ inside_escape s ->
  match parse_source L F s, parse_source L F (s ++ -1 :: t) with
  | Ok (v, r), Ok (v', r') => v = v' /\ cur r' = cur r /\ src r' = (if match cur r with Some c => c =? -1 | None => false end then t else src r ++ -1 :: t)
  | Err, Err => True
  | _, _ => False
  end.
Proof.
  intros L F s t N E. set (f := S (2 * length (s ++ -1 :: t))).
  assert (E1 : parse_source L F s = parse L F f (mkR s None)).
  { unfold parse_source. symmetry. apply parse_mono; [unfold f; rewrite app_length; lia|apply parse_source_fuel]. }
  assert (S0 : sim s t (mkR s None) (mkR (s ++ -1 :: t) None)) by (split; [reflexivity|split; [exists []; reflexivity|reflexivity]]).
  destruct (parse_s s t N L F f) as (X & _). specialize (X _ _ S0). change (parse L F f (mkR (s ++ -1 :: t) None)) with (parse_source L F (s ++ -1 :: t)) in X. rewrite <- E1 in X.
  destruct X as [X|(_ & X)]; [|contradiction]. unfold same in X.
  destruct (parse_source L F s) as [(v, r)| |] eqn:P1, (parse_source L F (s ++ -1 :: t)) as [(v', r')| |] eqn:P2; try contradiction; try exact I.
  - destruct X as (<- & Ek & _ & M). split; [reflexivity|]. split; [exact Ek|]. destruct (cur r) as [c|]; [|exact M].
    destruct M as [(Nc & ->)|(-> & Z & ->)]; [|reflexivity]. destruct (Z.eqb_spec c (-1)); [contradiction|reflexivity].
  - exact (parse_source_fuel L F s P1).
Qed.
Lemma end_kept : forall L F s t v r, ~ In (-1) s -> parse_source L F s = Ok (v, r) ->
  exists r', parse_source L F (s ++ -1 :: t) = Ok (v, r') /\ cur r' = cur r /\
    src r' = if match cur r with Some c => c =? -1 | None => false end then t else src r ++ -1 :: t.
Proof.
  intros L F s t v r N P. set (f := S (2 * length (s ++ -1 :: t))).
  assert (E1 : parse_source L F s = parse L F f (mkR s None)).
  { unfold parse_source. symmetry. apply parse_mono; [unfold f; rewrite app_length; lia|apply parse_source_fuel]. }
  assert (S0 : sim s t (mkR s None) (mkR (s ++ -1 :: t) None)) by (split; [reflexivity|split; [exists []; reflexivity|reflexivity]]).
  destruct (parse_s s t N L F f) as (X & _). specialize (X _ _ S0). change (parse L F f (mkR (s ++ -1 :: t) None)) with (parse_source L F (s ++ -1 :: t)) in X. rewrite <- E1, P in X.
  destruct X as [X|(X & _)]; [|discriminate]. unfold same in X. destruct (parse_source L F (s ++ -1 :: t)) as [(v', r')| |]; try contradiction.
  destruct X as (<- & Ek & _ & M). exists r'. split; [reflexivity|]. split; [exact Ek|]. destruct (cur r) as [c|]; [|exact M].
  destruct M as [(Nc & ->)|(-> & Z & ->)]; [|reflexivity]. destruct (Z.eqb_spec c (-1)); [contradiction|reflexivity].
Qed.
