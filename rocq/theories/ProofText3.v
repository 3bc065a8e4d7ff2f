(** Fuel is sufficient: the parser model always terminates with a result. *)
From Coq Require Import Sorted.
From Verif Require Import Base ModelUtf8 SpecUtf8 ModelKeyed SpecKeyed ModelValue ModelText SpecText
  ProofValue ProofKeyed ProofUtf8 ProofText1 ProofText2.
Local Open Scope Z_scope.

Definition rw (r : reader) : nat :=
  (length (src r) + match cur r with Some c => if (c =? -1)%Z then 0 else 1 | None => 0 end)%nat.

Lemma next_rw : forall r c r1, next r = (c, r1) -> (rw r1 <= rw r)%nat /\ cur r1 = Some c.
Proof.
  intros [s [x|]] c r1 H; unfold next in H; cbn [cur src] in H.
  - inversion H; subst. split; reflexivity || auto.
  - destruct s as [|y s]; cbn [pull] in H; inversion H; subst; unfold rw; cbn [cur src length].
    + split; auto; lia.
    + split; auto. destruct (c =? -1); lia.
Qed.

Lemma commit_rw : forall r, (rw (commit r) <= rw r)%nat.
Proof. intros [s [x|]]; unfold rw, commit; cbn [src cur]; lia. Qed.

Lemma commit_rw_lt : forall r c, cur r = Some c -> c <> -1 -> (rw (commit r) < rw r)%nat.
Proof.
  intros [s cc] c H Hc. cbn [cur] in H. subst. unfold rw, commit; cbn [src cur].
  replace (c =? -1) with false by lia. lia.
Qed.

Lemma skip_ws_len : forall s c c' s', skip_ws c s = (c', s') ->
  (length s' <= length s)%nat /\ (s' = s /\ c' = c \/ (length s' + 1 <= length s)%nat \/ c' = -1).
Proof.
  induction s as [|x s IH]; intros c c' s' H; cbn [skip_ws] in H; destruct (isspace (char_of c)).
  - inversion H; subst. split; auto.
  - inversion H; subst. split; auto.
  - destruct (IH _ _ _ H) as [H1 H2]. cbn [length]. split; [lia|]. right.
    destruct H2 as [[-> ->]|[H2|H2]]; [left; lia|left; lia|auto].
  - inversion H; subst. split; auto.
Qed.

Lemma next_ws_rw : forall r c r1, next_ws r = (c, r1) ->
  (rw r1 <= rw r)%nat /\ (c <> -1 -> (rw (commit r1) < rw r)%nat).
Proof.
  intros r c r1 H. unfold next_ws in H. destruct (next r) as [x r0] eqn:En.
  destruct (next_rw _ _ _ En) as [H1 H2].
  destruct (skip_ws x (src r0)) as [c' s'] eqn:Es. inversion H; subst.
  destruct (skip_ws_len _ _ _ _ Es) as [H3 H4].
  assert (HA : (rw (mkR s' (Some c')) <= rw r)%nat).
  { unfold rw at 1. cbn [cur src]. unfold rw in H1 at 1. rewrite H2 in H1.
    destruct H4 as [[-> ->]|[H4|H4]].
    - exact H1.
    - destruct (c' =? -1); lia.
    - subst c'. change (-1 =? -1) with true. cbv iota. lia. }
  split; [exact HA|]. intros Hc. assert (c' <> -1) by (intros ->; apply Hc; reflexivity).
  pose proof (commit_rw_lt (mkR s' (Some c')) c' eq_refl H0). lia.
Qed.

Lemma read_string_len : forall n s st acc t s', (length s <= n)%nat ->
  read_string st acc s = Ok (t, s') -> (length s' < length s)%nat.
Proof.
  induction n as [|n IH]; intros [|c s1] st acc t s' Hn H; cbn [read_string length] in *; try congruence; try lia.
  destruct (c =? -1); [congruence|]. destruct (c =? 34); [inversion H; subst; lia|].
  destruct (c =? 92).
  - destruct s1 as [|e s2]; [congruence|]. cbn [length] in *.
    destruct (simple_escape e) as [x|].
    + apply IH in H; lia.
    + destruct (e =? 117); [|congruence].
      destruct s2 as [|h1 [|h2 [|h3 [|h4 s3]]]]; try congruence. cbn [length] in *.
      apply IH in H; lia.
  - destruct (utf8_step st c) as [st1 wl]. apply IH in H; lia.
Qed.

Lemma read_string_fuel : forall n s st acc, (length s <= n)%nat -> read_string st acc s <> Fuel.
Proof.
  induction n as [|n IH]; intros [|c s1] st acc Hn; cbn [read_string length] in *; try congruence; try lia.
  destruct (c =? -1); [congruence|]. destruct (c =? 34); [congruence|].
  destruct (c =? 92).
  - destruct s1 as [|e s2]; [congruence|]. cbn [length] in *.
    destruct (simple_escape e) as [x|].
    + apply IH; lia.
    + destruct (e =? 117); [|congruence].
      destruct s2 as [|h1 [|h2 [|h3 [|h4 s3]]]]; try congruence. cbn [length] in *.
      apply IH; lia.
  - destruct (utf8_step st c) as [st1 wl]. apply IH; lia.
Qed.

Lemma read_string_r_rw : forall r t r1, read_string_r r = Ok (t, r1) -> (rw r1 < rw r)%nat.
Proof.
  intros r t r1 H. unfold read_string_r in H.
  destruct (read_string u_init [] (src r)) as [[t' s']| |] eqn:E; cbn [bind] in H; try congruence.
  inversion H; subst. apply (read_string_len (length (src r))) in E; auto. unfold rw; cbn [src cur]. lia.
Qed.

Lemma read_string_r_fuel : forall r, read_string_r r <> Fuel.
Proof.
  intros r H. unfold read_string_r in H.
  destruct (read_string u_init [] (src r)) as [[t' s']| |] eqn:E; cbn [bind] in H; try congruence.
  apply (read_string_fuel (length (src r))) in E; auto.
Qed.

Lemma check_rest_len : forall str s s', check_rest str s = Ok s' -> (length s' <= length s)%nat.
Proof.
  induction str as [|k str IH]; intros s s' H; cbn [check_rest] in H; [inversion H; auto|].
  destruct s as [|c s]; cbn [pull] in H.
  - destruct (-1 =? k); [|congruence]. apply IH in H. auto.
  - destruct (c =? k); [|congruence]. apply IH in H. cbn [length]. lia.
Qed.
Lemma check_rest_fuel : forall str s, check_rest str s <> Fuel.
Proof.
  induction str as [|k str IH]; intros s; cbn [check_rest]; [congruence|].
  destruct (pull s) as [c s1]. destruct (c =? k); [apply IH|congruence].
Qed.
Lemma check_string_rw : forall str r r', check_string str r = Ok r' -> (rw r' <= rw r)%nat.
Proof.
  intros [|k str] r r' H; cbn [check_string] in H; [congruence|].
  destruct (next r) as [c r1] eqn:En. apply next_rw in En. destruct (c =? k); [|congruence].
  destruct (check_rest str (src r1)) as [s| |] eqn:E; cbn [bind] in H; try congruence.
  inversion H; subst. apply check_rest_len in E. unfold rw in *; cbn [src cur]. lia.
Qed.
Lemma check_string_fuel : forall str r, check_string str r <> Fuel.
Proof.
  intros [|k str] r; cbn [check_string]; [congruence|].
  destruct (next r) as [c r1]. destruct (c =? k); [|congruence].
  destruct (check_rest str (src r1)) as [s| |] eqn:E; cbn [bind]; try congruence.
  exfalso. eapply check_rest_fuel; eauto.
Qed.

Lemma read_sign_rw : forall r b r1, read_sign r = (b, r1) -> (rw r1 <= rw r)%nat.
Proof.
  intros r b r1 H. unfold read_sign in H. destruct (next r) as [c r0] eqn:En. apply next_rw in En.
  pose proof (commit_rw r0).
  destruct (c =? 45); [inversion H; subst; lia|]. destruct (c =? 43); inversion H; subst; lia.
Qed.

(** Weight of a loaded character and source. *)
Definition cw (c : Z) (s : list Z) : nat := (length s + if (c =? -1)%Z then 0 else 1)%nat.

Lemma pu_loop_len : forall s acc cnt c ok v cnt' c' s', pu_loop acc cnt c s = (ok, v, cnt', c', s') ->
  (cw c' s' <= cw c s)%nat.
Proof.
  induction s as [|x s IH]; intros acc cnt c ok v cnt' c' s' H; cbn [pu_loop] in H.
  - destruct (isdigit c) eqn:Ed; [|inversion H; subst; auto].
    destruct (overflow_detection <? acc); [inversion H; subst; auto|].
    destruct (u64 (acc * 10 + (c - 48)) <? acc); inversion H; subst; auto. unfold cw. cbn. lia.
  - destruct (isdigit c) eqn:Ed; [|inversion H; subst; auto].
    destruct (overflow_detection <? acc); [inversion H; subst; auto|].
    destruct (u64 (acc * 10 + (c - 48)) <? acc); [inversion H; subst; auto|].
    apply IH in H. unfold cw in *. cbn [length]. unfold isdigit in Ed.
    replace (c =? -1) with false by lia. destruct (x =? -1); lia.
Qed.

Lemma rw_cw : forall c s, rw (mkR s (Some c)) = cw c s.
Proof. reflexivity. Qed.

Lemma cur_rw : forall r c, cur r = Some c -> rw r = cw c (src r).
Proof. intros [s cc] c H. cbn [cur] in H. subst. reflexivity. Qed.

Lemma parse_unsigned_rw : forall r ok v n r1, parse_unsigned r = (ok, v, n, r1) -> (rw r1 <= rw r)%nat.
Proof.
  intros r ok v n r1 H. unfold parse_unsigned in H. destruct (next r) as [c r0] eqn:En.
  apply next_rw in En. destruct En as [H1 H2].
  destruct (pu_loop 0 0 c (src r0)) as [[[[ok' v'] n'] c'] s'] eqn:E. apply pu_loop_len in E.
  inversion H; subst. rewrite rw_cw. rewrite (cur_rw _ _ H2) in H1. lia.
Qed.

Lemma pu_loop_first : forall s c ok v n c' s', isdigit c = true ->
  pu_loop 0 0 c s = (ok, v, n, c', s') -> (cw c' s' < cw c s)%nat.
Proof.
  intros s c ok v n c' s' Hd H.
  assert (Hz : overflow_detection <? 0 = false) by reflexivity.
  assert (Hu : u64 (0 * 10 + (c - 48)) <? 0 = false).
  { unfold isdigit in Hd. unfold u64. rewrite Z.mod_small; lia. }
  assert (Hm : c =? -1 = false) by (unfold isdigit in Hd; lia).
  destruct s as [|x s]; cbn [pu_loop] in H; rewrite Hd, Hz, Hu in H.
  - inversion H; subst. unfold cw. rewrite Hm. cbn. lia.
  - apply pu_loop_len in H. unfold cw in *. rewrite Hm. cbn [length]. destruct (x =? -1); lia.
Qed.

Lemma parse_unsigned_lt : forall r c r0 ok v n r1, next r = (c, r0) -> isdigit c = true ->
  parse_unsigned r0 = (ok, v, n, r1) -> (rw r1 < rw r)%nat.
Proof.
  intros r c r0 ok v n r1 Hn Hd H. apply next_rw in Hn. destruct Hn as [H1 H2].
  unfold parse_unsigned, next in H. rewrite H2 in H. rewrite (cur_rw _ _ H2) in H1.
  destruct (pu_loop 0 0 c (src r0)) as [[[[ok' v'] n'] c'] s'] eqn:E. inversion H; subst.
  rewrite rw_cw. apply pu_loop_first in E; auto. lia.
Qed.

Lemma parse_large_rw : forall L fuel d r d' r', parse_large L fuel d r = Ok (d', r') -> (rw r' <= rw r)%nat.
Proof.
  induction fuel as [|f IH]; intros d r d' r' H; cbn [parse_large] in H; [congruence|].
  destruct (next r) as [c r1] eqn:En. destruct (isdigit c) eqn:Ed.
  - destruct (parse_unsigned r1) as [[[ok p] n] r2] eqn:Ep.
    cbv zeta in H. match type of H with context [f_isinf ?x] => destruct (f_isinf x) end; [congruence|].
    apply IH in H. pose proof (parse_unsigned_lt _ _ _ _ _ _ _ En Ed Ep). lia.
  - inversion H; subst. apply next_rw in En. tauto.
Qed.

Lemma parse_large_fuel : forall L fuel d r, (rw r < fuel)%nat -> parse_large L fuel d r <> Fuel.
Proof.
  induction fuel as [|f IH]; intros d r H; cbn [parse_large]; [lia|].
  destruct (next r) as [c r1] eqn:En. destruct (isdigit c) eqn:Ed; [|congruence].
  destruct (parse_unsigned r1) as [[[ok p] n] r2] eqn:Ep. cbv zeta.
  match goal with |- context [f_isinf ?x] => destruct (f_isinf x) end; [congruence|].
  apply IH. pose proof (parse_unsigned_lt _ _ _ _ _ _ _ En Ed Ep). lia.
Qed.

Lemma decimal_loop_len : forall s d p c d' p' c' s', decimal_loop d p c s = (d', p', c', s') ->
  (cw c' s' <= cw c s)%nat.
Proof.
  induction s as [|x s IH]; intros d p c d' p' c' s' H; cbn [decimal_loop] in H;
    destruct (isdigit c) eqn:Ed; try (inversion H; subst; unfold cw; cbn; lia).
  apply IH in H. unfold isdigit in Ed. unfold cw in *. cbn [length].
  replace (c =? -1) with false by lia. destruct (x =? -1); lia.
Qed.

Lemma parse_decimal_rw : forall L r d r', parse_decimal L r = (d, r') -> (rw r' <= rw r)%nat.
Proof.
  intros L r d r' H. unfold parse_decimal in H. destruct (next r) as [c r1] eqn:En.
  apply next_rw in En. destruct En as [H1 H2]. rewrite (cur_rw _ _ H2) in H1.
  destruct (decimal_loop (S754_zero false) 0 c (src r1)) as [[[d1 p1] c'] s'] eqn:E.
  inversion H; subst. rewrite rw_cw. apply decimal_loop_len in E. lia.
Qed.

Ltac nx H := let E := fresh "En" in match type of H with context [next ?r] =>
  destruct (next r) as [? ?] eqn:E; apply next_rw in E; destruct E as [? ?] end.

Lemma parse_double_rw : forall L i b r v r', parse_double L i b r = Ok (v, r') -> (rw r' <= rw r)%nat.
Proof.
  intros L i b r v r' H. unfold parse_double in H.
  destruct (parse_large L (large_fuel r) (f_of_Z i) r) as [[d0 r0]| |] eqn:El; cbn [bind] in H; try congruence.
  apply parse_large_rw in El. nx H.
  match type of H with bind ?m _ = _ => destruct m as [[d1 r2]| |] eqn:E1 end; cbn [bind] in H; try congruence.
  assert (rw r2 <= rw r)%nat.
  { destruct (z =? 46); [|inversion E1; subst; lia]. pose proof (commit_rw r1). nx E1.
    destruct (isdigit z0); [|congruence]. destruct (parse_decimal L r3) as [fr r4] eqn:Ed.
    apply parse_decimal_rw in Ed. inversion E1; subst. lia. }
  nx H.
  match type of H with bind ?m _ = _ => destruct m as [[d2 r4]| |] eqn:E2 end; cbn [bind] in H; try congruence.
  inversion H; subst.
  destruct (is_e z0); [|inversion E2; subst; lia]. pose proof (commit_rw r3).
  destruct (read_sign (commit r3)) as [ng r5] eqn:Es. apply read_sign_rw in Es.
  nx E2. destruct (isdigit z1); [|congruence].
  destruct (parse_unsigned r4) as [[[ok ex] n] r7] eqn:Eu. apply parse_unsigned_rw in Eu.
  destruct ok; [|congruence]. inversion E2; subst. lia.
Qed.

Lemma parse_double_fuel : forall L i b r, parse_double L i b r <> Fuel.
Proof.
  intros L i b r H. unfold parse_double in H.
  destruct (parse_large L (large_fuel r) (f_of_Z i) r) as [[d0 r0]| |] eqn:El; cbn [bind] in H; try congruence.
  2:{ apply parse_large_fuel in El; auto. unfold large_fuel, rw. destruct (cur r) as [c|]; [destruct (c =? -1)|]; lia. }
  destruct (next r0) as [c r1].
  match type of H with bind ?m _ = _ => destruct m as [[d1 r2]| |] eqn:E1 end; cbn [bind] in H; try congruence.
  2:{ destruct (c =? 46); [|congruence]. destruct (next (commit r1)) as [c1 r1'].
      destruct (isdigit c1); [|congruence]. destruct (parse_decimal L r1') as [fr r4]. congruence. }
  destruct (next r2) as [c2 r3].
  match type of H with bind ?m _ = _ => destruct m as [[d2 r4]| |] eqn:E2 end; cbn [bind] in H; try congruence.
  destruct (is_e c2); [|congruence].
  destruct (read_sign (commit r3)) as [ng r5]. destruct (next r5) as [c3 r6]. destruct (isdigit c3); [|congruence].
  destruct (parse_unsigned r6) as [[[ok ex] n] r7]. destruct ok; congruence.
Qed.

Lemma digit_run_len : forall s c ds c' s', digit_run c s = (ds, c', s') -> (cw c' s' <= cw c s)%nat.
Proof.
  induction s as [|x s IH]; intros c ds c' s' H; cbn [digit_run] in H;
    destruct (isdigit c) eqn:Ed; try (inversion H; subst; unfold cw; cbn; lia).
  destruct (digit_run x s) as [[ds1 c1] s1] eqn:E. inversion H; subst. apply IH in E.
  unfold isdigit in Ed. unfold cw in *. cbn [length].
  replace (c =? -1) with false by lia. destruct (x =? -1); lia.
Qed.

Lemma pull_len : forall s c s', pull s = (c, s') -> (cw c s' <= length s)%nat.
Proof.
  intros [|x s] c s' H; inversion H; subst; unfold cw; cbn; [lia|]. destruct (c =? -1); lia.
Qed.

Lemma next_commit_rw : forall r c r1, next_commit r = (c, r1) -> (cw c (src r1) <= rw r)%nat.
Proof.
  intros [s [x|]] c r1 H; unfold next_commit in H; cbn [cur src] in H.
  - inversion H; subst. cbn [src]. rewrite <- rw_cw. auto.
  - destruct (pull s) as [c' s'] eqn:E. apply pull_len in E. inversion H; subst. cbn [src].
    unfold rw; cbn [cur src]. lia.
Qed.

Lemma cw_len : forall c s, (length s <= cw c s)%nat.
Proof. intros. unfold cw. destruct (c =? -1); lia. Qed.

Lemma parse_precise_rw : forall r t b r', parse_precise r = Ok (t, b, r') -> (rw r' <= rw r)%nat.
Proof.
  intros r t b r' H. unfold parse_precise in H.
  destruct (next_commit r) as [c0 r0] eqn:E0. apply next_commit_rw in E0.
  match type of H with match ?m with _ => _ end = _ => destruct m as [[sgn c1] s1] eqn:E1 end.
  assert (cw c1 s1 <= rw r)%nat.
  { destruct ((c0 =? 43) || (c0 =? 45)).
    - destruct (pull (src r0)) as [c s] eqn:Ep. apply pull_len in Ep. inversion E1; subst.
      pose proof (cw_len c0 (src r0)). lia.
    - inversion E1; subst. auto. }
  destruct (isdigit c1); [|congruence].
  destruct (digit_run c1 s1) as [[ip c2] s2] eqn:E2. apply digit_run_len in E2.
  match type of H with match ?m with _ => _ end = _ => destruct m as [[[fp isf] c3] s3] eqn:E3 end.
  assert (cw c3 s3 <= rw r)%nat.
  { destruct (c2 =? 46).
    - destruct (pull s2) as [c s] eqn:Ep. apply pull_len in Ep.
      destruct (digit_run c s) as [[ds c'] s'] eqn:Ed. apply digit_run_len in Ed. inversion E3; subst.
      pose proof (cw_len c2 s2). lia.
    - inversion E3; subst. lia. }
  destruct (is_e c3); [|inversion H; subst; rewrite rw_cw; lia].
  destruct (pull s3) as [c4 s4] eqn:E4. apply pull_len in E4. pose proof (cw_len c3 s3).
  match type of H with match ?m with _ => _ end = _ => destruct m as [[es c5] s5] eqn:E5 end.
  assert (cw c5 s5 <= rw r)%nat.
  { destruct ((c4 =? 43) || (c4 =? 45)).
    - destruct (pull s4) as [c s] eqn:Ep. apply pull_len in Ep. inversion E5; subst.
      pose proof (cw_len c4 s4). lia.
    - inversion E5; subst. lia. }
  destruct (isdigit c5); [|congruence].
  destruct (digit_run c5 s5) as [[ed c6] s6] eqn:E6. apply digit_run_len in E6.
  inversion H; subst. rewrite rw_cw. lia.
Qed.

Lemma parse_precise_fuel : forall r, parse_precise r <> Fuel.
Proof.
  intros r H. unfold parse_precise in H.
  destruct (next_commit r) as [c0 r0].
  match type of H with match ?m with _ => _ end = _ => destruct m as [[sgn c1] s1] end.
  destruct (isdigit c1); [|congruence].
  destruct (digit_run c1 s1) as [[ip c2] s2].
  match type of H with match ?m with _ => _ end = _ => destruct m as [[[fp isf] c3] s3] end.
  destruct (is_e c3); [|congruence].
  destruct (pull s3) as [c4 s4].
  match type of H with match ?m with _ => _ end = _ => destruct m as [[es c5] s5] end.
  destruct (isdigit c5); [|congruence].
  destruct (digit_run c5 s5) as [[ed c6] s6]. congruence.
Qed.

Lemma parse_number_rw : forall L F r v r', parse_number L F r = Ok (v, r') -> (rw r' <= rw r)%nat.
Proof.
  intros L F r v r' H. unfold parse_number in H. destruct (precise F).
  - destruct (parse_precise r) as [[[t b] r1]| |] eqn:E; cbn [bind] in H; try congruence.
    inversion H; subst. eapply parse_precise_rw; eauto.
  - destruct (read_sign r) as [sg r1] eqn:Es. apply read_sign_rw in Es. nx H.
    destruct (negb (isdigit z) && negb (z =? 46)); [congruence|].
    destruct (parse_unsigned r0) as [[[ok p] n] r3] eqn:Ep. apply parse_unsigned_rw in Ep. nx H.
    destruct (negb ok || (z0 =? 46) || is_e z0).
    + apply parse_double_rw in H. lia.
    + destruct sg; [destruct (Z.testbit p 63)|]; inversion H; subst; lia.
Qed.

Lemma parse_number_fuel : forall L F r, parse_number L F r <> Fuel.
Proof.
  intros L F r H. unfold parse_number in H. destruct (precise F).
  - destruct (parse_precise r) as [[[t b] r1]| |] eqn:E; cbn [bind] in H; try congruence.
    eapply parse_precise_fuel; eauto.
  - destruct (read_sign r) as [sg r1]. destruct (next r1) as [c r2].
    destruct (negb (isdigit c) && negb (c =? 46)); [congruence|].
    destruct (parse_unsigned r2) as [[[ok p] n] r3]. destruct (next r3) as [c3 r4].
    destruct (negb ok || (c3 =? 46) || is_e c3).
    + apply parse_double_fuel in H. auto.
    + destruct sg; [destruct (Z.testbit p 63)|]; congruence.
Qed.

Lemma finish_object_fuel : forall F l, finish_object F l <> Fuel.
Proof.
  intros F l. unfold finish_object. cbv zeta.
  match goal with |- (if ?b then _ else _) <> _ => destruct b end; congruence.
Qed.

Section Fuel.
Variables (L : libm) (F : pflags).

Lemma parse_rw_all : forall f,
  (forall r v r', parse L F f r = Ok (v, r') -> (rw r' <= rw r)%nat) /\
  (forall c r acc v r', parse_obj L F f c r acc = Ok (v, r') -> (rw r' <= rw r)%nat) /\
  (forall r acc v r', parse_arr L F f r acc = Ok (v, r') -> (rw r' <= rw r)%nat).
Proof.
  induction f as [|f (IHp & IHo & IHa)].
  { repeat split; intros; cbn in *; congruence. }
  split; [|split].
  - intros r v r' H. cbn [parse] in H.
    destruct (next_ws r) as [c r1] eqn:E1. apply next_ws_rw in E1. destruct E1 as [E1 _].
    pose proof (commit_rw r1) as Ec.
    destruct (c =? 123).
    { destruct (next_ws (commit r1)) as [c1 r2] eqn:E2. apply next_ws_rw in E2. destruct E2 as [E2 _].
      destruct (c1 =? 125); [inversion H; subst; pose proof (commit_rw r2); lia|].
      apply IHo in H. lia. }
    destruct (c =? 91).
    { destruct (next_ws (commit r1)) as [c1 r2] eqn:E2. apply next_ws_rw in E2. destruct E2 as [E2 _].
      destruct (c1 =? 93); [inversion H; subst; pose proof (commit_rw r2); lia|].
      apply IHa in H. lia. }
    destruct (c =? 34).
    { destruct (read_string_r (commit r1)) as [[t r2]| |] eqn:E2; cbn [bind] in H; try congruence.
      apply read_string_r_rw in E2. inversion H; subst. lia. }
    destruct (c =? 116).
    { destruct (check_string str_true r1) as [r2| |] eqn:E2; cbn [bind] in H; try congruence.
      apply check_string_rw in E2. inversion H; subst. lia. }
    destruct (c =? 102).
    { destruct (check_string str_false r1) as [r2| |] eqn:E2; cbn [bind] in H; try congruence.
      apply check_string_rw in E2. inversion H; subst. lia. }
    destruct (c =? 110).
    { destruct (check_string str_null r1) as [r2| |] eqn:E2; cbn [bind] in H; try congruence.
      apply check_string_rw in E2. inversion H; subst. lia. }
    destruct (isdigit c || (c =? 43) || (c =? 45) || (c =? 46)); [|congruence].
    apply parse_number_rw in H. lia.
  - intros c r acc v r' H. cbn [parse_obj] in H. destruct (c =? 34); [|congruence].
    pose proof (commit_rw r) as Ec.
    destruct (read_string_r (commit r)) as [[t r1]| |] eqn:E1; cbn [bind] in H; try congruence.
    apply read_string_r_rw in E1.
    destruct (next_ws r1) as [c1 r2] eqn:E2. apply next_ws_rw in E2. destruct E2 as [E2 _].
    destruct (c1 =? 58); [|congruence]. pose proof (commit_rw r2) as Ec2.
    destruct (parse L F f (commit r2)) as [[v0 r3]| |] eqn:E3; cbn [bind] in H; try congruence.
    apply IHp in E3. cbv zeta in H.
    destruct (next_ws r3) as [c2 r4] eqn:E4. apply next_ws_rw in E4. destruct E4 as [E4 _].
    pose proof (commit_rw r4) as Ec4.
    destruct (c2 =? 125).
    { destruct (finish_object F (rev ((t, v0) :: acc))) as [o| |]; cbn [bind] in H; try congruence.
      inversion H; subst. lia. }
    destruct (c2 =? 44); [|congruence].
    destruct (next_ws (commit r4)) as [c3 r6] eqn:E6. apply next_ws_rw in E6. destruct E6 as [E6 _].
    apply IHo in H. lia.
  - intros r acc v r' H. cbn [parse_arr] in H.
    destruct (parse L F f r) as [[v0 r3]| |] eqn:E3; cbn [bind] in H; try congruence.
    apply IHp in E3. cbv zeta in H.
    destruct (next_ws r3) as [c2 r4] eqn:E4. apply next_ws_rw in E4. destruct E4 as [E4 _].
    pose proof (commit_rw r4) as Ec4.
    destruct (c2 =? 93); [inversion H; subst; lia|].
    destruct (c2 =? 44); [|congruence]. apply IHa in H. lia.
Qed.

Lemma parse_rw : forall f r v r', parse L F f r = Ok (v, r') -> (rw r' <= rw r)%nat.
Proof. intros f. apply (parse_rw_all f). Qed.

Lemma parse_fuel_all : forall f,
  (forall r, (2 * rw r < f)%nat -> parse L F f r <> Fuel) /\
  (forall c r acc, (2 * rw r + 1 < f)%nat -> parse_obj L F f c r acc <> Fuel) /\
  (forall r acc, (2 * rw r + 1 < f)%nat -> parse_arr L F f r acc <> Fuel).
Proof.
  induction f as [|f (IHp & IHo & IHa)].
  { repeat split; intros; lia. }
  split; [|split].
  - intros r Hf. cbn [parse].
    destruct (next_ws r) as [c r1] eqn:E1. apply next_ws_rw in E1. destruct E1 as [E1 E1'].
    destruct (c =? 123) eqn:Ec.
    { specialize (E1' ltac:(lia)).
      destruct (next_ws (commit r1)) as [c1 r2] eqn:E2. apply next_ws_rw in E2. destruct E2 as [E2 _].
      destruct (c1 =? 125); [congruence|]. apply IHo. lia. }
    destruct (c =? 91) eqn:Ec1.
    { specialize (E1' ltac:(lia)).
      destruct (next_ws (commit r1)) as [c1 r2] eqn:E2. apply next_ws_rw in E2. destruct E2 as [E2 _].
      destruct (c1 =? 93); [congruence|]. apply IHa. lia. }
    destruct (c =? 34).
    { destruct (read_string_r (commit r1)) as [[t r2]| |] eqn:E2; cbn [bind]; try congruence.
      apply read_string_r_fuel in E2. tauto. }
    destruct (c =? 116).
    { destruct (check_string str_true r1) as [r2| |] eqn:E2; cbn [bind]; try congruence.
      apply check_string_fuel in E2. tauto. }
    destruct (c =? 102).
    { destruct (check_string str_false r1) as [r2| |] eqn:E2; cbn [bind]; try congruence.
      apply check_string_fuel in E2. tauto. }
    destruct (c =? 110).
    { destruct (check_string str_null r1) as [r2| |] eqn:E2; cbn [bind]; try congruence.
      apply check_string_fuel in E2. tauto. }
    destruct (isdigit c || (c =? 43) || (c =? 45) || (c =? 46)); [|congruence].
    apply parse_number_fuel.
  - intros c r acc Hf. cbn [parse_obj]. destruct (c =? 34); [|congruence].
    pose proof (commit_rw r) as Ec.
    destruct (read_string_r (commit r)) as [[t r1]| |] eqn:E1; cbn [bind]; try congruence.
    2:{ apply read_string_r_fuel in E1. tauto. }
    apply read_string_r_rw in E1.
    destruct (next_ws r1) as [c1 r2] eqn:E2. apply next_ws_rw in E2. destruct E2 as [E2 _].
    destruct (c1 =? 58); [|congruence]. pose proof (commit_rw r2) as Ec2.
    destruct (parse L F f (commit r2)) as [[v0 r3]| |] eqn:E3; cbn [bind]; try congruence.
    2:{ apply IHp in E3; [tauto|lia]. }
    apply parse_rw in E3. cbv zeta.
    destruct (next_ws r3) as [c2 r4] eqn:E4. apply next_ws_rw in E4. destruct E4 as [E4 _].
    pose proof (commit_rw r4) as Ec4.
    destruct (c2 =? 125).
    { destruct (finish_object F (rev ((t, v0) :: acc))) as [o| |] eqn:Eo; cbn [bind]; try congruence.
      apply finish_object_fuel in Eo. tauto. }
    destruct (c2 =? 44); [|congruence].
    destruct (next_ws (commit r4)) as [c3 r6] eqn:E6. apply next_ws_rw in E6. destruct E6 as [E6 _].
    apply IHo. lia.
  - intros r acc Hf. cbn [parse_arr].
    destruct (parse L F f r) as [[v0 r3]| |] eqn:E3; cbn [bind]; try congruence.
    2:{ apply IHp in E3; [tauto|lia]. }
    apply parse_rw in E3. cbv zeta.
    destruct (next_ws r3) as [c2 r4] eqn:E4. apply next_ws_rw in E4. destruct E4 as [E4 E4'].
    destruct (c2 =? 93); [congruence|].
    destruct (c2 =? 44) eqn:Ec; [|congruence]. specialize (E4' ltac:(lia)). apply IHa. lia.
Qed.

Lemma parse_mono_all : forall f,
  (forall r, parse L F f r <> Fuel -> parse L F (S f) r = parse L F f r) /\
  (forall c r acc, parse_obj L F f c r acc <> Fuel -> parse_obj L F (S f) c r acc = parse_obj L F f c r acc) /\
  (forall r acc, parse_arr L F f r acc <> Fuel -> parse_arr L F (S f) r acc = parse_arr L F f r acc).
Proof.
  induction f as [|f (IHp & IHo & IHa)].
  { repeat split; intros; cbn in *; congruence. }
  split; [|split].
  - intros r H. remember (S f) as g eqn:Eg. cbn [parse].
    replace (parse L F g r) with (parse L F (S f) r) in * by (subst; reflexivity). cbn [parse] in *.
    destruct (next_ws r) as [c r1].
    destruct (c =? 123).
    { destruct (next_ws (commit r1)) as [c1 r2]. destruct (c1 =? 125); [reflexivity|].
      subst g. apply IHo; auto. }
    destruct (c =? 91).
    { destruct (next_ws (commit r1)) as [c1 r2]. destruct (c1 =? 93); [reflexivity|].
      subst g. apply IHa; auto. }
    reflexivity.
  - intros c r acc H. remember (S f) as g eqn:Eg. cbn [parse_obj].
    replace (parse_obj L F g c r acc) with (parse_obj L F (S f) c r acc) in * by (subst; reflexivity).
    cbn [parse_obj] in *.
    destruct (c =? 34); [|reflexivity].
    destruct (read_string_r (commit r)) as [[t r1]| |]; cbn [bind] in *; try reflexivity.
    destruct (next_ws r1) as [c1 r2]. destruct (c1 =? 58); [|reflexivity].
    assert (Hp : parse L F g (commit r2) = parse L F f (commit r2)).
    { subst g. apply IHp. intros E. rewrite E in H. cbn [bind] in H. congruence. }
    rewrite Hp. destruct (parse L F f (commit r2)) as [[v0 r3]| |]; cbn [bind] in *; try reflexivity.
    cbv zeta in *. destruct (next_ws r3) as [c2 r4]. destruct (c2 =? 125); [reflexivity|].
    destruct (c2 =? 44); [|reflexivity]. destruct (next_ws (commit r4)) as [c3 r6].
    subst g. apply IHo; auto.
  - intros r acc H. remember (S f) as g eqn:Eg. cbn [parse_arr].
    replace (parse_arr L F g r acc) with (parse_arr L F (S f) r acc) in * by (subst; reflexivity).
    cbn [parse_arr] in *.
    assert (Hp : parse L F g r = parse L F f r).
    { subst g. apply IHp. intros E. rewrite E in H. cbn [bind] in H. congruence. }
    rewrite Hp. destruct (parse L F f r) as [[v0 r3]| |]; cbn [bind] in *; try reflexivity.
    cbv zeta in *. destruct (next_ws r3) as [c2 r4]. destruct (c2 =? 93); [reflexivity|].
    destruct (c2 =? 44); [|reflexivity]. subst g. apply IHa; auto.
Qed.

Lemma parse_mono : forall f g r, (f <= g)%nat -> parse L F f r <> Fuel -> parse L F g r = parse L F f r.
Proof.
  intros f g r H Hn. induction H as [|g H IH]; [reflexivity|].
  rewrite <- IH. apply parse_mono_all. rewrite IH. exact Hn.
Qed.

Lemma parse_source_fuel : forall s, parse_source L F s <> Fuel.
Proof.
  intros s. unfold parse_source. apply parse_fuel_all. unfold rw. cbn [src cur]. lia.
Qed.

(** With enough fuel the result is that of [parse_source]. *)
Lemma parse_source_any : forall s f, parse L F f (mkR s None) <> Fuel ->
  parse_source L F s = parse L F f (mkR s None).
Proof.
  intros s f H. unfold parse_source.
  set (g := S (2 * length s)). pose proof (parse_source_fuel s) as Hs. unfold parse_source in Hs. fold g in Hs.
  destruct (Nat.le_ge_cases f g) as [Hl|Hl].
  - apply parse_mono; auto.
  - symmetry. apply parse_mono; auto.
Qed.
End Fuel.
