(** What the parser reads does not depend on what follows. *)
From Coq Require Import ZifyBool.
From Verif Require Import Base SpecUtf8 ModelUtf8 ModelKeyed ModelValue ModelText SpecText ProofText3.
Local Open Scope list_scope.
Local Open Scope Z_scope.

Definition moves (P : reader -> reader -> Prop) (r r' : reader) : Prop :=
  exists t, src r = t ++ src r' /\ forall e, P (mkR (t ++ e) (cur r)) (mkR e (cur r')).

Lemma moves_seq : forall (P Q R : reader -> reader -> Prop) r r1 r2,
  moves P r r1 -> moves Q r1 r2 -> (forall a b c, P a b -> Q b c -> R a c) -> moves R r r2.
Proof.
  intros P Q R r r1 r2 (t & E & H) (u & E2 & H2) HR. exists (t ++ u). split.
  - rewrite E, E2, app_assoc. reflexivity.
  - intros e. rewrite <- app_assoc. eapply HR; [apply H|apply H2].
Qed.

Lemma moves_imp : forall (P R : reader -> reader -> Prop) r r',
  moves P r r' -> (forall a b, P a b -> R a b) -> moves R r r'.
Proof. intros P R r r' (t & E & H) HR. exists t. split; auto. Qed.

Lemma moves_stay : forall (P : reader -> reader -> Prop) r r', src r = src r' ->
  (forall e, P (mkR e (cur r)) (mkR e (cur r'))) -> moves P r r'.
Proof. intros P r r' E H. exists []. split; auto. Qed.

Definition live (r : reader) : Prop := cur r <> Some (-1).

Lemma next_m : forall r c r1, next r = (c, r1) -> c <> -1 -> moves (fun a b => next a = (c, b)) r r1.
Proof.
  intros [s [x|]] c r1 H Hc; unfold next in H; cbn [cur src] in H.
  - inversion H; subst. apply moves_stay; auto.
  - destruct s as [|y s]; cbn [pull] in H; inversion H; subst; [congruence|].
    exists [c]. split; [reflexivity|]. intros e. reflexivity.
Qed.

Lemma next_cur : forall r c r1, next r = (c, r1) -> cur r1 = Some c.
Proof. intros r c r1 H. apply next_rw in H. apply H. Qed.

Lemma next_again : forall r c, cur r = Some c -> next r = (c, r).
Proof. intros r c H. unfold next. rewrite H. reflexivity. Qed.

Lemma commit_m : forall r, moves (fun a b => commit a = b) r (commit r).
Proof. intros r. apply moves_stay; reflexivity. Qed.

Lemma skip_ws_m : forall s c c' s', skip_ws c s = (c', s') -> c' <> -1 ->
  exists t, s = t ++ s' /\ forall e, skip_ws c (t ++ e) = (c', e).
Proof.
  induction s as [|x s IH]; intros c c' s' H Hc; cbn [skip_ws] in H.
  - destruct (isspace (char_of c)) eqn:E; inversion H; subst; [congruence|].
    exists []. split; [reflexivity|]. intros [|y e]; cbn [app skip_ws]; rewrite E; reflexivity.
  - destruct (isspace (char_of c)) eqn:E.
    + destruct (IH _ _ _ H Hc) as (t & -> & Ht). exists (x :: t). split; [reflexivity|].
      intros e. cbn [app skip_ws]. rewrite E. apply Ht.
    + inversion H; subst. exists []. split; [reflexivity|].
      intros [|y e]; cbn [app skip_ws]; rewrite E; reflexivity.
Qed.

Lemma next_ws_m : forall r c r1, next_ws r = (c, r1) -> c <> -1 -> moves (fun a b => next_ws a = (c, b)) r r1.
Proof.
  intros r c r1 H Hc. unfold next_ws in H.
  destruct (next r) as [x r0] eqn:E. destruct (skip_ws x (src r0)) as [y s'] eqn:Es. inversion H; subst c r1.
  assert (y <> -1) as Hy by (intros ->; apply Hc; reflexivity).
  destruct (skip_ws_m _ _ _ _ Es Hy) as (t & Et & Ht).
  assert (x <> -1) as Hx.
  { intros ->. revert Es. generalize (src r0). intros [|z l]; cbn [skip_ws];
      change (isspace (char_of (-1))) with false; cbv iota; congruence. }
  apply moves_seq with (P := fun a b => next a = (x, b)) (r1 := r0)
    (Q := fun b d => skip_ws x (src b) = (y, src d) /\ cur d = Some y); [exact (next_m _ _ _ E Hx)| |].
  - exists t. split; [exact Et|]. intros e. split; [exact (Ht e)|reflexivity].
  - intros a b [sd cd] Hab [Hs Hd]. cbn [src cur] in *. subst cd.
    unfold next_ws. rewrite Hab, Hs. reflexivity.
Qed.

Lemma next_ws_cur : forall r c r1, next_ws r = (c, r1) -> exists x, cur r1 = Some x /\ c = char_of x.
Proof.
  intros r c r1 H. unfold next_ws in H. destruct (next r) as [x r0]. destruct (skip_ws x (src r0)) as [y s'].
  inversion H; subst. exists y. auto.
Qed.

(** A reader which has met the end does not go on. *)
Lemma next_ws_dead : forall r c r1, next_ws r = (c, r1) -> cur r = Some (-1) -> c = -1.
Proof.
  intros r c r1 H Hr. unfold next_ws in H. rewrite (next_again _ _ Hr) in H.
  replace (skip_ws (-1) (src r)) with (-1, src r) in H
    by (destruct (src r); cbn [skip_ws]; change (isspace (char_of (-1))) with false; reflexivity).
  inversion H. reflexivity.
Qed.

Lemma read_string_m : forall n s st acc t s', (length s <= n)%nat -> read_string st acc s = Ok (t, s') ->
  exists p, s = p ++ s' /\ forall e, read_string st acc (p ++ e) = Ok (t, e).
Proof.
  induction n as [|n IH]; intros s st acc t s' Hn H.
  { destruct s; [discriminate|cbn [length] in Hn; lia]. }
  destruct s as [|c s1]; [discriminate|]. cbn [length] in Hn. cbn [read_string] in H.
  destruct (c =? -1) eqn:E1; [discriminate|].
  destruct (c =? 34) eqn:E2.
  { inversion H; subst. exists [c]. split; [reflexivity|]. intros e. cbn [app read_string]. rewrite E1, E2. reflexivity. }
  destruct (c =? 92) eqn:E3.
  - destruct s1 as [|x s2]; [discriminate|]. cbn [length] in Hn.
    destruct (simple_escape x) as [y|] eqn:E4.
    + destruct (IH s2 _ _ _ _ ltac:(lia) H) as (p & -> & Hp). exists (c :: x :: p). split; [reflexivity|].
      intros e. cbn [app read_string]. rewrite E1, E2, E3, E4. apply Hp.
    + destruct (x =? 117) eqn:E5; [|discriminate].
      destruct s2 as [|h1 [|h2 [|h3 [|h4 s3]]]]; try discriminate. cbn [length] in Hn.
      destruct (IH s3 _ _ _ _ ltac:(lia) H) as (p & -> & Hp).
      exists (c :: x :: h1 :: h2 :: h3 :: h4 :: p). split; [reflexivity|].
      intros e. cbn [app read_string]. rewrite E1, E2, E3, E4, E5. apply Hp.
  - destruct (utf8_step st c) as [st1 ws] eqn:E4.
    destruct (IH s1 _ _ _ _ ltac:(lia) H) as (p & -> & Hp). exists (c :: p). split; [reflexivity|].
    intros e. cbn [app read_string]. rewrite E1, E2, E3, E4. apply Hp.
Qed.

Lemma read_string_r_m : forall r t r', read_string_r r = Ok (t, r') -> moves (fun a b => read_string_r a = Ok (t, b)) r r'.
Proof.
  intros r t r' H. unfold read_string_r in H.
  destruct (read_string u_init [] (src r)) as [[t0 s]| |] eqn:E; cbn [bind] in H; try discriminate. inversion H; subst.
  destruct (read_string_m _ _ _ _ _ _ (le_n _) E) as (p & Ep & Hp). exists p. split; [exact Ep|].
  intros e. unfold read_string_r. cbn [src cur]. rewrite Hp. reflexivity.
Qed.

Lemma read_string_cur : forall r t r', read_string_r r = Ok (t, r') -> cur r' = cur r.
Proof.
  intros r t r' H. unfold read_string_r in H.
  destruct (read_string u_init [] (src r)) as [[t0 s]| |]; cbn [bind] in H; try discriminate. inversion H; reflexivity.
Qed.

Lemma check_rest_m : forall str s s', Forall (fun k => k <> -1) str -> check_rest str s = Ok s' ->
  exists p, s = p ++ s' /\ forall e, check_rest str (p ++ e) = Ok e.
Proof.
  induction str as [|k str IH]; intros s s' Hk H; cbn [check_rest] in H.
  - inversion H; subst. exists []. split; auto.
  - destruct s as [|c s1]; cbn [pull] in H.
    + pose proof (Forall_inv Hk) as Hx; cbv beta in Hx. replace (-1 =? k) with false in H by lia. discriminate.
    + destruct (c =? k) eqn:E; [|discriminate].
      destruct (IH _ _ (Forall_inv_tail Hk) H) as (p & -> & Hp). exists (c :: p). split; [reflexivity|].
      intros e. cbn [app check_rest pull]. rewrite E. apply Hp.
Qed.

Lemma check_string_m : forall str r r', Forall (fun k => k <> -1) str -> check_string str r = Ok r' ->
  moves (fun a b => check_string str a = Ok b) r r'.
Proof.
  intros [|k str] r r' Hk H; cbn [check_string] in H; [discriminate|].
  destruct (next r) as [c r1] eqn:E. destruct (c =? k) eqn:Ek; [|discriminate].
  destruct (check_rest str (src r1)) as [s| |] eqn:Er; cbn [bind] in H; try discriminate. inversion H; subst r'.
  destruct (check_rest_m _ _ _ (Forall_inv_tail Hk) Er) as (p & Ep & Hp).
  assert (c <> -1) as Hc by (pose proof (Forall_inv Hk); cbv beta in *; lia).
  apply moves_seq with (P := fun a b => next a = (c, b)) (r1 := r1)
    (Q := fun b d => check_rest str (src b) = Ok (src d) /\ cur d = None); [exact (next_m _ _ _ E Hc)| |].
  - exists p. split; [exact Ep|]. intros e. split; [exact (Hp e)|reflexivity].
  - intros a b [sd cd] Hab [Hs Hd]. cbn [src cur] in *. subst cd.
    cbn [check_string]. rewrite Hab, Ek, Hs. reflexivity.
Qed.

Lemma check_string_cur : forall str r r', check_string str r = Ok r' -> cur r' = None.
Proof.
  intros [|k str] r r' H; cbn [check_string] in H; [discriminate|].
  destruct (next r) as [c r1]. destruct (c =? k); [|discriminate].
  destruct (check_rest str (src r1)) as [s| |]; cbn [bind] in H; inversion H. reflexivity.
Qed.

(** *** Numbers *)
Lemma pu_loop_m : forall s acc cnt c ok v n c' s', pu_loop acc cnt c s = (ok, v, n, c', s') -> c' <> -1 ->
  exists t, s = t ++ s' /\ forall e, pu_loop acc cnt c (t ++ e) = (ok, v, n, c', e).
Proof.
  induction s as [|x s IH]; intros acc cnt c ok v n c' s' H Hc; cbn [pu_loop] in H; cbv zeta in H;
    (destruct (isdigit c) eqn:E1;
     [destruct (overflow_detection <? acc) eqn:E2;
       [|destruct (u64 (acc * 10 + (c - 48)) <? acc) eqn:E3]|]).
  1,2,4,5,6,8: inversion H; subst; exists []; split; [reflexivity|];
    intros [|y e]; cbn [app pu_loop]; cbv zeta; rewrite E1; try rewrite E2; try rewrite E3; reflexivity.
  - inversion H; subst. congruence.
  - destruct (IH _ _ _ _ _ _ _ _ H Hc) as (t & -> & Ht). exists (x :: t). split; [reflexivity|].
    intros e. cbn [app pu_loop]. cbv zeta. rewrite E1, E2, E3. apply Ht.
Qed.

Lemma parse_unsigned_cur : forall r ok v n r', parse_unsigned r = (ok, v, n, r') -> exists c, cur r' = Some c.
Proof.
  intros r ok v n r' H. unfold parse_unsigned in H. destruct (next r) as [c r1].
  destruct (pu_loop 0 0 c (src r1)) as [[[[o x] y] z] w]. inversion H. eexists; reflexivity.
Qed.

Lemma parse_unsigned_m : forall r ok v n r', parse_unsigned r = (ok, v, n, r') -> live r' ->
  moves (fun a b => parse_unsigned a = (ok, v, n, b)) r r'.
Proof.
  intros r ok v n r' H Hl. unfold parse_unsigned in H.
  destruct (next r) as [c r1] eqn:E. destruct (pu_loop 0 0 c (src r1)) as [[[[o x] y] z] w] eqn:Ep.
  inversion H; subst o x y r'. unfold live in Hl. cbn [cur] in Hl.
  assert (z <> -1) as Hz by congruence.
  destruct (pu_loop_m _ _ _ _ _ _ _ _ _ Ep Hz) as (t & Et & Ht).
  assert (c <> -1) as Hc.
  { intros ->. revert Ep. generalize (src r1). intros [|q l]; cbn [pu_loop];
      change (isdigit (-1)) with false; cbv iota; congruence. }
  apply moves_seq with (P := fun a b => next a = (c, b)) (r1 := r1)
    (Q := fun b d => pu_loop 0 0 c (src b) = (ok, v, n, z, src d) /\ cur d = Some z); [exact (next_m _ _ _ E Hc)| |].
  - exists t. split; [exact Et|]. intros e. split; [exact (Ht e)|reflexivity].
  - intros a b [sd cd] Hab [Hs Hd]. cbn [src cur] in *. subst cd.
    unfold parse_unsigned. rewrite Hab, Hs. reflexivity.
Qed.

Lemma decimal_loop_m : forall s d pos c d' p c' s', decimal_loop d pos c s = (d', p, c', s') -> c' <> -1 ->
  exists t, s = t ++ s' /\ forall e, decimal_loop d pos c (t ++ e) = (d', p, c', e).
Proof.
  induction s as [|x s IH]; intros d pos c d' p c' s' H Hc; cbn [decimal_loop] in H; cbv zeta in H;
    destruct (isdigit c) eqn:E1.
  - inversion H; subst. congruence.
  - inversion H; subst; exists []; split; [reflexivity|]; intros [|y e]; cbn [app decimal_loop]; rewrite E1; reflexivity.
  - destruct (IH _ _ _ _ _ _ _ H Hc) as (t & -> & Ht). exists (x :: t). split; [reflexivity|].
    intros e. cbn [app decimal_loop]. cbv zeta. rewrite E1. apply Ht.
  - inversion H; subst; exists []; split; [reflexivity|]; intros [|y e]; cbn [app decimal_loop]; rewrite E1; reflexivity.
Qed.

Lemma parse_decimal_m : forall L r d r', parse_decimal L r = (d, r') -> live r' ->
  moves (fun a b => parse_decimal L a = (d, b)) r r'.
Proof.
  intros L r d r' H Hl. unfold parse_decimal in H.
  destruct (next r) as [c r1] eqn:E. destruct (decimal_loop (S754_zero false) 0 c (src r1)) as [[[x y] z] w] eqn:Ep.
  inversion H; subst d r'. unfold live in Hl. cbn [cur] in Hl.
  assert (z <> -1) as Hz by congruence.
  destruct (decimal_loop_m _ _ _ _ _ _ _ _ Ep Hz) as (t & Et & Ht).
  assert (c <> -1) as Hc.
  { intros ->. revert Ep. generalize (src r1). intros [|q l]; cbn [decimal_loop];
      change (isdigit (-1)) with false; cbv iota; congruence. }
  apply moves_seq with (P := fun a b => next a = (c, b)) (r1 := r1)
    (Q := fun b d => decimal_loop (S754_zero false) 0 c (src b) = (x, y, z, src d) /\ cur d = Some z); [exact (next_m _ _ _ E Hc)| |].
  - exists t. split; [exact Et|]. intros e. split; [exact (Ht e)|reflexivity].
  - intros a b [sd cd] Hab [Hs Hd]. cbn [src cur] in *. subst cd.
    unfold parse_decimal. rewrite Hab, Hs. reflexivity.
Qed.

Lemma parse_large_mono : forall L f g d r, (f <= g)%nat -> parse_large L f d r <> Fuel -> parse_large L g d r = parse_large L f d r.
Proof.
  intros L. induction f as [|f IH]; intros g d r Hg H; [exfalso; apply H; reflexivity|].
  destruct g as [|g]; [lia|]. cbn [parse_large] in *.
  destruct (next r) as [c r1]. destruct (isdigit c); [|reflexivity].
  destruct (parse_unsigned r1) as [[[o p] n] r2]. cbv zeta in *.
  destruct (f_isinf _); [reflexivity|]. apply IH; [lia|exact H].
Qed.

Lemma large_enough : forall L d r, parse_large L (large_fuel r) d r <> Fuel.
Proof.
  intros L d r. apply parse_large_fuel. unfold large_fuel, rw. destruct (cur r) as [c|]; [destruct (c =? -1)|]; lia.
Qed.

Lemma parse_large_any : forall L f d r, parse_large L f d r <> Fuel -> parse_large L (large_fuel r) d r = parse_large L f d r.
Proof.
  intros L f d r H. destruct (Nat.le_ge_cases f (large_fuel r)) as [Hl|Hl].
  - apply parse_large_mono; auto.
  - symmetry. apply parse_large_mono; [exact Hl|]. apply large_enough.
Qed.

Lemma parse_large_f : forall L f d r d' r', parse_large L f d r = Ok (d', r') -> live r' ->
  moves (fun a b => parse_large L f d a = Ok (d', b)) r r'.
Proof.
  intros L. induction f as [|f IH]; intros d r d' r' H Hl; [discriminate|]. cbn [parse_large] in H.
  destruct (next r) as [c r1] eqn:E. destruct (isdigit c) eqn:Ed.
  - destruct (parse_unsigned r1) as [[[o p] n] r2] eqn:Ep. cbv zeta in H.
    destruct (f_isinf _) eqn:Ei; [discriminate|].
    assert (live r2) as Hl2.
    { intros E2. destruct f as [|f0]; [discriminate|]. cbn [parse_large] in H.
      rewrite (next_again _ _ E2) in H. change (isdigit (-1)) with false in H. cbv iota in H.
      inversion H; subst. contradiction. }
    assert (c <> -1) as Hc by (intros ->; discriminate).
    apply moves_seq with (P := fun a b => next a = (c, b)) (r1 := r1)
      (Q := fun b d0 => exists x, parse_unsigned b = (o, p, n, x) /\
         parse_large L f (f_floor (f_add (f_mul d (lm_pow L f_ten (f_of_Z n))) (f_of_Z p))) x = Ok (d', d0));
      [exact (next_m _ _ _ E Hc)| |].
    + eapply moves_seq; [exact (parse_unsigned_m _ _ _ _ _ Ep Hl2)|exact (IH _ _ _ _ H Hl)|].
      intros a b x Ha Hb. cbv beta in Ha, Hb. exists b. split; assumption.
    + intros a b d0 Ha (x & Hx & Hd). cbn [parse_large]. rewrite Ha, Ed, Hx. cbv zeta. rewrite Ei. exact Hd.
  - inversion H; subst d' r1. assert (c <> -1) as Hc.
    { intros ->. apply Hl. apply (next_cur _ _ _ E). }
    eapply moves_imp; [exact (next_m _ _ _ E Hc)|]. intros a b Ha. cbn [parse_large]. rewrite Ha, Ed. reflexivity.
Qed.

Lemma parse_large_m : forall L d r d' r', parse_large L (large_fuel r) d r = Ok (d', r') -> live r' ->
  moves (fun a b => parse_large L (large_fuel a) d a = Ok (d', b)) r r'.
Proof.
  intros L d r d' r' H Hl. eapply moves_imp; [exact (parse_large_f _ _ _ _ _ _ H Hl)|].
  intros a b Ha. cbv beta in Ha. rewrite <- Ha. apply parse_large_any. congruence.
Qed.

Lemma read_sign_m : forall r b r', read_sign r = (b, r') -> live r' ->
  moves (fun x y => read_sign x = (b, y)) r r'.
Proof.
  intros r b r' H Hl. unfold read_sign in H. destruct (next r) as [c r1] eqn:E.
  destruct (c =? 45) eqn:E1; [|destruct (c =? 43) eqn:E2]; inversion H; subst b r'.
  1,2: apply moves_seq with (P := fun a b => next a = (c, b)) (r1 := r1) (Q := fun a b => commit a = b);
    [apply next_m; [exact E|lia]|apply commit_m|];
    intros a b d Ha Hb; unfold read_sign; rewrite Ha, E1; try rewrite E2; rewrite Hb; reflexivity.
  eapply moves_imp; [apply (next_m _ _ _ E)|].
  - intros ->. apply Hl. apply (next_cur _ _ _ E).
  - intros a b Ha. unfold read_sign. rewrite Ha, E1, E2. reflexivity.
Qed.

Lemma digit_run_m : forall s c ds c' s', digit_run c s = (ds, c', s') -> c' <> -1 ->
  exists t, s = t ++ s' /\ forall e, digit_run c (t ++ e) = (ds, c', e).
Proof.
  induction s as [|x s IH]; intros c ds c' s' H Hc; cbn [digit_run] in H; destruct (isdigit c) eqn:E1.
  - inversion H; subst. congruence.
  - inversion H; subst; exists []; split; [reflexivity|]; intros [|y e]; cbn [app digit_run]; rewrite E1; reflexivity.
  - destruct (digit_run x s) as [[d1 c1] s1] eqn:Er. inversion H; subst.
    destruct (IH _ _ _ _ Er Hc) as (t & -> & Ht). exists (x :: t). split; [reflexivity|].
    intros e. cbn [app digit_run]. rewrite E1, Ht. reflexivity.
  - inversion H; subst; exists []; split; [reflexivity|]; intros [|y e]; cbn [app digit_run]; rewrite E1; reflexivity.
Qed.

Lemma pull_m : forall s c s1, pull s = (c, s1) -> c <> -1 -> s = [c] ++ s1.
Proof. intros [|x s] c s1 H Hc; inversion H; subst; [congruence|reflexivity]. Qed.

Lemma next_commit_m : forall r c r1, next_commit r = (c, r1) -> c <> -1 -> moves (fun a b => next_commit a = (c, b)) r r1.
Proof.
  intros [s [x|]] c r1 H Hc; unfold next_commit in H; cbn [cur src] in H.
  - inversion H; subst. apply moves_stay; auto.
  - destruct s as [|y s]; cbn [pull] in H; inversion H; subst; [congruence|].
    exists [c]. split; [reflexivity|]. intros e. reflexivity.
Qed.

Definition p_sign (c0 : Z) (s : list Z) : bytes * Z * list Z :=
  if (c0 =? 43) || (c0 =? 45) then let '(c, s1) := pull s in ([to_byte c0], c, s1) else ([], c0, s).
Definition p_frac (c2 : Z) (s2 : list Z) : bytes * bool * Z * list Z :=
  if c2 =? 46 then
    let '(c, s) := pull s2 in
    let '(ds, c', s') := digit_run c s in (46 :: ds, true, c', s')
  else ([], false, c2, s2).

Lemma p_sign_m : forall c0 s sg c1 s1, p_sign c0 s = (sg, c1, s1) -> c1 <> -1 ->
  exists t, s = t ++ s1 /\ forall e, p_sign c0 (t ++ e) = (sg, c1, e).
Proof.
  intros c0 s sg c1 s1 H Hc. unfold p_sign in *. destruct ((c0 =? 43) || (c0 =? 45)).
  - destruct (pull s) as [c s'] eqn:E. inversion H; subst. exists [c1]. split; [apply pull_m; auto|reflexivity].
  - inversion H; subst. exists []. split; auto.
Qed.

Lemma digit_run_end : forall s ds c' s', digit_run (-1) s = (ds, c', s') -> c' = -1.
Proof. intros [|x s] ds c' s'; cbn [digit_run]; change (isdigit (-1)) with false; cbv iota; congruence. Qed.

Lemma p_frac_m : forall c s fp b c1 s1, p_frac c s = (fp, b, c1, s1) -> c1 <> -1 ->
  exists t, s = t ++ s1 /\ forall e, p_frac c (t ++ e) = (fp, b, c1, e).
Proof.
  intros c s fp b c1 s1 H Hc. unfold p_frac in *. destruct (c =? 46).
  - destruct (pull s) as [x s'] eqn:E. destruct (digit_run x s') as [[ds c'] s''] eqn:Ed. inversion H; subst.
    destruct (digit_run_m _ _ _ _ _ Ed Hc) as (t & -> & Ht).
    assert (x <> -1) as Hx by (intros ->; apply digit_run_end in Ed; auto).
    exists (x :: t). split; [rewrite (pull_m _ _ _ E Hx); reflexivity|].
    intros e. cbn [app pull]. rewrite Ht. reflexivity.
  - inversion H; subst. exists []. split; auto.
Qed.

Definition p_rest (sgn ip : bytes) (c2 : Z) (s2 : list Z) : res (bytes * bool * reader) :=
  let '(fp, isf1, c3, s3) := p_frac c2 s2 in
  if is_e c3 then
    let '(c4, s4) := pull s3 in
    let '(es, c5, s5) := p_sign c4 s4 in
    if isdigit c5 then
      let '(ed, c6, s6) := digit_run c5 s5 in
      Ok (sgn ++ ip ++ fp ++ to_byte c3 :: es ++ ed, true, mkR s6 (Some c6))
    else Err
  else Ok (sgn ++ ip ++ fp, isf1, mkR s3 (Some c3)).

Lemma p_rest_m : forall sgn ip c2 s2 t b s' c', p_rest sgn ip c2 s2 = Ok (t, b, mkR s' (Some c')) -> c' <> -1 ->
  exists p, s2 = p ++ s' /\ forall e, p_rest sgn ip c2 (p ++ e) = Ok (t, b, mkR e (Some c')).
Proof.
  intros sgn ip c2 s2 t b s' c' H Hc. unfold p_rest in *.
  destruct (p_frac c2 s2) as [[[fp isf] c3] s3] eqn:Ef. destruct (is_e c3) eqn:Ee.
  - destruct (pull s3) as [c4 s4] eqn:E4. destruct (p_sign c4 s4) as [[es c5] s5] eqn:E5.
    destruct (isdigit c5) eqn:Ed; [|discriminate]. destruct (digit_run c5 s5) as [[ed c6] s6] eqn:E6.
    inversion H; subst.
    assert (c5 <> -1) as H5 by (intros ->; discriminate).
    assert (c4 <> -1) as H4 by (intros ->; apply H5; cbv [p_sign Z.eqb orb] in E5; congruence).
    assert (c3 <> -1) as H3 by (intros ->; discriminate).
    destruct (p_frac_m _ _ _ _ _ _ Ef H3) as (p1 & -> & P1).
    destruct (p_sign_m _ _ _ _ _ E5 H5) as (p2 & -> & P2).
    destruct (digit_run_m _ _ _ _ _ E6 Hc) as (p3 & -> & P3).
    rewrite (pull_m _ _ _ E4 H4).
    exists (p1 ++ [c4] ++ p2 ++ p3). split; [rewrite <- !app_assoc; reflexivity|].
    intros e. rewrite <- app_assoc, P1, Ee. cbn [app pull]. rewrite <- app_assoc, P2, Ed, P3. reflexivity.
  - inversion H; subst. destruct (p_frac_m _ _ _ _ _ _ Ef Hc) as (p1 & -> & P1).
    exists p1. split; [reflexivity|]. intros e. rewrite P1, Ee. reflexivity.
Qed.

Lemma parse_precise_eq : forall r, parse_precise r =
  let '(c0, r0) := next_commit r in
  let '(sgn, c1, s1) := p_sign c0 (src r0) in
  if isdigit c1 then
    let '(ip, c2, s2) := digit_run c1 s1 in p_rest sgn ip c2 s2
  else Err.
Proof. reflexivity. Qed.

Lemma parse_precise_cur : forall r t b r', parse_precise r = Ok (t, b, r') -> exists c, cur r' = Some c.
Proof.
  intros r t b r' H. rewrite parse_precise_eq in H. destruct (next_commit r) as [c0 r0].
  destruct (p_sign c0 (src r0)) as [[sgn c1] s1]. destruct (isdigit c1); [|discriminate].
  destruct (digit_run c1 s1) as [[ip c2] s2]. unfold p_rest in H.
  destruct (p_frac c2 s2) as [[[fp isf] c3] s3]. destruct (is_e c3); [|inversion H; eexists; reflexivity].
  destruct (pull s3) as [c4 s4]. destruct (p_sign c4 s4) as [[es c5] s5].
  destruct (isdigit c5); [|discriminate]. destruct (digit_run c5 s5) as [[ed c6] s6].
  inversion H; eexists; reflexivity.
Qed.

Lemma p_rest_end : forall sgn ip s t b r', p_rest sgn ip (-1) s = Ok (t, b, r') -> cur r' = Some (-1).
Proof. intros sgn ip s t b r' H. cbv in H. inversion H. reflexivity. Qed.

Lemma parse_precise_m : forall r t b r', parse_precise r = Ok (t, b, r') -> live r' ->
  moves (fun x y => parse_precise x = Ok (t, b, y)) r r'.
Proof.
  intros r t b r' H Hl. destruct (parse_precise_cur _ _ _ _ H) as (c' & Ec).
  destruct r' as [s' cr]. cbn [cur] in Ec. subst cr. unfold live in Hl. cbn [cur] in Hl.
  assert (c' <> -1) as Hc by congruence. clear Hl.
  rewrite parse_precise_eq in H. destruct (next_commit r) as [c0 r0] eqn:E0.
  destruct (p_sign c0 (src r0)) as [[sgn c1] s1] eqn:E1. destruct (isdigit c1) eqn:Ed; [|discriminate].
  destruct (digit_run c1 s1) as [[ip c2] s2] eqn:E2.
  assert (c1 <> -1) as H1 by (intros ->; discriminate).
  assert (c0 <> -1) as H0 by (intros ->; apply H1; cbv [p_sign Z.eqb orb] in E1; congruence).
  assert (c2 <> -1) as H2 by (intros ->; apply p_rest_end in H; cbn [cur] in H; congruence).
  destruct (p_sign_m _ _ _ _ _ E1 H1) as (p1 & Q1 & P1).
  destruct (digit_run_m _ _ _ _ _ E2 H2) as (p2 & -> & P2).
  destruct (p_rest_m _ _ _ _ _ _ _ _ H Hc) as (p3 & -> & P3).
  apply moves_seq with (P := fun a b => next_commit a = (c0, b)) (r1 := r0)
    (Q := fun a y => exists e, src a = p1 ++ p2 ++ p3 ++ e /\ y = mkR e (Some c')); [exact (next_commit_m _ _ _ E0 H0)| |].
  - exists (p1 ++ p2 ++ p3). rewrite <- !app_assoc. split; [exact Q1|].
    intros e. exists e. rewrite <- !app_assoc. split; reflexivity.
  - intros x y z Hx (e & Hy & ->). rewrite parse_precise_eq, Hx, Hy, P1, Ed, P2. apply P3.
Qed.

(** Results which say whether the reader is at its end. *)
Lemma next_live : forall r c r1, next r = (c, r1) -> live r1 <-> c <> -1.
Proof. intros r c r1 H. unfold live. rewrite (next_cur _ _ _ H). split; congruence. Qed.

Definition d_frac (L : libm) (d0 : spec_float) (c : Z) (r1 : reader) : res (spec_float * reader) :=
  if c =? 46 then
    let '(c1, r1') := next (commit r1) in
    if isdigit c1 then
      let '(fr, r1'') := parse_decimal L r1' in Ok (f_add d0 fr, r1'')
    else Err
  else Ok (d0, r1).
Definition d_exp (L : libm) (d1 : spec_float) (c2 : Z) (r3 : reader) : res (spec_float * reader) :=
  if is_e c2 then
    let '(negexp, r5) := read_sign (commit r3) in
    let '(c3, r6) := next r5 in
    if isdigit c3 then
      let '(ok, expn, _, r7) := parse_unsigned r6 in
      if ok then
        Ok (f_mul d1 (lm_pow L (if negexp then f_tenth else f_ten) (f_of_Z expn)), r7)
      else Err
    else Err
  else Ok (d1, r3).

Lemma parse_double_eq : forall L i neg r, parse_double L i neg r =
  do (d0, r0) <- parse_large L (large_fuel r) (f_of_Z i) r;
  let '(c, r1) := next r0 in
  do (d1, r2) <- d_frac L d0 c r1;
  let '(c2, r3) := next r2 in
  do (d2, r4) <- d_exp L d1 c2 r3;
  Ok (value_of_double (if neg then f_opp d2 else d2), r4).
Proof. reflexivity. Qed.

Lemma d_frac_m : forall L d0 c r1 d1 r2, d_frac L d0 c r1 = Ok (d1, r2) -> live r2 ->
  moves (fun a b => d_frac L d0 c a = Ok (d1, b)) r1 r2.
Proof.
  intros L d0 c r1 d1 r2 H Hl. unfold d_frac in *. destruct (c =? 46).
  - destruct (next (commit r1)) as [c1 r1'] eqn:E1. destruct (isdigit c1) eqn:Ed; [|discriminate].
    destruct (parse_decimal L r1') as [fr r1''] eqn:E2. inversion H; subst.
    assert (c1 <> -1) as H1 by (intros ->; discriminate).
    apply moves_seq with (P := fun a b => commit a = b) (r1 := commit r1)
      (Q := fun a b => exists x, next a = (c1, x) /\ parse_decimal L x = (fr, b)); [apply commit_m| |].
    + eapply moves_seq; [exact (next_m _ _ _ E1 H1)|exact (parse_decimal_m _ _ _ _ E2 Hl)|].
      intros a b x Ha Hb. cbv beta in Ha, Hb. exists b. split; assumption.
    + intros a b x Ha (y & Hy & Hx). rewrite Ha, Hy, Ed, Hx. reflexivity.
  - inversion H; subst. apply moves_stay; reflexivity.
Qed.

Lemma d_exp_m : forall L d0 c r1 d1 r2, d_exp L d0 c r1 = Ok (d1, r2) -> live r2 ->
  moves (fun a b => d_exp L d0 c a = Ok (d1, b)) r1 r2.
Proof.
  intros L d0 c r1 d1 r2 H Hl. unfold d_exp in *. destruct (is_e c).
  - destruct (read_sign (commit r1)) as [ne r5] eqn:E1. destruct (next r5) as [c3 r6] eqn:E2.
    destruct (isdigit c3) eqn:Ed; [|discriminate].
    destruct (parse_unsigned r6) as [[[ok ex] n] r7] eqn:E3. destruct ok; [|discriminate]. inversion H; subst.
    assert (c3 <> -1) as H1 by (intros ->; discriminate).
    assert (live r5) as H5.
    { intros E. rewrite (next_again _ _ E) in E2. inversion E2. congruence. }
    apply moves_seq with (P := fun a b => commit a = b) (r1 := commit r1)
      (Q := fun a b => exists x y, read_sign a = (ne, x) /\ next x = (c3, y) /\ parse_unsigned y = (true, ex, n, b)); [apply commit_m| |].
    + apply moves_seq with (P := fun a b => read_sign a = (ne, b)) (r1 := r5)
        (Q := fun x b => exists y, next x = (c3, y) /\ parse_unsigned y = (true, ex, n, b)); [exact (read_sign_m _ _ _ E1 H5)| |].
      * eapply moves_seq; [exact (next_m _ _ _ E2 H1)|exact (parse_unsigned_m _ _ _ _ _ E3 Hl)|].
        intros a b x Ha Hb. cbv beta in Ha, Hb. exists b. split; assumption.
      * intros a b x Ha (y & Hy & Hx). exists b, y. auto.
    + intros a b x Ha (y & z & Hy & Hz & Hx). rewrite Ha, Hy, Hz, Ed, Hx. reflexivity.
  - inversion H; subst. apply moves_stay; reflexivity.
Qed.

Lemma parse_double_m : forall L i neg r v r', parse_double L i neg r = Ok (v, r') -> live r' ->
  moves (fun a b => parse_double L i neg a = Ok (v, b)) r r'.
Proof.
  intros L i neg r v r' H Hl. rewrite parse_double_eq in H.
  destruct (parse_large L (large_fuel r) (f_of_Z i) r) as [[d0 r0]| |] eqn:E0; cbn [bind] in H; try discriminate.
  destruct (next r0) as [c r1] eqn:E1.
  destruct (d_frac L d0 c r1) as [[d1 r2]| |] eqn:E2; cbn [bind] in H; try discriminate.
  destruct (next r2) as [c2 r3] eqn:E3.
  destruct (d_exp L d1 c2 r3) as [[d2 r4]| |] eqn:E4; cbn [bind] in H; try discriminate.
  inversion H; subst v r4. clear H.
  assert (c2 <> -1) as H2.
  { intros ->. cbv [d_exp is_e Z.eqb orb] in E4. inversion E4; subst. apply Hl. apply (next_cur _ _ _ E3). }
  assert (live r2) as L2.
  { intros E. rewrite (next_again _ _ E) in E3. inversion E3. congruence. }
  assert (c <> -1) as H1.
  { intros ->. unfold d_frac in E2. change (-1 =? 46) with false in E2. cbv iota in E2. inversion E2; subst.
    apply L2. apply (next_cur _ _ _ E1). }
  assert (live r0) as L0.
  { intros E. rewrite (next_again _ _ E) in E1. inversion E1. congruence. }
  pose proof (parse_large_m _ _ _ _ _ E0 L0) as M0. pose proof (next_m _ _ _ E1 H1) as M1.
  pose proof (d_frac_m _ _ _ _ _ _ E2 L2) as M2. pose proof (next_m _ _ _ E3 H2) as M3.
  pose proof (d_exp_m _ _ _ _ _ _ E4 Hl) as M4.
  pose proof (moves_seq _ _ (fun a x => exists b, next a = (c2, b) /\ d_exp L d1 c2 b = Ok (d2, x)) _ _ _ M3 M4
    ltac:(cbv beta; eauto)) as N3.
  pose proof (moves_seq _ _ (fun a x => exists b d, d_frac L d0 c a = Ok (d1, b) /\ next b = (c2, d) /\ d_exp L d1 c2 d = Ok (d2, x)) _ _ _ M2 N3
    ltac:(cbv beta; intros a b x Ha (y & Hy & Hx); eauto 12)) as N2.
  pose proof (moves_seq _ _ (fun a x => exists y b d, next a = (c, y) /\ d_frac L d0 c y = Ok (d1, b) /\ next b = (c2, d) /\ d_exp L d1 c2 d = Ok (d2, x)) _ _ _ M1 N2
    ltac:(cbv beta; intros a b x Ha (y & z & Hy & Hz & Hx); eauto 12)) as N1.
  eapply moves_seq; [exact M0|exact N1|].
  cbv beta. intros a b x Ha (y & z & w & Hy & Hz & Hw & Hx).
  rewrite parse_double_eq, Ha. cbn [bind]. rewrite Hy, Hz. cbn [bind]. rewrite Hw, Hx. reflexivity.
Qed.

Lemma parse_double_cur : forall L i neg r v r', parse_double L i neg r = Ok (v, r') -> exists c, cur r' = Some c.
Proof.
  intros L i neg r v r' H. rewrite parse_double_eq in H.
  destruct (parse_large L (large_fuel r) (f_of_Z i) r) as [[d0 r0]| |] eqn:E0; cbn [bind] in H; try discriminate.
  destruct (next r0) as [c r1] eqn:E1.
  destruct (d_frac L d0 c r1) as [[d1 r2]| |] eqn:E2; cbn [bind] in H; try discriminate.
  destruct (next r2) as [c2 r3] eqn:E3.
  destruct (d_exp L d1 c2 r3) as [[d2 r4]| |] eqn:E4; cbn [bind] in H; try discriminate.
  inversion H; subst v r4. unfold d_exp in E4. destruct (is_e c2).
  - destruct (read_sign (commit r3)) as [ne r5]. destruct (next r5) as [c3 r6]. destruct (isdigit c3); [|discriminate].
    destruct (parse_unsigned r6) as [[[ok ex] n] r7] eqn:E6. destruct ok; [|discriminate]. inversion E4; subst.
    eapply parse_unsigned_cur; eauto.
  - inversion E4; subst. exists c2. apply (next_cur _ _ _ E3).
Qed.

Lemma parse_number_cur : forall L F r v r', parse_number L F r = Ok (v, r') -> exists c, cur r' = Some c.
Proof.
  intros L F r v r' H. unfold parse_number in H. destruct (precise F).
  - destruct (parse_precise r) as [[[t b] r1]| |] eqn:E; cbn [bind] in H; try discriminate.
    inversion H; subst. eapply parse_precise_cur; eauto.
  - destruct (read_sign r) as [sg r1]. destruct (next r1) as [c r2].
    destruct (negb (isdigit c) && negb (c =? 46)); [discriminate|].
    destruct (parse_unsigned r2) as [[[ok p] n] r3]. destruct (next r3) as [c3 r4] eqn:E3.
    destruct (negb ok || (c3 =? 46) || is_e c3); [eapply parse_double_cur; eauto|].
    exists c3. destruct sg; [destruct (Z.testbit p 63)|]; inversion H; subst; apply (next_cur _ _ _ E3).
Qed.

Lemma parse_number_m : forall L F r v r', parse_number L F r = Ok (v, r') -> live r' ->
  moves (fun a b => parse_number L F a = Ok (v, b)) r r'.
Proof.
  intros L F r v r' H Hl. unfold parse_number in *. destruct (precise F).
  - destruct (parse_precise r) as [[[t b] r1]| |] eqn:E; cbn [bind] in H; try discriminate.
    inversion H; subst. eapply moves_imp; [exact (parse_precise_m _ _ _ _ E Hl)|].
    cbv beta. intros x y Hx. rewrite Hx. reflexivity.
  - destruct (read_sign r) as [sg r1] eqn:E1. destruct (next r1) as [c r2] eqn:E2.
    destruct (negb (isdigit c) && negb (c =? 46)) eqn:Ed; [discriminate|].
    destruct (parse_unsigned r2) as [[[ok p] n] r3] eqn:E3. destruct (next r3) as [c3 r4] eqn:E4.
    set (last := fun y => if negb ok || (c3 =? 46) || is_e c3 then parse_double L p sg y
      else if sg then if Z.testbit p 63 then Ok (value_of_double (f_opp (f_of_Z p)), y) else Ok (value_of_int (- p), y)
      else Ok (VNum (NUInt p), y)).
    assert (last r4 = Ok (v, r')) as H' by exact H. clear H.
    assert (c3 <> -1) as H3.
    { intros ->. pose proof (next_cur _ _ _ E4) as Ec. unfold last in H'.
      destruct ok; cbn [negb orb] in H'.
      - cbv [Z.eqb is_e orb] in H'. destruct sg; [destruct (Z.testbit p 63)|]; inversion H'; subst; contradiction.
      - exfalso. revert H'. rewrite parse_double_eq. unfold large_fuel. cbn [parse_large].
        rewrite (next_again _ _ Ec). change (isdigit (-1)) with false. cbv iota. cbn [bind].
        rewrite (next_again _ _ Ec). unfold d_frac. change (-1 =? 46) with false. cbv iota. cbn [bind].
        rewrite (next_again _ _ Ec). unfold d_exp. change (is_e (-1)) with false. cbv iota. cbn [bind].
        intros H'. inversion H'; subst. contradiction. }
    assert (live r3) as L3.
    { intros E. rewrite (next_again _ _ E) in E4. inversion E4. congruence. }
    assert (c <> -1) as H2 by (intros ->; discriminate).
    assert (live r1) as L1.
    { intros E. rewrite (next_again _ _ E) in E2. inversion E2. congruence. }
    assert (moves (fun a b => last a = Ok (v, b)) r4 r') as M5.
    { unfold last in *. destruct (negb ok || (c3 =? 46) || is_e c3); [exact (parse_double_m _ _ _ _ _ _ H' Hl)|].
      destruct sg; [destruct (Z.testbit p 63)|]; inversion H'; subst; apply moves_stay; reflexivity. }
    pose proof (moves_seq _ _ (fun a x => exists b, next a = (c3, b) /\ last b = Ok (v, x)) _ _ _ (next_m _ _ _ E4 H3) M5
      ltac:(cbv beta; eauto)) as N4.
    pose proof (moves_seq _ _ (fun a x => exists y b, parse_unsigned a = (ok, p, n, y) /\ next y = (c3, b) /\ last b = Ok (v, x)) _ _ _
      (parse_unsigned_m _ _ _ _ _ E3 L3) N4
      ltac:(cbv beta; intros a b x Ha (y & Hy & Hx); eauto 12)) as N3.
    pose proof (moves_seq _ _ (fun a x => exists z y b, next a = (c, z) /\ parse_unsigned z = (ok, p, n, y) /\ next y = (c3, b) /\ last b = Ok (v, x)) _ _ _
      (next_m _ _ _ E2 H2) N3
      ltac:(cbv beta; intros a b x Ha (y & z & Hy & Hz & Hx); eauto 12)) as N2.
    eapply moves_seq; [exact (read_sign_m _ _ _ E1 L1)|exact N2|].
    cbv beta. intros a b x Ha (y & z & w & Hy & Hz & Hw & Hx).
    rewrite Ha, Hy, Ed, Hz, Hw. exact Hx.
Qed.
