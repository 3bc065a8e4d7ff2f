(** Documents, one after another. *)
From Coq Require Import ZifyBool.
From Verif Require Import Base SpecUtf8 ModelUtf8 ModelKeyed ModelValue ModelText SpecText SpecAccept ModelDocs SpecDocs
  ProofText1 ProofText2 ProofText3 ProofText4 ProofAccept2 ProofDocs.
Local Open Scope list_scope.
Local Open Scope Z_scope.

Definition num_char (c : Z) : bool := isdigit c || (c =? 43) || (c =? 45) || (c =? 46).

Section Docs.
Variables (L : libm) (F : pflags).

Lemma obj_arr_cur : forall f,
  (forall c r acc v r', parse_obj L F f c r acc = Ok (v, r') -> cur r' = None) /\
  (forall r acc v r', parse_arr L F f r acc = Ok (v, r') -> cur r' = None).
Proof.
  induction f as [|f (IHo & IHa)]; [split; intros; discriminate|]. split.
  - intros c r acc v r' H. cbn [parse_obj] in H. destruct (c =? 34); [|discriminate].
    destruct (read_string_r (commit r)) as [[name r1]| |]; cbn [bind] in H; try discriminate.
    destruct (next_ws r1) as [c1 r2]. destruct (c1 =? 58); [|discriminate].
    destruct (parse L F f (commit r2)) as [[v0 r3]| |]; cbn [bind] in H; try discriminate. cbv zeta in H.
    destruct (next_ws r3) as [c2 r4]. destruct (c2 =? 125).
    + destruct (finish_object F (rev ((name, v0) :: acc))); cbn [bind] in H; inversion H; reflexivity.
    + destruct (c2 =? 44); [|discriminate]. destruct (next_ws (commit r4)) as [c3 r6]. eauto.
  - intros r acc v r' H. cbn [parse_arr] in H.
    destruct (parse L F f r) as [[v0 r3]| |]; cbn [bind] in H; try discriminate. cbv zeta in H.
    destruct (next_ws r3) as [c2 r4]. destruct (c2 =? 93); [inversion H; reflexivity|].
    destruct (c2 =? 44); [|discriminate]. eauto.
Qed.

Lemma parse_cur : forall f r v r', parse L F f r = Ok (v, r') ->
  exists c r1, next_ws r = (c, r1) /\ c <> -1 /\ if num_char c then (exists x, cur r' = Some x) else cur r' = None.
Proof.
  intros [|f] r v r' H; [discriminate|]. cbn [parse] in H. destruct (next_ws r) as [c r1]. exists c, r1.
  split; [reflexivity|].
  destruct (c =? 123) eqn:E1.
  { replace c with 123 by lia. split; [lia|]. change (num_char 123) with false.
    destruct (next_ws (commit r1)) as [c1 r2]. destruct (c1 =? 125); [inversion H; reflexivity|].
    apply obj_arr_cur in H. exact H. }
  destruct (c =? 91) eqn:E2.
  { replace c with 91 by lia. split; [lia|]. change (num_char 91) with false.
    destruct (next_ws (commit r1)) as [c1 r2]. destruct (c1 =? 93); [inversion H; reflexivity|].
    apply obj_arr_cur in H. exact H. }
  destruct (c =? 34) eqn:E3.
  { replace c with 34 by lia. split; [lia|]. change (num_char 34) with false.
    destruct (read_string_r (commit r1)) as [[t r2]| |] eqn:E; cbn [bind] in H; try discriminate.
    apply read_string_cur in E. inversion H; subst. rewrite E. reflexivity. }
  destruct (c =? 116) eqn:E4.
  { replace c with 116 by lia. split; [lia|]. change (num_char 116) with false.
    destruct (check_string str_true r1) as [r2| |] eqn:E; cbn [bind] in H; try discriminate.
    apply check_string_cur in E. inversion H; subst. exact E. }
  destruct (c =? 102) eqn:E5.
  { replace c with 102 by lia. split; [lia|]. change (num_char 102) with false.
    destruct (check_string str_false r1) as [r2| |] eqn:E; cbn [bind] in H; try discriminate.
    apply check_string_cur in E. inversion H; subst. exact E. }
  destruct (c =? 110) eqn:E6.
  { replace c with 110 by lia. split; [lia|]. change (num_char 110) with false.
    destruct (check_string str_null r1) as [r2| |] eqn:E; cbn [bind] in H; try discriminate.
    apply check_string_cur in E. inversion H; subst. exact E. }
  change (isdigit c || (c =? 43) || (c =? 45) || (c =? 46)) with (num_char c) in H.
  destruct (num_char c) eqn:En; [|discriminate]. split; [intros ->; discriminate|].
  eapply parse_number_cur; eauto.
Qed.

Lemma live_none : forall r, cur r = None -> live r.
Proof. intros r H. unfold live. congruence. Qed.

Lemma ws_live : forall r c r1, next_ws r = (c, r1) -> c <> -1 -> live r.
Proof. intros r c r1 H Hc E. apply Hc. exact (next_ws_dead _ _ _ H E). Qed.


Lemma parse_all_m : forall f,
  (forall r v r', parse L F f r = Ok (v, r') -> live r' -> moves (fun a b => parse L F f a = Ok (v, b)) r r') /\
  (forall c r acc v r', parse_obj L F f c r acc = Ok (v, r') -> moves (fun a b => parse_obj L F f c a acc = Ok (v, b)) r r') /\
  (forall r acc v r', parse_arr L F f r acc = Ok (v, r') -> moves (fun a b => parse_arr L F f a acc = Ok (v, b)) r r').
Proof.
  induction f as [|f (IHp & IHo & IHa)]; [repeat split; intros; discriminate|].
  split; [|split].
  - intros r v r' H Hl. destruct (parse_cur _ _ _ _ H) as (c0 & r0 & E0 & H0 & _).
    cbn [parse] in H. rewrite E0 in H. pose proof (next_ws_m _ _ _ E0 H0) as M0.
    destruct (c0 =? 123) eqn:E1; [|destruct (c0 =? 91) eqn:E2; [|destruct (c0 =? 34) eqn:E3;
      [|destruct (c0 =? 116) eqn:E4; [|destruct (c0 =? 102) eqn:E5; [|destruct (c0 =? 110) eqn:E6;
      [|destruct (isdigit c0 || (c0 =? 43) || (c0 =? 45) || (c0 =? 46)) eqn:E7; [|discriminate]]]]]]].
    + destruct (next_ws (commit r0)) as [c1 r2] eqn:Ew.
      assert (c1 <> -1) as H1.
      { intros ->. change (-1 =? 125) with false in H. cbv iota in H. destruct f; discriminate. }
      apply moves_seq with (P := fun a b => next_ws a = (c0, b)) (r1 := r0)
        (Q := fun a d => exists b, next_ws (commit a) = (c1, b) /\
           (if c1 =? 125 then Ok (VObj false [], commit b) else parse_obj L F f c1 b []) = Ok (v, d)); [exact M0| |].
      * apply moves_seq with (P := fun a b => commit a = b) (r1 := commit r0)
          (Q := fun a d => exists b, next_ws a = (c1, b) /\
           (if c1 =? 125 then Ok (VObj false [], commit b) else parse_obj L F f c1 b []) = Ok (v, d)); [apply commit_m| |].
        -- apply moves_seq with (P := fun a b => next_ws a = (c1, b)) (r1 := r2)
             (Q := fun b d => (if c1 =? 125 then Ok (VObj false [], commit b) else parse_obj L F f c1 b []) = Ok (v, d));
             [exact (next_ws_m _ _ _ Ew H1)| |].
           ++ destruct (c1 =? 125); [|apply IHo; exact H]. inversion H; subst.
              eapply moves_imp; [apply commit_m|]. cbv beta. intros a b <-. reflexivity.
           ++ intros a b d Ha Hb. exists b. split; assumption.
        -- intros a b d <- Hb. exact Hb.
      * intros a b d Ha (e & He & Hd). cbn [parse]. rewrite Ha, E1, He. exact Hd.
    + destruct (next_ws (commit r0)) as [c1 r2] eqn:Ew.
      assert (c1 <> -1) as H1.
      { intros ->. change (-1 =? 93) with false in H. cbv iota in H. destruct f as [|f0]; [discriminate|].
        destruct (next_ws_cur _ _ _ Ew) as (x & Ex & Hx).
        cbn [parse_arr] in H. destruct (parse L F f0 r2) as [[v0 r3]| |] eqn:Ep; cbn [bind] in H; try discriminate.
        destruct (parse_cur _ _ _ _ Ep) as (c3 & r4 & E3 & H3 & _). apply H3.
        unfold next_ws in E3. rewrite (next_again _ _ Ex) in E3.
        replace (skip_ws x (src r2)) with (x, src r2) in E3.
        - inversion E3. congruence.
        - destruct (src r2); cbn [skip_ws]; rewrite <- Hx; reflexivity. }
      apply moves_seq with (P := fun a b => next_ws a = (c0, b)) (r1 := r0)
        (Q := fun a d => exists b, next_ws (commit a) = (c1, b) /\
           (if c1 =? 93 then Ok (VArr [], commit b) else parse_arr L F f b []) = Ok (v, d)); [exact M0| |].
      * apply moves_seq with (P := fun a b => commit a = b) (r1 := commit r0)
          (Q := fun a d => exists b, next_ws a = (c1, b) /\
           (if c1 =? 93 then Ok (VArr [], commit b) else parse_arr L F f b []) = Ok (v, d)); [apply commit_m| |].
        -- apply moves_seq with (P := fun a b => next_ws a = (c1, b)) (r1 := r2)
             (Q := fun b d => (if c1 =? 93 then Ok (VArr [], commit b) else parse_arr L F f b []) = Ok (v, d));
             [exact (next_ws_m _ _ _ Ew H1)| |].
           ++ destruct (c1 =? 93); [|apply IHa; exact H]. inversion H; subst.
              eapply moves_imp; [apply commit_m|]. cbv beta. intros a b <-. reflexivity.
           ++ intros a b d Ha Hb. exists b. split; assumption.
        -- intros a b d <- Hb. exact Hb.
      * intros a b d Ha (e & He & Hd). cbn [parse]. rewrite Ha, E1, E2, He. exact Hd.
    + destruct (read_string_r (commit r0)) as [[t r2]| |] eqn:E; cbn [bind] in H; try discriminate. inversion H; subst.
      apply moves_seq with (P := fun a b => next_ws a = (c0, b)) (r1 := r0)
        (Q := fun a d => read_string_r (commit a) = Ok (t, d)); [exact M0| |].
      * eapply moves_seq; [apply commit_m|exact (read_string_r_m _ _ _ E)|]. cbv beta. intros a b d <- Hb. exact Hb.
      * intros a b d Ha Hb. cbn [parse]. rewrite Ha, E1, E2, E3, Hb. reflexivity.
    + destruct (check_string str_true r0) as [r2| |] eqn:E; cbn [bind] in H; try discriminate. inversion H; subst.
      eapply moves_seq; [exact M0|apply (check_string_m str_true _ _ ltac:(repeat constructor; lia) E)|].
      cbv beta. intros a b d Ha Hb. cbn [parse]. rewrite Ha, E1, E2, E3, E4, Hb. reflexivity.
    + destruct (check_string str_false r0) as [r2| |] eqn:E; cbn [bind] in H; try discriminate. inversion H; subst.
      eapply moves_seq; [exact M0|apply (check_string_m str_false _ _ ltac:(repeat constructor; lia) E)|].
      cbv beta. intros a b d Ha Hb. cbn [parse]. rewrite Ha, E1, E2, E3, E4, E5, Hb. reflexivity.
    + destruct (check_string str_null r0) as [r2| |] eqn:E; cbn [bind] in H; try discriminate. inversion H; subst.
      eapply moves_seq; [exact M0|apply (check_string_m str_null _ _ ltac:(repeat constructor; lia) E)|].
      cbv beta. intros a b d Ha Hb. cbn [parse]. rewrite Ha, E1, E2, E3, E4, E5, E6, Hb. reflexivity.
    + eapply moves_seq; [exact M0|exact (parse_number_m _ _ _ _ _ H Hl)|].
      cbv beta. intros a b d Ha Hb. cbn [parse]. rewrite Ha, E1, E2, E3, E4, E5, E6, E7. exact Hb.
  - intros c r acc v r' H. cbn [parse_obj] in H. destruct (c =? 34) eqn:E0; [|discriminate].
    destruct (read_string_r (commit r)) as [[name r1]| |] eqn:E1; cbn [bind] in H; try discriminate.
    destruct (next_ws r1) as [c1 r2] eqn:E2. destruct (c1 =? 58) eqn:E3; [|discriminate].
    destruct (parse L F f (commit r2)) as [[v0 r3]| |] eqn:E4; cbn [bind] in H; try discriminate. cbv zeta in H.
    destruct (next_ws r3) as [c2 r4] eqn:E5.
    assert (c1 <> -1) as H1 by lia.
    assert (c2 <> -1) as H2 by (destruct (c2 =? 125) eqn:?; [lia|]; destruct (c2 =? 44) eqn:?; [lia|discriminate]).
    pose proof (ws_live _ _ _ E5 H2) as L3.
    set (last := fun y => if c2 =? 125 then do o <- finish_object F (rev ((name, v0) :: acc)); Ok (o, commit y)
      else if c2 =? 44 then let '(c3, r6) := next_ws (commit y) in parse_obj L F f c3 r6 ((name, v0) :: acc) else Err).
    assert (last r4 = Ok (v, r')) as H' by exact H. clear H.
    assert (moves (fun a b => last a = Ok (v, b)) r4 r') as M5.
    { unfold last in *. destruct (c2 =? 125).
      - destruct (finish_object F (rev ((name, v0) :: acc))); cbn [bind] in *; try discriminate. inversion H'; subst.
        eapply moves_imp; [apply commit_m|]. cbv beta. intros a b <-. reflexivity.
      - destruct (c2 =? 44); [|discriminate]. destruct (next_ws (commit r4)) as [c3 r6] eqn:E6.
        assert (c3 <> -1) as H3 by (intros ->; destruct f; discriminate).
        apply moves_seq with (P := fun a b => commit a = b) (r1 := commit r4)
          (Q := fun a d => let '(c3, r6) := next_ws a in parse_obj L F f c3 r6 ((name, v0) :: acc) = Ok (v, d)); [apply commit_m| |].
        + eapply moves_seq; [exact (next_ws_m _ _ _ E6 H3)|exact (IHo _ _ _ _ _ H')|].
          cbv beta. intros a b d Ha Hb. rewrite Ha. exact Hb.
        + intros a b d <-. destruct (next_ws (commit a)). auto. }
    pose proof (moves_seq _ _ (fun a x => exists b, next_ws a = (c2, b) /\ last b = Ok (v, x)) _ _ _ (next_ws_m _ _ _ E5 H2) M5
      ltac:(cbv beta; eauto)) as N4.
    pose proof (moves_seq _ _ (fun a x => exists y b, parse L F f a = Ok (v0, y) /\ next_ws y = (c2, b) /\ last b = Ok (v, x)) _ _ _
      (IHp _ _ _ E4 L3) N4 ltac:(cbv beta; intros a b x Ha (y & Hy & Hx); eauto 12)) as N3.
    pose proof (moves_seq _ _ (fun a x => exists y b, parse L F f (commit a) = Ok (v0, y) /\ next_ws y = (c2, b) /\ last b = Ok (v, x)) _ _ _
      (commit_m r2) N3 ltac:(cbv beta; intros a b x <- Hx; exact Hx)) as N2.
    pose proof (moves_seq _ _ (fun a x => exists z y b, next_ws a = (c1, z) /\ parse L F f (commit z) = Ok (v0, y) /\ next_ws y = (c2, b) /\ last b = Ok (v, x)) _ _ _
      (next_ws_m _ _ _ E2 H1) N2 ltac:(cbv beta; intros a b x Ha (y & z & Hy & Hz & Hx); eauto 12)) as N1.
    pose proof (moves_seq _ _ (fun a x => exists q z y b, read_string_r a = Ok (name, q) /\ next_ws q = (c1, z) /\ parse L F f (commit z) = Ok (v0, y) /\ next_ws y = (c2, b) /\ last b = Ok (v, x)) _ _ _
      (read_string_r_m _ _ _ E1) N1 ltac:(cbv beta; intros a b x Ha (y & z & w & Hy & Hz & Hw & Hx); eauto 14)) as N0.
    eapply moves_seq; [apply commit_m|exact N0|].
    cbv beta. intros a b x Ha (y & z & w & u & Hy & Hz & Hw & Hu & Hx). cbn [parse_obj]. rewrite E0, Ha, Hy. cbn [bind].
    rewrite Hz, E3, Hw. cbn [bind]. cbv zeta. rewrite Hu. exact Hx.
  - intros r acc v r' H. cbn [parse_arr] in H.
    destruct (parse L F f r) as [[v0 r3]| |] eqn:E4; cbn [bind] in H; try discriminate. cbv zeta in H.
    destruct (next_ws r3) as [c2 r4] eqn:E5.
    assert (c2 <> -1) as H2 by (destruct (c2 =? 93) eqn:?; [lia|]; destruct (c2 =? 44) eqn:?; [lia|discriminate]).
    pose proof (ws_live _ _ _ E5 H2) as L3.
    set (last := fun y => if c2 =? 93 then Ok (VArr (map (fun v => ([], v)) (rev (v0 :: acc))), commit y)
      else if c2 =? 44 then parse_arr L F f (commit y) (v0 :: acc) else Err).
    assert (last r4 = Ok (v, r')) as H' by exact H. clear H.
    assert (moves (fun a b => last a = Ok (v, b)) r4 r') as M5.
    { unfold last in *. destruct (c2 =? 93).
      - inversion H'; subst. eapply moves_imp; [apply commit_m|]. cbv beta. intros a b <-. reflexivity.
      - destruct (c2 =? 44); [|discriminate].
        eapply moves_seq; [apply commit_m|exact (IHa _ _ _ _ H')|]. cbv beta. intros a b d <- Hb. exact Hb. }
    pose proof (moves_seq _ _ (fun a x => exists b, next_ws a = (c2, b) /\ last b = Ok (v, x)) _ _ _ (next_ws_m _ _ _ E5 H2) M5
      ltac:(cbv beta; eauto)) as N4.
    eapply moves_seq; [exact (IHp _ _ _ E4 L3)|exact N4|].
    cbv beta. intros a b x Ha (y & Hy & Hx). cbn [parse_arr]. rewrite Ha. cbn [bind]. cbv zeta. rewrite Hy. exact Hx.
Qed.

Lemma reads_exactly : forall s v r, parse_source L F s = Ok (v, r) -> cur r <> Some (-1) ->
  exists t, s = t ++ src r /\ forall e, parse_source L F (t ++ e) = Ok (v, mkR e (cur r)).
Proof.
  intros s v r H Hl. unfold parse_source in H.
  destruct (proj1 (parse_all_m (S (2 * length s))) _ _ _ H Hl) as (t & Et & Ht). cbn [src cur] in *.
  exists t. split; [exact Et|]. intros e. specialize (Ht e). rewrite <- Ht. apply parse_source_any. congruence.
Qed.

Lemma ends_here : forall s v r, Forall source_char s -> ~ In (-1) s ->
  parse_source L F s = Ok (v, r) -> cur r = Some (-1) -> src r = [].
Proof.
  intros s v r Hs Hi H Hr. apply ProofAccept2.parse_sound in H; [|exact Hs].
  destruct H as (w & t & rest & v0 & -> & _ & _ & _ & _ & Hat). unfold at_pos in Hat. rewrite Hr in Hat.
  destruct Hat as [->|(_ & _ & E)]; [|exact E]. exfalso. apply Hi. rewrite !in_app_iff. right. right. left. reflexivity.
Qed.

Lemma calls_pieces : forall n s vs rest, Forall source_char s -> ~ In (-1) s ->
  parse_calls L F n s = Ok (vs, rest) -> pieces L F vs s rest /\ length vs = n.
Proof.
  induction n as [|n IH]; intros s vs rest Hs Hi H; cbn [parse_calls] in H.
  - inversion H; subst. split; [apply ps_none|reflexivity].
  - unfold parse_call in H. destruct (parse_source L F s) as [[v r]| |] eqn:E; cbn [bind] in H; try discriminate.
    destruct (parse_calls L F n (src r)) as [[vs1 s2]| |] eqn:E1; cbn [bind] in H; try discriminate.
    inversion H; subst vs s2. cbn [length].
    assert (cur r = Some (-1) \/ cur r <> Some (-1)) as [Hc|Hc].
    { destruct (cur r) as [x|]; [|right; discriminate].
      destruct (Z.eq_dec x (-1)) as [->|Hx]; [left; reflexivity|right; congruence]. }
    + pose proof (ends_here _ _ _ Hs Hi E Hc) as Er. rewrite Er in E1.
      destruct (IH [] _ _ (Forall_nil _) (fun f => f) E1) as (Hp & Hl). split; [|congruence].
      rewrite <- (app_nil_r s). apply ps_one with (c := Some (-1)); auto.
      rewrite E. destruct r as [sr cr]. cbn [src cur] in *. congruence.
    + destruct (reads_exactly _ _ _ E Hc) as (t & Et & Ht).
      rewrite Et in Hs, Hi. apply Forall_app in Hs. rewrite in_app_iff in Hi.
      destruct (IH (src r) _ _ (proj2 Hs) (fun f => Hi (or_intror f)) E1) as (Hp & Hl). split; [|congruence].
      rewrite Et. apply ps_one with (c := cur r); auto.
      * specialize (Ht []). rewrite app_nil_r in Ht. exact Ht.
      * intros X. contradiction.
Qed.

Lemma pieces_calls : forall vs s rest, pieces L F vs s rest -> parse_calls L F (length vs) s = Ok (vs, rest).
Proof.
  intros vs s rest H. induction H as [s|t v c vs s rest Hp Hc Hs IH]; [reflexivity|].
  cbn [length parse_calls]. unfold parse_call.
  assert (parse_source L F (t ++ s) = Ok (v, mkR s c)) as ->.
  { assert (c = Some (-1) \/ c <> Some (-1)) as [E|E].
    { destruct c as [x|]; [|right; discriminate].
      destruct (Z.eq_dec x (-1)) as [->|Hx]; [left; reflexivity|right; congruence]. }
    - rewrite (Hc E), app_nil_r. exact Hp.
    - destruct (reads_exactly _ _ _ Hp E) as (t' & Et & Ht). cbn [src cur] in *. rewrite app_nil_r in Et. subst t'.
      apply Ht. }
  cbn [bind src]. rewrite IH. reflexivity.
Qed.

Lemma skip_ws_spec : forall s c c' s', skip_ws c s = (c', s') -> char_of c' <> -1 ->
  exists w, c :: s = w ++ c' :: s' /\ Forall (fun x => isspace (char_of x) = true) w /\ isspace (char_of c') = false.
Proof.
  induction s as [|x s IH]; intros c c' s' H Hc; cbn [skip_ws] in H; destruct (isspace (char_of c)) eqn:E.
  - inversion H; subst. exfalso. apply Hc. reflexivity.
  - inversion H; subst. exists []. auto.
  - destruct (IH _ _ _ H Hc) as (w & Ew & Fw & Hw). exists (c :: w). rewrite Ew. auto.
  - inversion H; subst. exists []. auto.
Qed.

Lemma source_char_of : forall c, source_char c -> char_of c = c \/ (128 <= c <= 255 /\ char_of c = c - 256).
Proof.
  intros c H. unfold source_char in H. unfold char_of, schar, to_byte.
  assert (c mod 256 = c \/ c mod 256 = c + 256) as [-> | ->].
  { destruct (Z.le_gt_cases 0 c); [left; apply Z.mod_small; lia|].
    right. replace c with (c + 256 + (-1) * 256) at 1 by lia. rewrite Z.mod_add by lia. apply Z.mod_small. lia. }
  all: match goal with |- context [if ?b then _ else _] => destruct b eqn:? end; lia.
Qed.

Lemma looks_ahead : forall s v r, Forall source_char s -> parse_source L F s = Ok (v, r) ->
  exists w c rest, s = w ++ c :: rest /\ spaces w /\ ~ space c /\ (cur r <> None <-> number_start c).
Proof.
  intros s v r Hs H. apply parse_cur in H. destruct H as (c & r1 & Hn & Hc & Hr).
  unfold next_ws, next in Hn. cbn [cur src] in Hn.
  destruct s as [|x s]; cbn [pull src] in Hn.
  { cbn in Hn. inversion Hn. congruence. }
  destruct (skip_ws x s) as [y s'] eqn:E. inversion Hn; subst c r1.
  destruct (skip_ws_spec _ _ _ _ E Hc) as (w & Ew & Fw & Hy). exists w, y, s'. split; [exact Ew|].
  rewrite Ew in Hs. apply Forall_app in Hs. destruct Hs as (Hw & Hs).
  split; [|split].
  - unfold spaces. rewrite Forall_forall in *. intros z Hz. specialize (Fw z Hz). specialize (Hw z Hz). cbv beta in Fw.
    unfold isspace in Fw. unfold space. destruct (source_char_of z Hw) as [Q|(Q & Q2)]; lia.
  - unfold isspace in Hy. unfold space. destruct (source_char_of y (Forall_inv Hs)) as [Q|(Q & Q2)]; [rewrite Q in Hy|]; lia.
  - assert (number_start y <-> num_char (char_of y) = true) as ->.
    { unfold number_start, digit_char, num_char, isdigit.
      destruct (source_char_of y (Forall_inv Hs)) as [Q|(Q & Q2)]; [rewrite Q|rewrite Q2]; lia. }
    destruct (num_char (char_of y)).
    + destruct Hr as (z & Hr). rewrite Hr. split; [auto|discriminate].
    + split; [contradiction|discriminate].
Qed.

Lemma nothing_left : forall s, spaces s -> parse_call L F s = Err.
Proof.
  intros s Hs. unfold parse_call. assert (parse_source L F s = Err) as ->; [|reflexivity].
  unfold parse_source. cbn [parse]. unfold next_ws, next. cbn [cur].
  assert (forall l c, space c -> spaces l -> skip_ws c l = (-1, [])) as K.
  { induction l as [|y l IH]; intros c Hc Hl; cbn [skip_ws].
    - replace (isspace (char_of c)) with true; [reflexivity|]. unfold space in Hc. unfold isspace.
      destruct (source_char_of c) as [Q|(Q & Q2)]; [unfold source_char; lia|rewrite Q; lia|lia].
    - replace (isspace (char_of c)) with true.
      + apply IH; [exact (Forall_inv Hl)|exact (Forall_inv_tail Hl)].
      + unfold space in Hc. unfold isspace.
        destruct (source_char_of c) as [Q|(Q & Q2)]; [unfold source_char; lia|rewrite Q; lia|lia]. }
  destruct s as [|x s]; cbn [pull src].
  - reflexivity.
  - rewrite (K s x (Forall_inv Hs) (Forall_inv_tail Hs)). reflexivity.
Qed.

Lemma same_parser : forall r s, at_pos r s -> parser_call L F r = parse_source L F s.
Proof.
  intros r s H.
  assert (forall f, parse L F f r = parse L F f (mkR s None)) as K.
  { intros [|f]; [reflexivity|]. destruct r as [sr [c|]]; unfold at_pos in H; cbn [cur src] in H.
    - assert (next_ws (mkR sr (Some c)) = next_ws (mkR s None)) as E.
      { destruct H as [->|(-> & -> & ->)]; reflexivity. }
      cbn [parse]. rewrite E. reflexivity.
    - subst. reflexivity. }
  unfold parser_call. rewrite K. symmetry. apply parse_source_any. rewrite <- K.
  apply parse_fuel_all. unfold rw. destruct (cur r) as [c|]; [destruct (c =? -1)|]; lia.
Qed.
End Docs.

(** *** Serialised documents *)
Lemma num_char_first : forall E utf8 sg v, doc_ok utf8 v -> ~ numeric v ->
  exists c t, map (as_source sg) (ser E utf8 v) = c :: t /\ isspace (char_of c) = false /\ char_of c <> -1 /\ num_char (char_of c) = false.
Proof.
  intros E utf8 sg v Hv Hn. destruct Hv; cbn [ser]; try (exfalso; apply Hn; exact I).
  - exists 110. eexists. split; [destruct sg; reflexivity|]. repeat split; try reflexivity; discriminate.
  - destruct b; [exists 116|exists 102]; eexists; (split; [destruct sg; reflexivity|]); repeat split; try reflexivity; discriminate.
  - exists 34. eexists. split; [destruct s, sg; reflexivity|]. repeat split; try reflexivity; discriminate.
  - exists 34. eexists. split; [destruct sg; reflexivity|]. repeat split; try reflexivity; discriminate.
  - exists 91. eexists. split; [destruct sg; reflexivity|]. repeat split; try reflexivity; discriminate.
  - exists 123. eexists. split; [destruct sg; reflexivity|]. repeat split; try reflexivity; discriminate.
Qed.

Lemma skip_to : forall w c t, ws w -> isspace (char_of c) = false ->
  next_ws (mkR (w ++ c :: t) None) = (char_of c, mkR t (Some c)).
Proof.
  intros w c t Hw Hc. destruct w as [|x w]; unfold next_ws, next; cbn [app cur src pull].
  - replace (skip_ws c t) with (c, t); [reflexivity|]. destruct t; cbn [skip_ws]; rewrite Hc; reflexivity.
  - assert (skip_ws x (w ++ c :: t) = (c, t)) as ->; [|reflexivity].
    revert x Hw. induction w as [|y w IH]; intros x Hw; cbn [app skip_ws].
    all: replace (isspace (char_of x)) with true
      by (destruct (Forall_inv Hw) as [->|[->|[->| ->]]]; reflexivity).
    + destruct t; cbn [skip_ws]; rewrite Hc; reflexivity.
    + apply IH. exact (Forall_inv_tail Hw).
Qed.

Lemma read_plain : forall L E F sg utf8 v w rest, precise F = false -> doc_ok utf8 v -> ws w -> ~ numeric v ->
  exists v', parse_source L F (w ++ map (as_source sg) (ser E utf8 v) ++ rest) = Ok (v', mkR rest None) /\ same_json v v'.
Proof.
  intros L E F sg utf8 v w rest HF Hv Hw Hn.
  destruct (document_round_trip L E F sg utf8 v w [] HF Hv Hw I) as (v' & r' & Hp & Hj & Hat).
  exists v'. split; [|exact Hj].
  destruct (num_char_first E utf8 sg v Hv Hn) as (c & t & Ec & H1 & H2 & H3).
  assert (cur r' = None) as Hc.
  { destruct (parse_cur _ _ _ _ _ _ Hp) as (c0 & r1 & Hx & _ & Hr). rewrite app_nil_r, Ec, (skip_to w c t Hw H1) in Hx.
    inversion Hx; subst. rewrite H3 in Hr. exact Hr. }
  unfold at_pos in Hat. rewrite Hc in Hat.
  destruct (reads_exactly _ _ _ _ _ Hp ltac:(congruence)) as (t0 & Et & Ht). rewrite Hat, !app_nil_r in Et. subst t0.
  rewrite app_assoc, Ht, Hc. reflexivity.
Qed.

Lemma num_end_ws1 : forall w s, w <> [] -> ws w -> num_end (w ++ s).
Proof.
  intros [|c w] s Hne Hw; [congruence|]. cbn [app num_end].
  unfold digit_char. destruct (Forall_inv Hw) as [->|[->|[->| ->]]]; lia.
Qed.

Lemma numeric_dec : forall v, numeric v \/ ~ numeric v.
Proof. intros [| |b|[n|n|n|t k]|e s|l|d l]; cbn [numeric]; auto. Qed.

Lemma read_written : forall L E F sg utf8 docs w0, precise F = false -> ws w0 ->
  Forall (fun m => doc_ok utf8 (fst m) /\ ws (snd m) /\ (numeric (fst m) -> snd m <> [])) docs ->
  exists vs rest,
    parse_calls L F (length docs) (w0 ++ written (fun v => map (as_source sg) (ser E utf8 v)) docs) = Ok (vs, rest) /\
    Forall2 same_json (map fst docs) vs /\ ws rest.
Proof.
  intros L E F sg utf8. induction docs as [|[v w] docs IH]; intros w0 HF H0 Hd; cbn [length written parse_calls map fst].
  - exists [], (w0 ++ []). split; [reflexivity|]. split; [constructor|]. rewrite app_nil_r. exact H0.
  - destruct (Forall_inv Hd) as (Hv & Hw & Hn). cbn [fst snd] in *. pose proof (Forall_inv_tail Hd) as Hd'.
    set (tail := written (fun v => map (as_source sg) (ser E utf8 v)) docs) in *.
    destruct (numeric_dec v) as [Nv|Nv].
    + destruct (document_round_trip L E F sg utf8 v w0 (w ++ tail) HF Hv H0 (num_end_ws1 w tail (Hn Nv) Hw)) as (v' & r' & Hp & Hj & Hat).
      assert (exists w', ws w' /\ src r' = w' ++ tail) as (w' & Hw' & Es).
      { unfold at_pos in Hat. destruct (cur r') as [c|]; [|exists w; auto].
        specialize (Hn Nv). destruct w as [|x w]; [congruence|].
        destruct Hat as [Hat|(Hat & _)]; [|discriminate Hat]. inversion Hat; subst.
        exists w. split; [exact (Forall_inv_tail Hw)|reflexivity]. }
      destruct (IH w' HF Hw' Hd') as (vs & rest & Hc & H2 & Hr).
      exists (v' :: vs), rest. unfold parse_call. rewrite Hp. cbn [bind]. rewrite Es, Hc. cbn [bind]. auto.
    + destruct (read_plain L E F sg utf8 v w0 (w ++ tail) HF Hv H0 Nv) as (v' & Hp & Hj).
      destruct (IH w HF Hw Hd') as (vs & rest & Hc & H2 & Hr).
      exists (v' :: vs), rest. unfold parse_call. rewrite Hp. cbn [bind src]. rewrite Hc. cbn [bind]. auto.
Qed.

Lemma read_one_parser : forall L E F sg utf8 docs w0 r, precise F = false -> ws w0 ->
  Forall (fun m => doc_ok utf8 (fst m) /\ ws (snd m)) docs ->
  separate (fun v => map (as_source sg) (ser E utf8 v)) docs ->
  at_pos r (w0 ++ written (fun v => map (as_source sg) (ser E utf8 v)) docs) ->
  exists vs r' rest, parser_calls L F (length docs) r = Ok (vs, r') /\
    Forall2 same_json (map fst docs) vs /\ at_pos r' rest /\ ws rest.
Proof.
  intros L E F sg utf8. induction docs as [|[v w] docs IH]; intros w0 r HF H0 Hd Hs Ha;
    cbn [length written parser_calls map fst separate] in *.
  - exists [], r, (w0 ++ []). split; [reflexivity|]. split; [constructor|]. split; [exact Ha|]. rewrite app_nil_r. exact H0.
  - destruct (Forall_inv Hd) as (Hv & Hw). cbn [fst snd] in *. pose proof (Forall_inv_tail Hd) as Hd'. destruct Hs as (Hn & Hs).
    set (tail := written (fun v => map (as_source sg) (ser E utf8 v)) docs) in *.
    rewrite (same_parser L F _ _ Ha).
    assert (exists v' r', parse_source L F (w0 ++ map (as_source sg) (ser E utf8 v) ++ w ++ tail) = Ok (v', r') /\
      same_json v v' /\ at_pos r' (w ++ tail)) as (v' & r' & Hp & Hj & Hat).
    { destruct (numeric_dec v) as [Nv|Nv].
      - apply document_round_trip; auto.
      - destruct (read_plain L E F sg utf8 v w0 (w ++ tail) HF Hv H0 Nv) as (v' & Hp & Hj).
        exists v', (mkR (w ++ tail) None). split; [exact Hp|]. split; [exact Hj|reflexivity]. }
    destruct (IH w r' HF Hw Hd' Hs Hat) as (vs & r2 & rest & Hc & H2 & H3 & Hr).
    exists (v' :: vs), r2, rest. rewrite Hp. cbn [bind]. rewrite Hc. cbn [bind]. auto.
Qed.
