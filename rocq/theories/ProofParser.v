(** The parser with its buffers agrees with the one without (C99). *)
From Verif Require Import Base ModelKeyed ModelValue ModelUtf8 ModelText ModelParseErr ModelParser SpecParser.
From Coq Require Import ZifyBool.
Local Open Scope list_scope.
Local Open Scope Z_scope.

(** * Leaves *)
Lemma rs_loop_same : forall n s st str acc, (length s <= n)%nat ->
  match read_string st acc s with
  | Ok (t, rest) => exists u, t = acc ++ u /\ rs_loop st str s = inl (str ++ u, rest)
  | Err => exists m c u rest, rs_loop st str s = inr (m, c, str ++ u, rest)
  | Fuel => False
  end.
Proof.
  induction n as [|n IH]; intros s st str acc H.
  - destruct s; [|cbn in H; lia]. cbn. exists MEof, (-1), [], []. rewrite app_nil_r. reflexivity.
  - assert (E : forall st acc x s, (length s <= n)%nat ->
      match read_string st (acc ++ x) s with
      | Ok (t, rest) => exists u, t = acc ++ u /\ rs_loop st (str ++ x) s = inl (str ++ u, rest)
      | Err => exists m c u rest, rs_loop st (str ++ x) s = inr (m, c, str ++ u, rest)
      | Fuel => False
      end).
    { intros st1 acc1 x s1 Hs. specialize (IH s1 st1 (str ++ x) (acc1 ++ x) Hs).
      destruct (read_string st1 (acc1 ++ x) s1) as [[t rest]| |]; [| |exact IH].
      - destruct IH as (u & -> & ->). exists (x ++ u). rewrite !app_assoc. auto.
      - destruct IH as (m & c & u & rest & ->). exists m, c, (x ++ u), rest. rewrite app_assoc. reflexivity. }
    destruct s as [|c s1]; [cbn; exists MEof, (-1), [], []; rewrite app_nil_r; reflexivity|].
    cbn [read_string rs_loop]. cbn [length] in H.
    destruct (c =? -1); [exists MEof, (-1), [], s1; rewrite app_nil_r; reflexivity|].
    destruct (c =? 34); [exists []; rewrite !app_nil_r; auto|].
    destruct (c =? 92).
    + destruct s1 as [|e s2]; [exists MEscape, (-1), [], []; rewrite app_nil_r; reflexivity|]. cbn [length] in H.
      destruct (simple_escape e) as [x|]; [apply E; lia|].
      destruct (e =? 117).
      * destruct s2 as [|h1 [|h2 [|h3 [|h4 s3]]]];
          try (exists MEof, (-1), [], []; rewrite app_nil_r; reflexivity).
        apply E. cbn [length] in H. lia.
      * exists MEscape, e, [], s2. rewrite app_nil_r. reflexivity.
    + destruct (utf8_step st c) as [st1 ws]. apply E. lia.
Qed.

Lemma firstn_start : forall (a b : bytes), firstn (length a) (a ++ b) = a.
Proof. intros a b. rewrite firstn_app, firstn_all, Nat.sub_diag. cbn. apply app_nil_r. Qed.
Lemma get_new : forall r a u arr, get_str (length a, (length (a ++ u) - length a)%nat) (mkS r (a ++ u) arr) = u.
Proof.
  intros r a u arr. unfold get_str. cbn. rewrite app_length, skipn_app, skipn_all2, Nat.sub_diag by lia. cbn.
  replace (length a + length u - length a)%nat with (length u) by lia. apply firstn_all.
Qed.
Lemma free_new : forall r a u arr, free_str (length a, (length (a ++ u) - length a)%nat) (mkS r (a ++ u) arr) = Some (mkS r a arr).
Proof.
  intros r a u arr. unfold free_str. cbn. rewrite app_length.
  replace (length a + (length a + length u - length a))%nat with (length a + length u)%nat by lia.
  rewrite Nat.eqb_refl, firstn_start. reflexivity.
Qed.

Definition name_of (a u : bytes) : stridx := (length a, (length (a ++ u) - length a)%nat).
Lemma p_read_same : forall s,
  match read_string_r (s_rd s) with
  | Ok (t, r1) => p_read_string s = Done (name_of (s_str s) t) (mkS r1 (s_str s ++ t) (s_arr s))
  | Err => exists m c rest, p_read_string s = Throws (mkE m c []) (mkS (mkR rest (cur (s_rd s))) (s_str s) (s_arr s))
  | Fuel => False
  end.
Proof.
  intros [r str arr]. unfold read_string_r, p_read_string, name_of. cbn [s_rd s_str s_arr].
  pose proof (rs_loop_same (length (src r)) (src r) u_init str [] (le_n _)) as H.
  destruct (read_string u_init [] (src r)) as [[t rest]| |]; cbn; [| |exact H].
  - destruct H as (u & -> & ->). cbn. reflexivity.
  - destruct H as (m & c & u & rest & ->). exists m, c, rest. rewrite firstn_start. reflexivity.
Qed.

(** What a function without a place in the input gives. *)
Definition leaf_as (x : res (value * reader)) (s : pstate) (o : pout value) : Prop :=
  match x with
  | Ok (v, r) => o = Done v (mkS r (s_str s) (s_arr s))
  | Err => exists m c r, o = Throws (mkE m c []) (mkS r (s_str s) (s_arr s))
  | Fuel => o = NoFuel
  end.

Lemma p_string_same : forall s, leaf_as (do (t, r2) <- read_string_r (s_rd s); Ok (string_value t, r2)) s (p_string s).
Proof.
  intros s. unfold p_string. pose proof (p_read_same s) as H.
  destruct (read_string_r (s_rd s)) as [[t r1]| |]; cbn; [| |destruct H].
  - rewrite H. unfold name_of. rewrite get_new, free_new. reflexivity.
  - destruct H as (m & c & rest & ->). eauto.
Qed.

Lemma cs_same : forall str s, match check_rest str s with
  | Ok rest => cs_rest str s = inl rest
  | Err => exists c rest, cs_rest str s = inr (c, rest)
  | Fuel => False end.
Proof.
  induction str as [|k str IH]; intros s; cbn; [reflexivity|].
  destruct (pull s) as [c s1]. destruct (c =? k); [apply IH|eauto].
Qed.
Lemma p_keyword_same : forall str v s, str <> [] ->
  leaf_as (do r2 <- check_string str (s_rd s); Ok (v, r2)) s (p_keyword str v s).
Proof.
  intros [|k str] v s H; [congruence|]. unfold p_keyword, check_string. cbn [hd tl].
  destruct (next (s_rd s)) as [c r1]. destruct (c =? k).
  - cbn [src commit]. pose proof (cs_same str (src r1)) as E.
    destruct (check_rest str (src r1)); cbn; [rewrite E; reflexivity| |destruct E].
    destruct E as (c' & rest & ->). unfold with_rd. eauto.
  - cbn. unfold with_rd. eauto.
Qed.

(** * Numbers *)
Definition num_as {A} (x : res (A * reader)) (o : nout A) : Prop :=
  match x with
  | Ok (v, r) => o = NOk v r
  | Err => exists m c r, o = NErr m c r
  | Fuel => o = NOut
  end.
Lemma n_large_same : forall L f d r, num_as (parse_large L f d r) (n_large L f d r).
Proof.
  induction f as [|f IH]; intros d r; cbn; [reflexivity|].
  destruct (next r) as [c r1]. destruct (isdigit c); [|reflexivity].
  destruct (parse_unsigned r1) as [[[ok part] cnt] r2].
  destruct (f_isinf _); [cbn; eauto|]. apply IH.
Qed.
Lemma n_double_same : forall L i b r, num_as (parse_double L i b r) (n_double L i b r).
Proof.
  intros L i b r. unfold parse_double, n_double.
  pose proof (n_large_same L (large_fuel r) (f_of_Z i) r) as H.
  destruct (parse_large L (large_fuel r) (f_of_Z i) r) as [[d0 r0]| |]; unfold num_as in H; cbn [bind];
    [rewrite H|destruct H as (m & c & r' & ->); cbn; eauto|rewrite H; reflexivity].
  cbn [nbind]. unfold n_fraction, n_exponent. destruct (next r0) as [c r1].
  assert (T : forall d1 r2, num_as
    (let '(c2, r3) := next r2 in
     do (d2, r4) <-
       (if is_e c2 then
          let '(negexp, r5) := read_sign (commit r3) in
          let '(c3, r6) := next r5 in
          if isdigit c3 then
            let '(ok, expn, _, r7) := parse_unsigned r6 in
            if ok then Ok (f_mul d1 (lm_pow L (if negexp then f_tenth else f_ten) (f_of_Z expn)), r7) else Err
          else Err
        else Ok (d1, r3));
     Ok (value_of_double (if b then f_opp d2 else d2), r4))
    (nbind (n_exponent L d1 r2) (fun d2 r4 => NOk (value_of_double (if b then f_opp d2 else d2)) r4))).
  { intros d1 r2. unfold n_exponent. destruct (next r2) as [c2 r3]. destruct (is_e c2); [|reflexivity].
    destruct (read_sign (commit r3)) as [ne r5]. destruct (next r5) as [c3 r6].
    destruct (isdigit c3); [|cbn; eauto]. destruct (parse_unsigned r6) as [[[ok expn] cnt] r7].
    destruct ok; cbn; eauto. }
  destruct (c =? 46).
  - destruct (next (commit r1)) as [c1 r1']. destruct (isdigit c1).
    + destruct (parse_decimal L r1') as [fr r1'']. cbn [bind nbind]. apply T.
    + cbn. eauto.
  - cbn [bind nbind]. apply T.
Qed.
Lemma n_plain_same : forall L F r, precise F = false -> num_as (parse_number L F r) (n_plain L r).
Proof.
  intros L F r HF. unfold parse_number, n_plain. rewrite HF.
  destruct (read_sign r) as [ng r1]. destruct (next r1) as [c r2].
  destruct (negb (isdigit c) && negb (c =? 46)); [cbn; eauto|].
  destruct (parse_unsigned r2) as [[[ok ip] cnt] r3]. destruct (next r3) as [c3 r4].
  destruct (negb ok || (c3 =? 46) || is_e c3); [apply n_double_same|].
  destruct ng; [destruct (Z.testbit ip 63)|]; reflexivity.
Qed.
Lemma to_byte_46 : to_byte 46 = 46. Proof. reflexivity. Qed.
Lemma p_precise_same : forall s,
  match parse_precise (s_rd s) with
  | Ok (t, isf, r1) => p_precise s = Done (name_of (s_str s) t, isf) (mkS r1 (s_str s ++ t) (s_arr s))
  | Err => exists m c r, p_precise s = Throws (mkE m c []) (mkS r (s_str s) (s_arr s))
  | Fuel => False
  end.
Proof.
  intros s. unfold parse_precise, p_precise, name_of.
  destruct (next_commit (s_rd s)) as [c0 r0].
  destruct ((c0 =? 43) || (c0 =? 45)).
  all: try destruct (pull (src r0)) as [cp sp].
  all: match goal with |- context [isdigit ?c] => destruct (isdigit c); [|cbn; eauto] end.
  all: match goal with |- context [digit_run ?c ?t] => destruct (digit_run c t) as [[ip c2] s2] end.
  all: destruct (c2 =? 46) eqn:E46; [apply Z.eqb_eq in E46; subst c2; rewrite to_byte_46;
         destruct (pull s2) as [cq sq]; destruct (digit_run cq sq) as [[ds c3] s3]|].
  all: match goal with |- context [is_e ?c] => destruct (is_e c) end.
  all: try match goal with |- context [pull ?t] => destruct (pull t) as [c4 s4];
         destruct ((c4 =? 43) || (c4 =? 45)); [destruct (pull s4) as [c5 s5]|] end.
  all: try match goal with |- context [isdigit ?c] => destruct (isdigit c); [|cbn; eauto] end.
  all: try match goal with |- context [digit_run ?c ?t] => destruct (digit_run c t) as [[ed c6] s6] end.
  all: cbn [app]; rewrite <- ?app_assoc; cbn [app]; rewrite <- ?app_assoc, ?app_nil_r; reflexivity.
Qed.
Lemma p_number_same : forall L F s, leaf_as (parse_number L F (s_rd s)) s (p_number L F s).
Proof.
  intros L F s. unfold p_number. destruct (precise F) eqn:E.
  - unfold parse_number. rewrite E. pose proof (p_precise_same s) as H.
    destruct (parse_precise (s_rd s)) as [[[t isf] r1]| |]; cbn; [| |destruct H].
    + rewrite H. unfold name_of. rewrite get_new, free_new. reflexivity.
    + destruct H as (m & c & r & ->). eauto.
  - pose proof (n_plain_same L F (s_rd s) E) as H. destruct (parse_number L F (s_rd s)) as [[v r]| |]; cbn in *.
    + rewrite H. reflexivity.
    + destruct H as (m & c & r & ->). unfold with_rd. eauto.
    + rewrite H. reflexivity.
Qed.

(** * Values *)
(** [str], [arr]: the buffers when the function was entered; an error leaves some values
    behind. *)
Definition like (x : eres (value * reader)) (str : bytes) (arr : list (bytes * value)) (o : pout value) : Prop :=
  match x with
  | POk (v, r) => o = Done v (mkS r str arr)
  | PErr n st => exists m c r junk, length junk = n /\ o = Throws (mkE m c st) (mkS r str (arr ++ junk))
  | PFuel => o = NoFuel
  end.
Lemma like_leaf : forall x s o, leaf_as x s o -> like (leaf x) (s_str s) (s_arr s) o.
Proof.
  intros [[v r]| |] s o H; cbn in *; auto. destruct H as (m & c & r & ->). exists m, c, r, []. rewrite app_nil_r. auto.
Qed.
Lemma get_cut : forall a u r arr, get_str (name_of a u) (mkS r a arr) = [].
Proof. intros. unfold get_str, name_of. cbn. rewrite skipn_all. apply firstn_nil. Qed.
Lemma get_zero : forall r a arr, get_str (O, O) (mkS r a arr) = [].
Proof. reflexivity. Qed.

Lemma same_all : forall L F f,
  (forall s, like (parse_e L F f (s_rd s)) (s_str s) (s_arr s) (p_parse L F f s)) /\
  (forall arr prev c r str acc, (forall r arr, get_str prev (mkS r str arr) = []) ->
    like (parse_obj_e L F f c r acc) str arr (p_members L F f (length arr) prev c (mkS r str (arr ++ rev acc)))) /\
  (forall arr r str acc,
    like (parse_arr_e L F f r acc) str arr
      (p_items L F f (length arr) (mkS r str (arr ++ map (fun v => ([], v)) (rev acc))))).
Proof.
  intros L F. induction f as [|f (IHv & IHo & IHa)]; [repeat split; intros; reflexivity|].
  assert (SK : forall (a b : list (bytes * value)), skipn (length a) (a ++ b) = b).
  { intros a b. rewrite skipn_app, skipn_all, Nat.sub_diag. reflexivity. }
  assert (FI : forall (a b : list (bytes * value)), firstn (length a) (a ++ b) = a).
  { intros a b. rewrite firstn_app, firstn_all, Nat.sub_diag. cbn. apply app_nil_r. }
  split; [|split].
  - intros s. cbn [parse_e p_parse]. destruct (next_ws (s_rd s)) as [c r1].
    destruct (c =? 123).
    { destruct (next_ws (commit r1)) as [c1 r2]. destruct (c1 =? 125); [reflexivity|].
      specialize (IHo (s_arr s) (O, O) c1 r2 (s_str s) [] (fun _ _ => eq_refl)). cbn in IHo. rewrite app_nil_r in IHo. exact IHo. }
    destruct (c =? 91).
    { destruct (next_ws (commit r1)) as [c1 r2]. destruct (c1 =? 93); [reflexivity|].
      specialize (IHa (s_arr s) r2 (s_str s) []). cbn in IHa. rewrite app_nil_r in IHa. exact IHa. }
    destruct (c =? 34); [apply (like_leaf _ (with_rd s (commit r1)) _ (p_string_same _))|].
    destruct (c =? 116); [refine (like_leaf _ (with_rd s r1) _ (p_keyword_same _ _ (with_rd s r1) _)); discriminate|].
    destruct (c =? 102); [refine (like_leaf _ (with_rd s r1) _ (p_keyword_same _ _ (with_rd s r1) _)); discriminate|].
    destruct (c =? 110); [refine (like_leaf _ (with_rd s r1) _ (p_keyword_same _ _ (with_rd s r1) _)); discriminate|].
    destruct (c =? -1) eqn:E1.
    { apply Z.eqb_eq in E1. subst c. cbn. exists MEnd, (-1), r1, []. rewrite app_nil_r. auto. }
    destruct (isdigit c || (c =? 43) || (c =? 45) || (c =? 46)).
    { apply (like_leaf _ (with_rd s r1) _ (p_number_same _ _ _)). }
    exists MData, c, r1, []. rewrite app_nil_r. auto.
  - intros arr prev c r str acc Hp. cbn [parse_obj_e p_members].
    destruct (c =? 34); [|exists MKey, c, r, (rev acc); rewrite rev_length; auto].
    cbn [s_rd with_rd]. pose proof (p_read_same (mkS (commit r) str (arr ++ rev acc))) as R. cbn [s_rd s_str s_arr] in R.
    unfold with_rd at 1. cbn [s_rd s_str s_arr].
    destruct (read_string_r (commit r)) as [[name r1]| |]; [| |destruct R].
    2:{ destruct R as (m & c' & rest & ->). unfold add_context. cbn [e_msg e_last e_stack app]. rewrite Hp.
        eexists _, _, _, (rev acc). rewrite rev_length. split; reflexivity. }
    rewrite R. cbn [s_rd]. destruct (next_ws r1) as [c1 r2]. destruct (c1 =? 58).
    2:{ unfold with_rd, name_of. cbn [s_str s_arr].
        rewrite free_new, get_new. eexists _, _, _, (rev acc). rewrite rev_length. split; reflexivity. }
    specialize (IHv (with_rd (mkS r1 (str ++ name) (arr ++ rev acc)) (commit r2))). unfold with_rd in IHv at 1 2 3.
    cbn [s_rd s_str s_arr] in IHv.
    destruct (parse_e L F f (commit r2)) as [[v r3]|n st|]; cbn [like] in IHv.
    + rewrite IHv. cbn [s_rd s_str s_arr]. unfold name_of. rewrite get_new, free_new. cbn [s_rd s_str s_arr].
      destruct (next_ws r3) as [c2 r4].
      replace ((arr ++ rev acc) ++ [(name, v)]) with (arr ++ rev ((name, v) :: acc)) by (cbn; apply app_assoc).
      rewrite SK, FI. unfold finish_object.
      destruct (c2 =? 125).
      { destruct (negb (allow_dup F) && _); [|reflexivity].
        eexists _, _, _, (rev ((name, v) :: acc)). rewrite rev_length. split; reflexivity. }
      destruct (c2 =? 44).
      { destruct (next_ws (commit r4)) as [c3 r6]. apply IHo. intros. apply get_cut. }
      eexists _, _, _, (rev ((name, v) :: acc)). rewrite rev_length. split; reflexivity.
    + destruct IHv as (m & c' & r' & junk & Hj & ->). unfold name_of. rewrite get_new, free_new.
      unfold add_context. cbn [e_msg e_last e_stack].
      exists m, c', r', (rev acc ++ junk). rewrite app_length, rev_length, app_assoc. split; [lia|reflexivity].
    + rewrite IHv. reflexivity.
  - intros arr r str acc. cbn [parse_arr_e p_items].
    set (g := fun v : value => (@nil Z, v)). fold g in IHa.
    specialize (IHv (mkS r str (arr ++ map g (rev acc)))). cbn [s_rd s_str s_arr] in IHv.
    destruct (parse_e L F f r) as [[v r1]|n st|]; cbn [like] in IHv.
    + rewrite IHv. cbn [s_rd s_str s_arr]. destruct (next_ws r1) as [c r2].
      replace ((arr ++ map g (rev acc)) ++ [g v]) with (arr ++ map g (rev (v :: acc)))
        by (cbn; rewrite map_app; apply app_assoc).
      rewrite SK, FI. destruct (c =? 93); [reflexivity|]. destruct (c =? 44); [apply IHa|].
      unfold add_context. cbn [e_msg e_last e_stack app].
      eexists _, _, _, (map g (rev (v :: acc))).
      assert (E : length (map g (rev (v :: acc))) = length (v :: acc)) by (rewrite map_length, rev_length; reflexivity).
      split; [exact E|]. rewrite app_length, E.
      replace (length arr + length (v :: acc) - length arr)%nat with (length (v :: acc)) by lia. reflexivity.
    + destruct IHv as (m & c' & r' & junk & Hj & ->). unfold add_context. cbn [e_msg e_last e_stack s_arr].
      exists m, c', r', (map g (rev acc) ++ junk).
      assert (E : length ((arr ++ map g (rev acc)) ++ junk) = (length arr + (length acc + n))%nat)
        by (rewrite !app_length, map_length, rev_length; lia).
      rewrite app_length, map_length, rev_length, E, app_assoc. split; [lia|].
      replace (length arr + (length acc + n) - length arr)%nat with (length acc + n)%nat by lia. reflexivity.
    + rewrite IHv. reflexivity.
Qed.
