(** A parser used again (C99). *)
From Verif Require Import Base ModelKeyed ModelValue ModelUtf8 ModelText SpecText ModelParseErr SpecParseErr ModelDocs ModelParser SpecParser
  ProofText3 ProofParseErr ProofParser ProofParser2.
From Coq Require Import ZifyBool.
Local Open Scope list_scope.
Local Open Scope Z_scope.

(** * Message, character and reader do not depend on the buffers *)
Definition seen {A} (o : pout A) : option (message * Z * reader) :=
  match o with Throws e s => Some (e_msg e, e_last e, s_rd s) | _ => None end.
Lemma rs_seen : forall n s st a b, (length s <= n)%nat ->
  match rs_loop st a s, rs_loop st b s with
  | inl _, inl _ => True
  | inr (m, c, _, rest), inr (m', c', _, rest') => m = m' /\ c = c' /\ rest = rest'
  | _, _ => False
  end.
Proof.
  induction n as [|n IH]; intros s st a b H.
  - destruct s; [|cbn in H; lia]. cbn. auto.
  - destruct s as [|c s1]; [cbn; auto|]. cbn [rs_loop]. cbn [length] in H.
    destruct (c =? -1); [auto|]. destruct (c =? 34); [exact I|].
    destruct (c =? 92).
    + destruct s1 as [|e s2]; [auto|]. cbn [length] in H.
      destruct (simple_escape e); [apply IH; lia|]. destruct (e =? 117); [|auto].
      destruct s2 as [|h1 [|h2 [|h3 [|h4 s3]]]]; auto. apply IH. cbn [length] in H. lia.
    + destruct (utf8_step st c). apply IH. lia.
Qed.
Lemma read_seen : forall s s', s_rd s = s_rd s' -> seen (p_read_string s) = seen (p_read_string s').
Proof.
  intros [r a x] [r' b y] H. cbn in H. subst r'. unfold p_read_string. cbn [s_rd s_str s_arr].
  pose proof (rs_seen _ (src r) u_init a b (le_n _)) as K.
  destruct (rs_loop u_init a (src r)) as [[t rest]|[[[m c] t] rest]],
    (rs_loop u_init b (src r)) as [[t' rest']|[[[m' c'] t'] rest']]; try destruct K; [reflexivity|].
  destruct H0 as [-> ->]. subst m'. reflexivity.
Qed.
Lemma string_seen : forall s s', s_rd s = s_rd s' -> seen (p_string s) = seen (p_string s').
Proof.
  intros s s' H. pose proof (read_seen s s' H) as K. pose proof (p_read_same s) as P. pose proof (p_read_same s') as Q.
  rewrite <- H in Q. unfold p_string. destruct (read_string_r (s_rd s)) as [[t r1]| |]; [| |destruct P].
  - rewrite P, Q. unfold name_of. rewrite !free_new. reflexivity.
  - destruct P as (m & c & rest & P), Q as (m' & c' & rest' & Q). rewrite P, Q in *. exact K.
Qed.
Lemma precise_seen : forall s s', s_rd s = s_rd s' -> seen (p_precise s) = seen (p_precise s').
Proof.
  intros s s' H. unfold p_precise. rewrite H. destruct (next_commit (s_rd s')) as [c0 r0].
  destruct ((c0 =? 43) || (c0 =? 45)).
  all: try destruct (pull (src r0)) as [cp sp].
  all: match goal with |- context [isdigit ?c] => destruct (isdigit c); [|reflexivity] end.
  all: match goal with |- context [digit_run ?c ?t] => destruct (digit_run c t) as [[ip c2] s2] end.
  all: destruct (c2 =? 46); [destruct (pull s2) as [cq sq]; destruct (digit_run cq sq) as [[ds c3] s3]|].
  all: match goal with |- context [is_e ?c] => destruct (is_e c); [|reflexivity] end.
  all: match goal with |- context [pull ?t] => destruct (pull t) as [c4 s4];
         destruct ((c4 =? 43) || (c4 =? 45)); [destruct (pull s4) as [c5 s5]|] end.
  all: match goal with |- context [isdigit ?c] => destruct (isdigit c); [|reflexivity] end.
  all: match goal with |- context [digit_run ?c ?t] => destruct (digit_run c t) as [[ed c6] s6] end.
  all: reflexivity.
Qed.
Lemma number_seen : forall L F s s', s_rd s = s_rd s' -> seen (p_number L F s) = seen (p_number L F s').
Proof.
  intros L F s s' H. unfold p_number. destruct (precise F).
  - pose proof (precise_seen s s' H) as K. pose proof (p_precise_same s) as P. pose proof (p_precise_same s') as Q.
    rewrite <- H in Q. destruct (parse_precise (s_rd s)) as [[[t isf] r1]| |]; [| |destruct P].
    + rewrite P, Q. unfold name_of. rewrite !free_new. reflexivity.
    + destruct P as (m & c & r & P), Q as (m' & c' & r' & Q). rewrite P, Q in *. exact K.
  - rewrite H. destruct (n_plain L (s_rd s')); reflexivity.
Qed.
Lemma keyword_seen : forall str v s s', s_rd s = s_rd s' -> seen (p_keyword str v s) = seen (p_keyword str v s').
Proof.
  intros str v s s' H. unfold p_keyword. rewrite H. destruct (next (s_rd s')) as [c r1]. destruct (c =? hd 0 str); [|reflexivity].
  destruct (cs_rest (tl str) (src (commit r1))) as [rest|[c' rest]]; reflexivity.
Qed.

Lemma seen_all : forall L F f,
  (forall s s', s_rd s = s_rd s' -> seen (p_parse L F f s) = seen (p_parse L F f s')) /\
  (forall arr arr' prev prev' c r str str' acc,
    seen (p_members L F f (length arr) prev c (mkS r str (arr ++ rev acc))) =
    seen (p_members L F f (length arr') prev' c (mkS r str' (arr' ++ rev acc)))) /\
  (forall arr arr' r str str' acc,
    seen (p_items L F f (length arr) (mkS r str (arr ++ map (fun v => ([], v)) (rev acc)))) =
    seen (p_items L F f (length arr') (mkS r str' (arr' ++ map (fun v => ([], v)) (rev acc))))).
Proof.
  intros L F. induction f as [|f (IHv & IHo & IHa)]; [repeat split; intros; reflexivity|].
  assert (SK : forall (a b : list (bytes * value)), skipn (length a) (a ++ b) = b).
  { intros a b. rewrite skipn_app, skipn_all, Nat.sub_diag. reflexivity. }
  split; [|split].
  - intros s s' H. cbn [p_parse]. rewrite H. destruct (next_ws (s_rd s')) as [c r1].
    destruct (c =? 123).
    { destruct (next_ws (commit r1)) as [c1 r2]. destruct (c1 =? 125); [reflexivity|].
      specialize (IHo (s_arr s) (s_arr s') (O, O) (O, O) c1 r2 (s_str s) (s_str s') []). cbn in IHo. rewrite !app_nil_r in IHo. exact IHo. }
    destruct (c =? 91).
    { destruct (next_ws (commit r1)) as [c1 r2]. destruct (c1 =? 93); [reflexivity|].
      specialize (IHa (s_arr s) (s_arr s') r2 (s_str s) (s_str s') []). cbn in IHa. rewrite !app_nil_r in IHa. exact IHa. }
    destruct (c =? 34); [apply string_seen; reflexivity|].
    destruct (c =? 116); [apply keyword_seen; reflexivity|].
    destruct (c =? 102); [apply keyword_seen; reflexivity|].
    destruct (c =? 110); [apply keyword_seen; reflexivity|].
    destruct (c =? -1); [reflexivity|].
    destruct (isdigit c || (c =? 43) || (c =? 45) || (c =? 46)); [apply number_seen; reflexivity|]. reflexivity.
  - intros arr arr' prev prev' c r str str' acc. cbn [p_members].
    destruct (c =? 34); [|reflexivity].
    unfold with_rd. cbn [s_rd s_str s_arr].
    pose proof (p_read_same (mkS (commit r) str (arr ++ rev acc))) as R. pose proof (p_read_same (mkS (commit r) str' (arr' ++ rev acc))) as R'.
    pose proof (read_seen (mkS (commit r) str (arr ++ rev acc)) (mkS (commit r) str' (arr' ++ rev acc)) eq_refl) as RS.
    cbn [s_rd s_str s_arr] in R, R'.
    destruct (read_string_r (commit r)) as [[name r1]| |]; [| |destruct R].
    2:{ destruct R as (m & c0 & rest & R), R' as (m' & c0' & rest' & R'). rewrite R, R' in *. exact RS. }
    rewrite R, R'. cbn [s_rd]. destruct (next_ws r1) as [c1 r2]. destruct (c1 =? 58).
    2:{ unfold name_of. cbn [s_str s_arr]. rewrite !free_new. reflexivity. }
    pose proof (proj1 (same_all L F f) (mkS (commit r2) (str ++ name) (arr ++ rev acc))) as P.
    pose proof (proj1 (same_all L F f) (mkS (commit r2) (str' ++ name) (arr' ++ rev acc))) as P'.
    specialize (IHv (mkS (commit r2) (str ++ name) (arr ++ rev acc)) (mkS (commit r2) (str' ++ name) (arr' ++ rev acc)) eq_refl).
    cbn [s_rd s_str s_arr] in *.
    destruct (parse_e L F f (commit r2)) as [[v r3]|n st|]; cbn [like] in P, P'.
    + rewrite P, P'. cbn [s_rd s_str s_arr]. unfold name_of. rewrite !get_new, !free_new. cbn [s_rd s_str s_arr].
      destruct (next_ws r3) as [c2 r4].
      replace ((arr ++ rev acc) ++ [(name, v)]) with (arr ++ rev ((name, v) :: acc)) by (cbn; apply app_assoc).
      replace ((arr' ++ rev acc) ++ [(name, v)]) with (arr' ++ rev ((name, v) :: acc)) by (cbn; apply app_assoc).
      rewrite !SK. destruct (c2 =? 125).
      { destruct (negb (allow_dup F) && _); reflexivity. }
      destruct (c2 =? 44); [|reflexivity]. destruct (next_ws (commit r4)) as [c3 r6]. apply IHo.
    + destruct P as (m & c' & r' & junk & _ & P), P' as (m' & c'' & r'' & junk' & _ & P'). rewrite P, P' in *.
      unfold name_of. rewrite !free_new. exact IHv.
    + rewrite P, P'. reflexivity.
  - intros arr arr' r str str' acc. cbn [p_items]. set (g := fun v : value => (@nil Z, v)) in *.
    pose proof (proj1 (same_all L F f) (mkS r str (arr ++ map g (rev acc)))) as P.
    pose proof (proj1 (same_all L F f) (mkS r str' (arr' ++ map g (rev acc)))) as P'.
    specialize (IHv (mkS r str (arr ++ map g (rev acc))) (mkS r str' (arr' ++ map g (rev acc))) eq_refl).
    cbn [s_rd s_str s_arr] in *.
    destruct (parse_e L F f r) as [[v r1]|n st|]; cbn [like] in P, P'.
    + rewrite P, P'. cbn [s_rd s_str s_arr]. destruct (next_ws r1) as [c r2].
      replace ((arr ++ map g (rev acc)) ++ [g v]) with (arr ++ map g (rev (v :: acc)))
        by (cbn; rewrite map_app; apply app_assoc).
      replace ((arr' ++ map g (rev acc)) ++ [g v]) with (arr' ++ map g (rev (v :: acc)))
        by (cbn; rewrite map_app; apply app_assoc).
      destruct (c =? 93); [reflexivity|]. destruct (c =? 44); [apply IHa|reflexivity].
    + destruct P as (m & c' & r' & junk & _ & P), P' as (m' & c'' & r'' & junk' & _ & P'). rewrite P, P' in *. exact IHv.
    + rewrite P, P'. reflexivity.
Qed.

(** * Calls *)
Lemma call_fuel : forall L F s, parse_e L F (S (2 * S (length (src (s_rd s))))) (s_rd s) <> PFuel.
Proof.
  intros L F s H. pose proof (proj1 (erase_all L F (S (2 * S (length (src (s_rd s)))))) (s_rd s)) as E. rewrite H in E. cbn [erase] in E.
  apply (proj1 (parse_fuel_all L F (S (2 * S (length (src (s_rd s))))))) with (r := s_rd s); [|auto].
  unfold rw. destruct (cur (s_rd s)) as [x|]; [destruct (x =? -1)|]; lia.
Qed.
Lemma call_same : forall L F s,
  match parse_e L F (S (2 * S (length (src (s_rd s))))) (s_rd s) with
  | POk (v, r) => p_call L F s = Done v (mkS r (s_str s) (s_arr s))
  | PErr n st => exists m c r junk, length junk = n /\ p_call L F s = Throws (mkE m c st) (mkS r (s_str s) (s_arr s ++ junk))
  | PFuel => False
  end.
Proof.
  intros L F s. unfold p_call. pose proof (proj1 (same_all L F (S (2 * S (length (src (s_rd s)))))) s) as H.
  pose proof (call_fuel L F s). destruct (parse_e _ _ _ _) as [[v r]|n st|]; cbn [like] in H; congruence || auto.
Qed.
Lemma call_reuse : forall L F s,
  match parser_call L F (s_rd s) with
  | Ok (v, r) => p_call L F s = Done v (mkS r (s_str s) (s_arr s))
  | Err => exists e r junk, p_call L F s = Throws e (mkS r (s_str s) (s_arr s ++ junk))
  | Fuel => False
  end.
Proof.
  intros L F s. unfold parser_call. rewrite <- (proj1 (erase_all L F _)). pose proof (call_same L F s) as H.
  destruct (parse_e _ _ _ _) as [[v r]|n st|]; cbn [erase]; auto. destruct H as (m & c & r & junk & _ & H). eauto.
Qed.
Lemma source_same : forall L F s,
  match parse_source_e L F s with
  | POk (v, r) => p_source L F s = Done v (mkS r [] [])
  | PErr n st => exists m c r junk, length junk = n /\ p_source L F s = Throws (mkE m c st) (mkS r [] junk)
  | PFuel => False
  end.
Proof.
  intros L F s. unfold p_source, parse_source_e. pose proof (proj1 (same_all L F (S (2 * length s))) (p_new s)) as H.
  cbn [s_rd s_str s_arr p_new] in H.
  assert (K : parse_e L F (S (2 * length s)) (mkR s None) <> PFuel).
  { intros E. pose proof (same_outcome L F s) as X. unfold parse_source_e in X. rewrite E in X.
    exact (parse_source_fuel L F s X). }
  destruct (parse_e _ _ _ _) as [[v r]|n st|]; cbn [like] in H; congruence || auto.
Qed.
Lemma call_blind : forall L F s s', s_rd s = s_rd s' -> shown (p_call L F s) = shown (p_call L F s').
Proof.
  intros L F s s' H. pose proof (call_same L F s) as P. pose proof (call_same L F s') as Q. rewrite <- H in Q.
  assert (K : seen (p_call L F s) = seen (p_call L F s')).
  { unfold p_call. rewrite H. apply (proj1 (seen_all L F _)). exact H. }
  destruct (parse_e _ _ _ _) as [[v r]|n st|]; [| |destruct P].
  - rewrite P, Q. reflexivity.
  - destruct P as (m & c & r & junk & _ & P), Q as (m' & c' & r' & junk' & _ & Q). rewrite P, Q in *. cbn in *. congruence.
Qed.

Lemma ahead_av : forall r, left_of (ahead r) (av r).
Proof. intros [s [c|]]; cbn; [apply avc_lo|apply lo_refl]. Qed.
Lemma call_error : forall L F s e s', p_call L F s = Throws e s' ->
  left_of (ahead (s_rd s)) (src (s_rd s')) /\
  blames (e_msg e) (e_last e) /\
  (names_last (e_msg e) = true -> last_delivered (seen_as (e_msg e)) (ahead (s_rd s)) (src (s_rd s')) (e_last e)) /\
  (if keeps (e_msg e)
   then exists x, cur (s_rd s') = Some x /\ (names_last (e_msg e) = true -> e_last e = seen_as (e_msg e) x)
   else cur (s_rd s') = None).
Proof.
  intros L F s e s' H. unfold p_call in H. pose proof (proj1 (told_all L F (S (2 * S (length (src (s_rd s)))))) s) as T.
  rewrite H in T. destruct T as (A & B & C & D).
  split; [exact (lo_trans _ _ _ (ahead_av _) (lo_trans _ _ _ A (adv_src _)))|]. split; [exact B|].
  split; [intros N; exact (ld_lo _ _ _ _ _ (ahead_av _) (C N))|exact D].
Qed.

(** * No way past a character which starts nothing *)
Lemma skip_stop : forall c s, isspace (char_of c) = false -> skip_ws c s = (c, s).
Proof. intros c [|y s] H; cbn; rewrite H; reflexivity. Qed.
Lemma call_stuck : forall L F s e s', p_call L F s = Throws e s' -> e_msg e = MData \/ e_msg e = MEnd ->
  p_call L F s' = Throws (mkE (e_msg e) (e_last e) []) s'.
Proof.
  intros L F s e s' H M. destruct (call_error _ _ _ _ _ H) as (_ & B & _ & K).
  assert (X : exists x, cur (s_rd s') = Some x /\ e_last e = char_of x).
  { destruct M as [M|M]; rewrite M in K; cbn in K; destruct K as (x & A & E); exists x; auto. }
  destruct X as (x & Cx & Ex).
  assert (NS : isspace (e_last e) = false).
  { destruct M as [M|M]; rewrite M in B; cbn in B; [unfold isspace; lia|rewrite B; reflexivity]. }
  assert (W : next_ws (s_rd s') = (e_last e, s_rd s')).
  { unfold next_ws, next. rewrite Cx, skip_stop by (rewrite <- Ex; exact NS). rewrite <- Ex.
    destruct (s_rd s') as [src' cur']. cbn in *. rewrite Cx. reflexivity. }
  unfold p_call. cbn [p_parse]. rewrite W.
  assert (V : with_rd s' (s_rd s') = s') by (destruct s'; reflexivity). rewrite V.
  destruct M as [M|M]; rewrite M in B |- *; cbn in B.
  - unfold starts_value in B. cbn in B.
    repeat match goal with |- context [e_last e =? ?k] => replace (e_last e =? k) with false by lia end.
    replace (isdigit (e_last e)) with false by (unfold isdigit; lia). reflexivity.
  - rewrite B. reflexivity.
Qed.
