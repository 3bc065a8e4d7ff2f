(** Completeness of the grammar of SpecAccept: its texts are accepted. *)
From Coq Require Import ZifyBool Sorted.
From Verif Require Import Base ModelUtf8 SpecUtf8 ProofUtf8 ModelKeyed SpecKeyed ProofKeyed
  ModelValue ProofValue ModelText SpecText ProofText1 ProofText2 ProofText3 ProofText4 ProofText5
  SpecAccept ProofAccept ProofAccept2.
Local Open Scope Z_scope.

(** *** White space *)
Lemma skip_spaces_run : forall w c s, spaces w -> isspace (char_of c) = false ->
  skip_ws (hd_eof (w ++ c :: s)) (tl (w ++ c :: s)) = (c, s).
Proof.
  induction w as [|x w IH]; intros c s Hw Hc.
  - simpl. destruct s; simpl; rewrite Hc; reflexivity.
  - inversion_clear Hw as [|? ? Hx Hw']. simpl hd_eof. simpl tl.
    specialize (IH c s Hw' Hc).
    destruct (w ++ c :: s) as [|y l] eqn:E; [destruct w; discriminate|].
    cbn [skip_ws]. rewrite (space_is x Hx). exact IH.
Qed.

Lemma next_spaces_low : forall r w c s, at_pos r (w ++ c :: s) -> spaces w -> 33 <= c < 128 ->
  next_ws r = (c, mkR s (Some c)).
Proof.
  intros r w c s H Hw Hc. unfold next_ws. rewrite (next_at _ _ H). cbn [src].
  rewrite skip_spaces_run by (auto; apply isspace_high; lia). rewrite char_of_low by lia. reflexivity.
Qed.

Lemma num_end_spaces : forall w c s, spaces w -> ~ digit_char c -> c <> 46 -> c <> 69 -> c <> 101 ->
  num_end (w ++ c :: s).
Proof.
  intros w c s Hw H1 H2 H3 H4. destruct Hw as [|x w Hx _]; simpl; auto.
  unfold space, digit_char in *. lia.
Qed.

(** *** Numbers *)
(** The text [t] is read as [n] wherever it stands. *)
Definition num_read (L : libm) (F : pflags) (n : num) (t : list Z) : Prop := forall r rest,
  num_end rest -> at_pos r (t ++ rest) -> exists r', parse_number L F r = Ok (VNum n, r') /\ at_pos r' rest.

Definition num_starts (t : list Z) : Prop :=
  exists c t', t = c :: t' /\ isdigit c || (c =? 43) || (c =? 45) || (c =? 46) = true.

Lemma decimal_loop_tail : forall ds d p c, Forall digit_char (c :: ds) -> exists d' p', forall s, isdigit (hd_eof s) = false ->
  decimal_loop d p c (ds ++ s) = (d', p', hd_eof s, tl s).
Proof.
  induction ds as [|x ds IH]; intros d p c Hd; inversion_clear Hd as [|? ? Hc Hds].
  - do 2 eexists. intros [|y s] Hs; cbn [app decimal_loop]; rewrite (digit_is c Hc); [reflexivity|].
    cbn in Hs. destruct s; cbn [decimal_loop]; rewrite Hs; reflexivity.
  - destruct (IH (f_floor (f_add (f_mul d f_ten) (f_of_Z (c - 48)))) (u32 (p + 1)) x Hds) as (d' & p' & H).
    exists d', p'. intros s Hs. cbn [app decimal_loop]. rewrite (digit_is c Hc). apply H. exact Hs.
Qed.

Lemma parse_decimal_tail : forall L ds, ds <> [] -> digits ds -> exists d, forall r s, isdigit (hd_eof s) = false ->
  at_pos r (ds ++ s) -> parse_decimal L r = (d, mkR (tl s) (Some (hd_eof s))).
Proof.
  intros L [|c ds] Hne Hd; [congruence|].
  destruct (decimal_loop_tail ds (S754_zero false) 0 c Hd) as (d' & p' & H). eexists. intros r s Hs Hr.
  unfold parse_decimal. rewrite (next_at _ _ Hr). cbn [app tl src]. change (hd_eof (c :: ds ++ s)) with c.
  rewrite (H s Hs). reflexivity.
Qed.

Definition small_exponent (ex : list Z) : Prop :=
  forall e s ds, ex = e :: s ++ ds -> sign s -> digits ds -> dec_value ds < 2 ^ 64.

Lemma read_sign_at : forall sg s, sign sg -> (sg = [] -> hd_eof s <> 43 /\ hd_eof s <> 45) ->
  forall r, at_pos r (sg ++ s) ->
  exists r', read_sign r = ((match sg with [45] => true | _ => false end), r') /\ at_pos r' s.
Proof.
  intros sg s [->|[->| ->]] Hh r Hr; cbn [app] in Hr.
  - destruct (Hh eq_refl). apply read_sign_pos; auto.
  - destruct (read_sign_sgn r 43 s Hr) as (r' & H1 & H2); auto. eauto.
  - destruct (read_sign_sgn r 45 s Hr) as (r' & H1 & H2); auto. eauto.
Qed.

Lemma parse_double_tail : forall L i b fp ex, frac_part fp -> exp_part ex -> small_exponent ex ->
  exists f, forall r rest, num_end rest -> at_pos r (fp ++ ex ++ rest) ->
  exists r', parse_double L i b r = Ok (VNum (dbl_num f), r') /\ at_pos r' rest.
Proof.
  intros L i b fp ex Hfp Hex Hsm.
  assert (HF : exists d1, forall rest, num_end rest -> exists r2,
    (if hd_eof (fp ++ ex ++ rest) =? 46
     then let '(c1, r1') := next (commit (mkR (tl (fp ++ ex ++ rest)) (Some (hd_eof (fp ++ ex ++ rest))))) in
          if isdigit c1 then let '(fr, r1'') := parse_decimal L r1' in Ok (f_add (f_of_Z i) fr, r1'') else Err
     else Ok (f_of_Z i, mkR (tl (fp ++ ex ++ rest)) (Some (hd_eof (fp ++ ex ++ rest))))) = Ok (d1, r2) /\
    at_pos r2 (ex ++ rest)).
  { pose proof Hfp as Hfp0. destruct Hfp as [->|(fds & -> & Hne & Hfd)].
    - eexists. intros rest Hn. destruct (exp_stop ex rest Hex Hn) as [Hs1 Hs2].
      cbn [app]. rewrite Hs2. eexists. split; [reflexivity|]. apply at_next.
    - destruct (parse_decimal_tail L fds Hne Hfd) as (d & Hd). eexists. intros rest Hn.
      destruct (exp_stop ex rest Hex Hn) as [Hs1 Hs2].
      change (hd_eof ((46 :: fds) ++ ex ++ rest)) with 46. change (46 =? 46) with true. cbv iota.
      cbn [app tl]. unfold commit. cbn [src].
      rewrite (next_at (mkR (fds ++ ex ++ rest) None) _ (at_none _)).
      rewrite (hd_app_digit fds _ Hfd Hne).
      rewrite (Hd _ (ex ++ rest) Hs1) by apply at_next.
      eexists. split; [reflexivity|]. apply at_next. }
  destruct HF as (d1 & HF).
  assert (HE : exists d2, forall r2 rest, num_end rest -> at_pos r2 (ex ++ rest) -> exists r4,
    (let '(c2, r3) := next r2 in
     if is_e c2 then
       let '(negexp, r5) := read_sign (commit r3) in
       let '(c3, r6) := next r5 in
       if isdigit c3 then
         let '(ok, expn, _, r7) := parse_unsigned r6 in
         if ok then
           Ok (f_mul d1 (lm_pow L (if negexp then f_tenth else f_ten) (f_of_Z expn)), r7)
         else Err
       else Err
     else Ok (d1, r3)) = Ok (d2, r4) /\ at_pos r4 rest).
  { destruct Hex as [->|(e & s & eds & -> & He & Hs & Hne & Hed)].
    - exists d1. intros r2 rest Hn Hr2. rewrite (next_at _ _ Hr2). cbn [app].
      destruct (num_stop flags0 rest Hn) as (_ & _ & ->). eexists. split; [reflexivity|]. apply at_next.
    - assert (dec_value eds < 2 ^ 64) as Hlt by (apply (Hsm e s eds); auto).
      eexists. intros r2 rest Hn Hr2. rewrite (next_at _ _ Hr2).
      change (hd_eof ((e :: s ++ eds) ++ rest)) with e. assert (is_e e = true) as -> by (unfold is_e; lia).
      cbn [app tl]. unfold commit. cbn [src]. rewrite <- app_assoc.
      destruct (read_sign_at s (eds ++ rest) Hs) with (r := mkR (s ++ eds ++ rest) None) as (r5 & -> & Hr5).
      { intros _. pose proof (digits_head eds rest Hne Hed) as Hh. unfold digit_char in Hh. lia. }
      { apply at_none. }
      rewrite (next_at _ _ Hr5). rewrite (hd_app_digit eds rest Hed Hne).
      destruct (parse_unsigned_span (mkR (tl (eds ++ rest)) (Some (hd_eof (eds ++ rest)))) eds rest (at_next _) Hed
        (num_end_stop _ Hn)) as (ok & v & n & r' & ds2 & -> & H1 & _ & H3 & H4).
      destruct ok; [|specialize (H4 eq_refl); lia]. destruct (H3 eq_refl) as (-> & -> & _).
      eexists. split; [reflexivity|]. exact H1. }
  destruct HE as (d2 & HE). eexists. intros r rest Hn Hr. unfold parse_double.
  cbn [large_fuel parse_large]. rewrite (next_at _ _ Hr), (frac_stop fp ex rest Hfp Hex Hn). cbn [bind next cur].
  destruct (HF rest Hn) as (r2 & -> & Hr2). cbn [bind].
  destruct (HE r2 rest Hn Hr2) as (r4 & E & Hr4).
  destruct (next r2) as [c2 r3]. rewrite E. cbn [bind]. eexists. split; [reflexivity|]. exact Hr4.
Qed.

Lemma plain_starts : forall sg ip fp ex, plain_number sg ip fp ex -> num_starts (sg ++ ip ++ fp ++ ex).
Proof.
  intros sg ip fp ex (Hsg & Hip & Hfp & _ & Hne). unfold num_starts.
  destruct Hsg as [->|[->| ->]]; cbn [app]; [|do 2 eexists; split; [reflexivity|reflexivity]..].
  destruct ip as [|c ip].
  - destruct Hfp as [->|(ds & -> & _)]; [exfalso; apply Hne; auto|]. do 2 eexists; split; [reflexivity|reflexivity].
  - do 2 eexists; split; [reflexivity|]. rewrite (digit_is c (Forall_inv Hip)). reflexivity.
Qed.

Lemma head_not_sign : forall ip fp ex rest, plain_number [] ip fp ex ->
  hd_eof (ip ++ fp ++ ex ++ rest) <> 43 /\ hd_eof (ip ++ fp ++ ex ++ rest) <> 45.
Proof.
  intros ip fp ex rest (_ & Hip & Hfp & _ & Hne). destruct ip as [|c ip].
  - destruct Hfp as [->|(ds & -> & _)]; [exfalso; apply Hne; auto|]. cbn. lia.
  - pose proof (Forall_inv Hip) as Hc. unfold digit_char in Hc. cbn. lia.
Qed.

(** A moderate text is read, and as a number of the specified kind. *)
Lemma moderate_read : forall L F t, precise F = false -> moderate t ->
  exists n, num_read L F n t /\ plain_value n t /\ num_starts t.
Proof.
  intros L F t HF (sg & ip & fp & ex & -> & Hpn & Hlt & Hsm).
  pose proof Hpn as (Hsg & Hip & Hfp & Hex & Hne). pose proof (dec_nonneg ip Hip) as Hnn.
  set (ng := match sg with [45] => true | _ => false end).
  assert (Hcommon : forall r rest, num_end rest -> at_pos r ((sg ++ ip ++ fp ++ ex) ++ rest) ->
    exists r4, at_pos r4 (fp ++ ex ++ rest) /\
    parse_number L F r = (if (hd_eof (fp ++ ex ++ rest) =? 46) || is_e (hd_eof (fp ++ ex ++ rest))
      then parse_double L (dec_value ip) ng r4
      else if ng then
        if Z.testbit (dec_value ip) 63 then Ok (value_of_double (f_opp (f_of_Z (dec_value ip))), r4)
        else Ok (value_of_int (- dec_value ip), r4)
      else Ok (VNum (NUInt (dec_value ip)), r4))).
  { intros r rest Hn Hr. rewrite <- !app_assoc in Hr. unfold parse_number. rewrite HF.
    destruct (read_sign_at sg (ip ++ fp ++ ex ++ rest) Hsg) with (r := r) as (r1 & -> & Hr1); auto.
    { intros ->. apply head_not_sign. auto. }
    fold ng. rewrite (next_at _ _ Hr1).
    assert (negb (isdigit (hd_eof (ip ++ fp ++ ex ++ rest))) && negb (hd_eof (ip ++ fp ++ ex ++ rest) =? 46) = false) as ->.
    { destruct ip as [|c ip].
      - destruct Hfp as [->|(ds & -> & _)]; [exfalso; apply Hne; auto|]. reflexivity.
      - change (hd_eof ((c :: ip) ++ fp ++ ex ++ rest)) with c. rewrite (digit_is c (Forall_inv Hip)). reflexivity. }
    destruct (parse_unsigned_span (mkR (tl (ip ++ fp ++ ex ++ rest)) (Some (hd_eof (ip ++ fp ++ ex ++ rest)))) ip
      (fp ++ ex ++ rest) (at_next _) Hip (frac_stop _ _ _ Hfp Hex Hn)) as (ok & v & n & r' & ds2 & -> & H1 & _ & H3 & H4).
    destruct ok; [|specialize (H4 eq_refl); lia]. destruct (H3 eq_refl) as (-> & -> & _). cbn [app] in H1.
    rewrite (next_at _ _ H1). cbn [negb orb].
    exists (mkR (tl (fp ++ ex ++ rest)) (Some (hd_eof (fp ++ ex ++ rest)))). split; [apply at_next|]. reflexivity. }
  assert (fp <> [] \/ ex <> [] \/ (fp = [] /\ ex = [])) as Hcase
    by (destruct fp; [destruct ex|]; auto; [right; left|left]; discriminate).
  assert (fp <> [] \/ ex <> [] -> exists n, num_read L F n (sg ++ ip ++ fp ++ ex) /\ plain_value n (sg ++ ip ++ fp ++ ex)) as Hdbl.
  { intros Hc. destruct (parse_double_tail L (dec_value ip) ng fp ex Hfp Hex Hsm) as (f & Hf).
    exists (dbl_num f). split.
    - intros r rest Hn Hr. destruct (Hcommon r rest Hn Hr) as (r4 & Hr4 & ->).
      replace ((hd_eof (fp ++ ex ++ rest) =? 46) || is_e (hd_eof (fp ++ ex ++ rest))) with true; [apply Hf; auto|].
      destruct Hfp as [->|(fds & -> & _)]; [|reflexivity].
      destruct Hex as [->|(e & s & eds & -> & He & _)]; [destruct Hc; congruence|].
      cbn [app]. change (hd_eof (e :: (s ++ eds) ++ rest)) with e. unfold is_e. lia.
    - exists sg, ip, fp, ex. repeat split; auto. right. right. split; [tauto|eauto]. }
  destruct Hcase as [Hc|[Hc|[-> ->]]].
  - destruct Hdbl as (n & H1 & H2); auto. exists n. repeat split; auto. apply plain_starts. auto.
  - destruct Hdbl as (n & H1 & H2); auto. exists n. repeat split; auto. apply plain_starts. auto.
  - assert (exists n, (forall r4 : reader, (if ng then
        if Z.testbit (dec_value ip) 63 then Ok (value_of_double (f_opp (f_of_Z (dec_value ip))), r4)
        else Ok (value_of_int (- dec_value ip), r4)
      else Ok (VNum (NUInt (dec_value ip)), r4)) = Ok (VNum n, r4)) /\ plain_value n (sg ++ ip ++ [] ++ [])) as (n & H1 & H2).
    { unfold ng. destruct Hsg as [->|[->| ->]].
      - eexists. split; [reflexivity|]. do 4 eexists. split; [reflexivity|]. split; [exact Hpn|]. left. repeat split; auto. discriminate.
      - eexists. split; [reflexivity|]. exists [43], ip, [], []. split; [reflexivity|]. split; [exact Hpn|].
        left. repeat split; auto. discriminate.
      - rewrite testbit_63 by lia. destruct (2 ^ 63 <=? dec_value ip) eqn:Et; (eexists; split; [reflexivity|]);
          exists [45], ip, [], []; (split; [reflexivity|]; split; [exact Hpn|]).
        + right. right. split; [right; right; right; split; auto; lia|eexists; reflexivity].
        + right. left. repeat split; auto. lia. }
    exists n. split; [|split; [exact H2|apply plain_starts; auto]].
    intros r rest Hn Hr. destruct (Hcommon r rest Hn Hr) as (r4 & Hr4 & ->). cbn [app] in *.
    destruct (num_stop flags0 rest Hn) as (_ & -> & ->). cbn [orb]. rewrite H1. eauto.
Qed.

Lemma precise_read : forall L F t, precise F = true -> precise_text t ->
  exists n, num_read L F n t /\ precise_value n t /\ num_starts t.
Proof.
  intros L F t HF Ht. pose proof Ht as (sg & ip & fp & ex & -> & Hsg & Hne & Hip & Hfp & Hex).
  set (isf := negb (match fp ++ ex with [] => true | _ => false end)).
  destruct (number_raw_prec (sg ++ ip ++ fp ++ ex) isf) as (k & Ek).
  exists (NPrec (sg ++ ip ++ fp ++ ex) k). split; [|split].
  - intros r rest Hn Hr. rewrite <- !app_assoc in Hr.
    unfold parse_number. rewrite HF.
    assert (exists r', parse_precise r = Ok (sg ++ ip ++ fp ++ ex, isf, r') /\ at_pos r' rest) as (r' & -> & Hr').
    2:{ cbn [bind]. rewrite Ek. eauto. }
    unfold parse_precise. rewrite (next_commit_at _ _ Hr). cbn [src].
    assert (Hsign : forall (s : list Z) x, sign s -> 48 <= hd_eof x <= 57 ->
      (if (hd_eof (s ++ x) =? 43) || (hd_eof (s ++ x) =? 45)
       then let '(c, s0) := pull (tl (s ++ x)) in ([to_byte (hd_eof (s ++ x))], c, s0)
       else ([], hd_eof (s ++ x), tl (s ++ x))) = (s, hd_eof x, tl x)).
    { intros s x [->|[->| ->]] Hx.
      - cbn [app]. replace (hd_eof x =? 43) with false by lia. replace (hd_eof x =? 45) with false by lia. reflexivity.
      - cbn [app tl]. change (hd_eof (43 :: x)) with 43. cbn. rewrite pull_hd. reflexivity.
      - cbn [app tl]. change (hd_eof (45 :: x)) with 45. cbn. rewrite pull_hd. reflexivity. }
    rewrite Hsign; auto.
    2:{ pose proof (digits_head ip (fp ++ ex ++ rest) Hne Hip) as Hh. unfold digit_char in Hh. lia. }
    rewrite (hd_app_digit ip _ Hip Hne).
    destruct (exp_stop ex rest Hex Hn) as [Hs1 Hs2].
    assert (isdigit (hd_eof (fp ++ ex ++ rest)) = false) as Hs0.
    { destruct Hfp as [->|(ds & -> & _)]; [exact Hs1|reflexivity]. }
    rewrite (digit_run_app ip _ Hne Hip Hs0).
    assert (E2 : (if hd_eof (fp ++ ex ++ rest) =? 46
      then let '(c, s) := pull (tl (fp ++ ex ++ rest)) in
           let '(ds, c', s') := digit_run c s in (46 :: ds, true, c', s')
      else ([], false, hd_eof (fp ++ ex ++ rest), tl (fp ++ ex ++ rest))) =
      (fp, negb (match fp with [] => true | _ => false end), hd_eof (ex ++ rest), tl (ex ++ rest))).
    { destruct Hfp as [->|(fds & -> & Hfd)].
      - cbn [app]. rewrite Hs2. reflexivity.
      - change (hd_eof ((46 :: fds) ++ ex ++ rest)) with 46. change (46 =? 46) with true. cbv iota. cbn [app tl].
        rewrite pull_hd. destruct fds as [|c fds].
        + cbn [app]. destruct (ex ++ rest) as [|c x]; [reflexivity|]. cbn in Hs1. cbn [tl].
          change (hd_eof (c :: x)) with c. destruct x; cbn [digit_run]; rewrite Hs1; reflexivity.
        + rewrite (digit_run_app (c :: fds) _ ltac:(discriminate) Hfd Hs1). reflexivity. }
    rewrite E2. unfold isf. clear E2 Ek.
    destruct Hex as [->|(e & s & eds & -> & He & Hs & Hene & Hed)].
    + cbn [app]. destruct (num_stop flags0 rest Hn) as (_ & _ & ->). rewrite !app_nil_r. eexists. split; [reflexivity|]. apply at_next.
    + change (hd_eof ((e :: s ++ eds) ++ rest)) with e. assert (is_e e = true) as -> by (unfold is_e; lia).
      cbn [app tl]. rewrite <- app_assoc. rewrite pull_hd.
      rewrite Hsign; auto.
      2:{ pose proof (digits_head eds rest Hene Hed) as Hh2. unfold digit_char in Hh2. lia. }
      rewrite (hd_app_digit eds _ Hed Hene).
      rewrite (digit_run_app eds _ Hene Hed (num_end_stop _ Hn)).
      assert (to_byte e = e) as -> by (unfold to_byte; apply Z.mod_small; lia).
      eexists. split; [|apply at_next]. f_equal. f_equal. f_equal. destruct fp; reflexivity.
  - split; eauto.
  - unfold num_starts. destruct Hsg as [->|[->| ->]]; cbn [app]; [|do 2 eexists; split; reflexivity..].
    destruct ip as [|c ip]; [congruence|]. do 2 eexists; split; [reflexivity|].
    rewrite (digit_is c (Forall_inv Hip)). reflexivity.
Qed.

(** *** Documents *)
Section Complete2.
Variables (L : libm) (F : pflags).
Variable St : bytes -> list Z -> Prop.
Hypothesis St_read : forall s b, St s b -> forall x, read_string u_init [] (b ++ 34 :: x) = Ok (s, x).
Variable N : num -> list Z -> Prop.
Hypothesis N_read : forall n t, N n t -> num_read L F n t.
Hypothesis N_starts : forall n t, N n t -> num_starts t.

Definition G_val (v : value) (t : list Z) : Prop := forall w r rest,
  spaces w -> num_end rest -> at_pos r (w ++ t ++ rest) -> parse_ok L F v r rest.

Definition G_elems (l : list (bytes * value)) (t : list Z) : Prop := forall r rest acc,
  at_pos r (t ++ 93 :: rest) ->
  match settle_list (allow_dup F) l with
  | Some l' => exists f0 r', at_pos r' rest /\ forall f, (f0 <= f)%nat ->
      parse_arr L F f r acc = Ok (VArr (map (fun v => ([], v)) (rev acc) ++ l'), r')
  | None => exists f0, forall f, (f0 <= f)%nat -> parse_arr L F f r acc = Err
  end.

Definition G_members (l : list (bytes * value)) (t : list Z) : Prop := forall r rest acc,
  at_pos r (t ++ 125 :: rest) ->
  match settle_list (allow_dup F) l with
  | Some l' => exists f0 r', at_pos r' rest /\ forall f, (f0 <= f)%nat ->
      (let '(c, r1) := next_ws r in parse_obj L F f c r1 acc) =
      do o <- finish_object F (rev acc ++ l'); Ok (o, r')
  | None => exists f0, forall f, (f0 <= f)%nat ->
      (let '(c, r1) := next_ws r in parse_obj L F f c r1 acc) = Err
  end.

Lemma num_head : forall c, isdigit c || (c =? 43) || (c =? 45) || (c =? 46) = true -> 43 <= c <= 57.
Proof. clear. unfold isdigit. lia. Qed.

Lemma gval_starts : forall v t, gval St N v t -> exists c t', t = c :: t' /\ 33 <= c < 128 /\ c <> 93 /\ c <> 125.
Proof.
  intros v t H. destruct H as [| | |n t Hn| | | | | | |]; try (do 2 eexists; split; [reflexivity|lia]).
  destruct (N_starts _ _ Hn) as (c & t' & -> & Hc). apply num_head in Hc. do 2 eexists; split; [reflexivity|lia].
Qed.

Lemma gelems_starts : forall l t, gelems St N l t ->
  exists w c t', t = w ++ c :: t' /\ spaces w /\ 33 <= c < 128 /\ c <> 93 /\ c <> 125.
Proof.
  intros l t H. destruct H as [v w1 t w2 Hw Hv Hw2|v w1 t w2 l ts Hw Hv Hw2 Hl];
  destruct (gval_starts _ _ Hv) as (c & t' & -> & Hc1 & Hc2 & Hc3);
  (exists w1, c; eexists; split; [reflexivity|auto]).
Qed.

Lemma gmembers_starts : forall l t, gmembers St N l t -> exists w t', t = w ++ 34 :: t' /\ spaces w.
Proof. intros l t H. destruct H; exists w1; eexists; split; try reflexivity; assumption. Qed.

Lemma G_word : forall str v, In (str, v) [(str_true, VBool true); (str_false, VBool false); (str_null, VNull)] ->
  settle (allow_dup F) v = Some v -> G_val v str.
Proof.
  intros str v Hin Hset w r rest Hw Hn Hr. unfold parse_ok. rewrite Hset.
  exists 1%nat, (mkR rest None). split; [reflexivity|]. intros [|f] Hf; [lia|]. simpl in Hin.
  destruct Hin as [E|[E|[E|[]]]]; inversion E; subst; cbn [parse];
    (erewrite next_spaces_low; [|exact Hr|exact Hw|lia]); reflexivity.
Qed.

Lemma G_num : forall n t, N n t -> G_val (VNum n) t.
Proof.
  intros n t Hnt w r rest Hw Hn Hr. unfold parse_ok. cbn [settle]. cbv iota.
  destruct (N_starts _ _ Hnt) as (c & t' & -> & Hc). pose proof (num_head c Hc) as Hr1. cbn [app] in Hr.
  destruct (N_read _ _ Hnt (mkR (t' ++ rest) (Some c)) rest Hn) as (r' & E & Hr'); [apply at_cons|].
  exists 1%nat, r'. split; auto. intros [|f] Hf; [lia|]. cbn [parse].
  rewrite (next_spaces_low r w c _ Hr) by (auto; lia).
  replace (c =? 123) with false by lia. replace (c =? 91) with false by lia.
  replace (c =? 34) with false by lia. replace (c =? 116) with false by lia.
  replace (c =? 102) with false by lia. replace (c =? 110) with false by lia.
  rewrite Hc. exact E.
Qed.

Lemma G_lit : forall s b v, St s b -> string_value s = v -> G_val v (34 :: b ++ [34]).
Proof.
  intros s b v Hb <- w r rest Hw Hn Hr. unfold parse_ok. rewrite string_value_settle.
  exists 1%nat, (mkR rest None). split; [reflexivity|]. intros [|f] Hf; [lia|].
  cbn [app] in Hr. rewrite <- app_assoc in Hr. cbn [app] in Hr. cbn [parse].
  rewrite (next_spaces_low r w 34 _ Hr) by (auto; lia).
  change (34 =? 123) with false. change (34 =? 91) with false. change (34 =? 34) with true. cbv iota.
  unfold read_string_r. unfold commit; cbn [src cur].
  rewrite (St_read s b Hb). reflexivity.
Qed.

Lemma G_arr0 : forall w, spaces w -> G_val (VArr []) (91 :: w ++ [93]).
Proof.
  intros w1 Hw1 w r rest Hw Hn Hr. unfold parse_ok. cbn [settle]. cbv iota.
  exists 1%nat, (mkR rest None). split; [reflexivity|]. intros [|f] Hf; [lia|].
  cbn [app] in Hr. rewrite <- app_assoc in Hr. cbn [app] in Hr. cbn [parse].
  rewrite (next_spaces_low r w 91 _ Hr) by (auto; lia).
  change (91 =? 123) with false. change (91 =? 91) with true. cbv iota. unfold commit; cbn [src].
  rewrite (next_spaces_low (mkR (w1 ++ 93 :: rest) None) w1 93 rest) by (auto using at_none; lia).
  reflexivity.
Qed.

Lemma G_obj0 : forall w, spaces w -> G_val (VObj false []) (123 :: w ++ [125]).
Proof.
  intros w1 Hw1 w r rest Hw Hn Hr. unfold parse_ok. rewrite settle_obj. cbn [settle_list].
  change (build_object is_undef []) with (@nil (bytes * value)). cbv zeta.
  rewrite Nat.eqb_refl. simpl negb. rewrite andb_false_r.
  exists 1%nat, (mkR rest None). split; [reflexivity|]. intros [|f] Hf; [lia|].
  cbn [app] in Hr. rewrite <- app_assoc in Hr. cbn [app] in Hr. cbn [parse].
  rewrite (next_spaces_low r w 123 _ Hr) by (auto; lia).
  change (123 =? 123) with true. cbv iota. unfold commit; cbn [src].
  rewrite (next_spaces_low (mkR (w1 ++ 125 :: rest) None) w1 125 rest) by (auto using at_none; lia).
  reflexivity.
Qed.

Lemma G_arr : forall l t, gelems St N l t -> G_elems l t -> G_val (VArr l) (91 :: t ++ [93]).
Proof.
  intros l t Ht IH w r rest Hw Hn Hr. unfold parse_ok. rewrite settle_arr.
  cbn [app] in Hr. rewrite <- app_assoc in Hr. cbn [app] in Hr.
  destruct (gelems_starts _ _ Ht) as (w1 & c & t' & Et & Hw1 & Hc & Hc1 & Hc2).
  set (r2 := mkR (t ++ 93 :: rest) None).
  assert (Hns : next_ws r2 = (c, mkR (t' ++ 93 :: rest) (Some c))).
  { apply next_spaces_low with (w := w1); auto. subst t. unfold r2, at_pos. simpl.
    rewrite <- app_assoc. reflexivity. }
  assert (Hparse : forall f, parse L F (S f) r = parse_arr L F f r2 []).
  { intros f. cbn [parse]. rewrite (next_spaces_low r w 91 _ Hr) by (auto; lia).
    change (91 =? 123) with false. change (91 =? 91) with true. cbv iota. unfold commit; cbn [src].
    fold r2. rewrite <- (parse_arr_ws L F f r2). rewrite Hns.
    replace (c =? 93) with false by lia. reflexivity. }
  specialize (IH r2 rest [] (at_none _)).
  destruct (settle_list (allow_dup F) l) as [l'|].
  - destruct IH as (f0 & r' & Hat & Hf). exists (S f0), r'. split; auto.
    intros [|f] Hle; [lia|]. rewrite Hparse. rewrite Hf by lia. reflexivity.
  - destruct IH as (f0 & Hf). exists (S f0). intros [|f] Hle; [lia|]. rewrite Hparse. apply Hf. lia.
Qed.

Ltac norm_app H := repeat (rewrite <- ?app_assoc in H; cbn [app] in H).

Lemma G_one : forall v w1 t w2, spaces w1 -> G_val v t -> spaces w2 -> G_elems [([], v)] (w1 ++ t ++ w2).
Proof.
  intros v w1 t w2 Hw1 IH Hw2 r rest acc Hr. norm_app Hr.
  specialize (IH w1 r (w2 ++ 93 :: rest) Hw1). unfold parse_ok in IH. cbn [settle_list].
  assert (num_end (w2 ++ 93 :: rest)) as Hn by (apply num_end_spaces; unfold digit_char; auto; lia).
  specialize (IH Hn Hr). destruct (settle (allow_dup F) v) as [v'|].
  - destruct IH as (f0 & r' & Hat & Hf).
    exists (S f0), (mkR rest None). split; [reflexivity|]. intros [|f] Hle; [lia|].
    cbn [parse_arr]. rewrite (Hf f) by lia. cbn [bind].
    rewrite (next_spaces_low r' w2 93 rest Hat) by (auto; lia).
    change (93 =? 93) with true. cbv iota. unfold commit; cbn [rev src]. rewrite map_app. reflexivity.
  - destruct IH as (f0 & Hf). exists (S f0). intros [|f] Hle; [lia|].
    cbn [parse_arr]. rewrite (Hf f) by lia. reflexivity.
Qed.

Lemma G_cons : forall v w1 t w2 l ts, spaces w1 -> G_val v t -> spaces w2 -> G_elems l ts ->
  G_elems (([], v) :: l) (w1 ++ t ++ w2 ++ 44 :: ts).
Proof.
  intros v w1 t w2 l ts Hw1 IH Hw2 IHl r rest acc Hr. norm_app Hr.
  specialize (IH w1 r (w2 ++ 44 :: ts ++ 93 :: rest) Hw1). unfold parse_ok in IH. cbn [settle_list].
  assert (num_end (w2 ++ 44 :: ts ++ 93 :: rest)) as Hn by (apply num_end_spaces; unfold digit_char; auto; lia).
  specialize (IH Hn Hr). destruct (settle (allow_dup F) v) as [v'|].
  - destruct IH as (f0 & r' & Hat & Hf).
    specialize (IHl (mkR (ts ++ 93 :: rest) None) rest (v' :: acc) (at_none _)).
    assert (Hstep : forall f, (f0 <= f)%nat ->
      parse_arr L F (S f) r acc = parse_arr L F f (mkR (ts ++ 93 :: rest) None) (v' :: acc)).
    { intros f Hle. cbn [parse_arr]. rewrite (Hf f) by lia. cbn [bind].
      rewrite (next_spaces_low r' w2 44 _ Hat) by (auto; lia). reflexivity. }
    destruct (settle_list (allow_dup F) l) as [l'|].
    + destruct IHl as (f1 & r'' & Hat' & Hf1).
      exists (S (max f0 f1)), r''. split; auto. intros [|f] Hle; [lia|].
      rewrite Hstep by lia. rewrite Hf1 by lia. cbn [rev]. rewrite map_app, <- app_assoc. reflexivity.
    + destruct IHl as (f1 & Hf1). exists (S (max f0 f1)). intros [|f] Hle; [lia|].
      rewrite Hstep by lia. apply Hf1. lia.
  - destruct IH as (f0 & Hf). exists (S f0). intros [|f] Hle; [lia|].
    cbn [parse_arr]. rewrite (Hf f) by lia. reflexivity.
Qed.

Lemma G_obj : forall l t, gmembers St N l t -> G_members l t -> G_val (VObj false l) (123 :: t ++ [125]).
Proof.
  intros l t Ht IH w r rest Hw Hn Hr. unfold parse_ok. rewrite settle_obj.
  norm_app Hr.
  destruct (gmembers_starts _ _ Ht) as (w1 & t' & Et & Hw1).
  set (r2 := mkR (t ++ 125 :: rest) None).
  assert (Hns : next_ws r2 = (34, mkR (t' ++ 125 :: rest) (Some 34))).
  { apply next_spaces_low with (w := w1); auto; [|lia]. subst t. unfold r2, at_pos. simpl.
    rewrite <- app_assoc. reflexivity. }
  assert (Hparse : forall f, parse L F (S f) r = let '(c, r1) := next_ws r2 in parse_obj L F f c r1 []).
  { intros f. cbn [parse]. rewrite (next_spaces_low r w 123 _ Hr) by (auto; lia).
    change (123 =? 123) with true. cbv iota. unfold commit; cbn [src].
    fold r2. rewrite Hns. reflexivity. }
  specialize (IH r2 rest [] (at_none _)). cbn [rev app] in IH. unfold finish_object in IH. cbv zeta in IH |- *.
  destruct (settle_list (allow_dup F) l) as [l'|].
  - destruct IH as (f0 & r' & Hat & Hf).
    destruct (negb (allow_dup F) && negb (length (build_object is_undef l') =? length l')%nat) eqn:E.
    + exists (S f0). intros [|f] Hle; [lia|]. rewrite Hparse. rewrite Hf by lia. reflexivity.
    + exists (S f0), r'. split; auto.
      intros [|f] Hle; [lia|]. rewrite Hparse. rewrite Hf by lia. reflexivity.
  - destruct IH as (f0 & Hf). exists (S f0). intros [|f] Hle; [lia|]. rewrite Hparse. apply Hf. lia.
Qed.

Lemma G_member : forall k b v w1 w2 w3 t w4 c tail,
  St k b -> spaces w1 -> spaces w2 -> spaces w3 -> G_val v t -> spaces w4 -> (c = 44 \/ c = 125) ->
  forall r acc,
  at_pos r (w1 ++ 34 :: b ++ 34 :: w2 ++ 58 :: w3 ++ t ++ w4 ++ c :: tail) ->
  match settle (allow_dup F) v with
  | Some v' => exists f0, forall f, (f0 <= f)%nat ->
     (let '(c0, r1) := next_ws r in parse_obj L F (S f) c0 r1 acc) =
     (if c =? 125 then do o <- finish_object F (rev ((k, v') :: acc)); Ok (o, mkR tail None)
      else let '(c3, r6) := next_ws (mkR tail None) in parse_obj L F f c3 r6 ((k, v') :: acc))
  | None => exists f0, forall f, (f0 <= f)%nat ->
     (let '(c0, r1) := next_ws r in parse_obj L F f c0 r1 acc) = Err
  end.
Proof.
  intros k b v w1 w2 w3 t w4 c tail Hk Hw1 Hw2 Hw3 IH Hw4 Hc r acc Hr.
  rewrite (next_spaces_low r w1 34 _ Hr) by (auto; lia).
  assert (num_end (w4 ++ c :: tail)) as Hn by (apply num_end_spaces; unfold digit_char; auto; lia).
  specialize (IH w3 (mkR (w3 ++ t ++ w4 ++ c :: tail) None) (w4 ++ c :: tail) Hw3 Hn (at_none _)).
  unfold parse_ok in IH.
  assert (Hstep : forall f,
    parse_obj L F (S f) 34 (mkR (b ++ 34 :: w2 ++ 58 :: w3 ++ t ++ w4 ++ c :: tail) (Some 34)) acc =
    do (v0, r3) <- parse L F f (mkR (w3 ++ t ++ w4 ++ c :: tail) None);
    let acc' := (k, v0) :: acc in
    let '(c2, r4) := next_ws r3 in
    let r5 := commit r4 in
    if c2 =? 125 then do o <- finish_object F (rev acc'); Ok (o, r5)
    else if c2 =? 44 then let '(c3, r6) := next_ws r5 in parse_obj L F f c3 r6 acc'
    else Err).
  { intros f. cbn [parse_obj]. change (34 =? 34) with true. cbv iota.
    unfold read_string_r. unfold commit; cbn [src cur]. rewrite (St_read k b Hk). cbn [bind app].
    rewrite (next_spaces_low (mkR (w2 ++ 58 :: w3 ++ t ++ w4 ++ c :: tail) None) w2 58 _ (at_none _)) by (auto; lia).
    change (58 =? 58) with true. cbv iota. unfold commit; cbn [src]. reflexivity. }
  destruct (settle (allow_dup F) v) as [v'|].
  - destruct IH as (f0 & r' & Hat & Hf). exists f0. intros f Hle.
    rewrite Hstep, (Hf f Hle). cbn [bind]. cbv zeta.
    rewrite (next_spaces_low r' w4 c tail Hat) by (auto; lia). unfold commit; cbn [src].
    destruct Hc as [->| ->]; reflexivity.
  - destruct IH as (f0 & Hf). exists (S f0). intros [|f] Hle; [lia|].
    rewrite Hstep, Hf by lia. reflexivity.
Qed.

Lemma G_mone : forall k b v w1 w2 w3 t w4,
  St k b -> spaces w1 -> spaces w2 -> spaces w3 -> G_val v t -> spaces w4 ->
  G_members [(k, v)] (w1 ++ 34 :: b ++ 34 :: w2 ++ 58 :: w3 ++ t ++ w4).
Proof.
  intros k b v w1 w2 w3 t w4 Hk Hw1 Hw2 Hw3 IH Hw4 r rest acc Hr.
  norm_app Hr.
  pose proof (G_member k b v w1 w2 w3 t w4 125 rest Hk Hw1 Hw2 Hw3 IH Hw4 (or_intror eq_refl) r acc Hr) as Hm.
  cbn [settle_list]. destruct (settle (allow_dup F) v) as [v'|]; [|exact Hm].
  destruct Hm as (f0 & Hf). exists (S f0), (mkR rest None). split; [reflexivity|].
  intros [|f] Hle; [lia|]. rewrite Hf by lia. cbn [rev]. reflexivity.
Qed.

Lemma G_mcons : forall k b v w1 w2 w3 t w4 l ts,
  St k b -> spaces w1 -> spaces w2 -> spaces w3 -> G_val v t -> spaces w4 -> G_members l ts ->
  G_members ((k, v) :: l) (w1 ++ 34 :: b ++ 34 :: w2 ++ 58 :: w3 ++ t ++ w4 ++ 44 :: ts).
Proof.
  intros k b v w1 w2 w3 t w4 l ts Hk Hw1 Hw2 Hw3 IH Hw4 IHl r rest acc Hr.
  norm_app Hr.
  pose proof (G_member k b v w1 w2 w3 t w4 44 (ts ++ 125 :: rest) Hk Hw1 Hw2 Hw3 IH Hw4 (or_introl eq_refl) r acc Hr) as Hm.
  cbn [settle_list]. destruct (settle (allow_dup F) v) as [v'|]; [|exact Hm].
  destruct Hm as (f0 & Hf). change (44 =? 125) with false in Hf. cbv iota in Hf.
  specialize (IHl (mkR (ts ++ 125 :: rest) None) rest ((k, v') :: acc) (at_none _)).
  destruct (settle_list (allow_dup F) l) as [l'|].
  - destruct IHl as (f1 & r'' & Hat & Hf1). exists (S (max f0 f1)), r''. split; auto.
    intros [|f] Hle; [lia|]. rewrite Hf by lia. rewrite Hf1 by lia. cbn [rev]. rewrite <- app_assoc. reflexivity.
  - destruct IHl as (f1 & Hf1). exists (S (max f0 f1)). intros [|f] Hle; [lia|].
    rewrite Hf by lia. apply Hf1. lia.
Qed.

Lemma grammar_read : forall v t, gval St N v t -> G_val v t.
Proof.
  apply (gval_mind St N (fun v t _ => G_val v t) (fun l t _ => G_elems l t) (fun l t _ => G_members l t)).
  - apply G_word; simpl; auto.
  - apply G_word; simpl; auto.
  - apply G_word; simpl; auto.
  - exact G_num.
  - intros s b Hb H1 H2. apply G_lit with s; auto. apply string_value_plain; auto.
  - intros b Hb. apply G_lit with word_inf; auto.
  - intros b Hb. apply G_lit with word_neg_inf; auto.
  - exact G_arr0.
  - exact G_arr.
  - exact G_obj0.
  - exact G_obj.
  - intros. apply G_one; auto.
  - intros. apply G_cons; auto.
  - intros. apply G_mone; auto.
  - intros. apply G_mcons; auto.
Qed.
End Complete2.

(** The outcome on a document of the grammar, whatever its strings and numbers
    are known to denote. *)
Lemma grammar_outcome : forall L F (St : bytes -> list Z -> Prop) (N N' : num -> list Z -> Prop) v t,
  (forall s b, St s b -> read_as s b) ->
  (forall n t, N n t -> exists n', num_read L F n' t /\ N' n' t /\ num_starts t) ->
  gval St N v t ->
  exists v1, gval St N' v1 t /\ forall w rest, spaces w -> num_end rest ->
    ((allow_dup F = true \/ ~ has_dup v1) ->
      exists v' r', parse_source L F (w ++ t ++ rest) = Ok (v', r') /\ sorted_form v1 v' /\ at_pos r' rest) /\
    (allow_dup F = false -> has_dup v1 -> parse_source L F (w ++ t ++ rest) = Err).
Proof.
  intros L F St N N' v t HS HN Hg.
  destruct (gval_redo St St N (fun n t => num_read L F n t /\ N' n t /\ num_starts t)) with (v := v) (t := t) as (v1 & Hg1); eauto.
  exists v1. split; [eapply gval_impl; [| |exact Hg1]; [auto|intros n x (_ & H & _); exact H]|].
  intros w rest Hw Hn.
  assert (parse_ok L F v1 (mkR (w ++ t ++ rest) None) rest) as H.
  { apply (grammar_read L F St) with (N := fun n t => num_read L F n t /\ N' n t /\ num_starts t) (w := w) (t := t); auto.
    - intros s b Hb. apply (HS s b Hb).
    - intros n x (H & _); exact H.
    - intros n x (_ & _ & H); exact H.
    - apply at_none. }
  unfold parse_ok in H. pose proof (gval_no_undef _ _ _ _ Hg1) as Hu. split.
  - intros Hd. destruct (settle_spec v1 (allow_dup F) Hu Hd) as (v' & E & Hf & _). rewrite E in H.
    destruct H as (f0 & r' & Hat & Hp). exists v', r'. split; [|auto].
    specialize (Hp f0 (le_n _)). rewrite <- Hp. apply parse_source_any. congruence.
  - intros Hd Hh. rewrite Hd, (settle_dup v1 Hu Hh) in H. destruct H as (f0 & Hp).
    specialize (Hp f0 (le_n _)). rewrite <- Hp. apply parse_source_any. congruence.
Qed.

(** Ordinary mode. *)
Lemma moderate_outcome : forall L F sg v0 t, precise F = false ->
  gval (denotes sg) (fun _ t => moderate t) v0 t ->
  exists v1, gval (denotes sg) plain_value v1 t /\ forall w rest, spaces w -> num_end rest ->
    ((allow_dup F = true \/ ~ has_dup v1) ->
      exists v' r', parse_source L F (w ++ t ++ rest) = Ok (v', r') /\ sorted_form v1 v' /\ at_pos r' rest) /\
    (allow_dup F = false -> has_dup v1 -> parse_source L F (w ++ t ++ rest) = Err).
Proof.
  intros L F sg v0 t HF Hg. eapply grammar_outcome; [| |exact Hg].
  - intros s b. apply denotes_read.
  - intros n x Hm. cbv beta in Hm. apply moderate_read; auto.
Qed.

(** Precise mode. *)
Lemma precise_outcome : forall L F sg v0 t, precise F = true ->
  gval (denotes sg) (fun _ t => precise_text t) v0 t ->
  exists v1, gval (denotes sg) precise_value v1 t /\ forall w rest, spaces w -> num_end rest ->
    ((allow_dup F = true \/ ~ has_dup v1) ->
      exists v' r', parse_source L F (w ++ t ++ rest) = Ok (v', r') /\ sorted_form v1 v' /\ at_pos r' rest) /\
    (allow_dup F = false -> has_dup v1 -> parse_source L F (w ++ t ++ rest) = Err).
Proof.
  intros L F sg v0 t HF Hg. eapply grammar_outcome; [| |exact Hg].
  - intros s b. apply denotes_read.
  - intros n x Hm. cbv beta in Hm. apply precise_read; auto.
Qed.

(** *** The exact language *)
Lemma spaces_num_end : forall w, spaces w -> num_end w.
Proof. intros w [|c s H _]; simpl; auto. unfold space, digit_char in *. lia. Qed.

Lemma at_pos_spaces : forall r a b, ~ In (-1) a -> at_pos r a -> at_pos r b -> spaces b -> spaces a.
Proof.
  intros [s [c|]] a b Hm H1 H2 Hs; unfold at_pos in *; cbn [cur src] in *.
  - destruct H1 as [->|(-> & -> & ->)]; [|constructor].
    destruct H2 as [->|(-> & -> & ->)]; [exact Hs|].
    exfalso. apply Hm. left. reflexivity.
  - congruence.
Qed.

Lemma precise_language : forall L F s, allow_dup F = true -> precise F = true -> Forall source_char s -> ~ In (-1) s ->
  (exists v r rest, parse_source L F s = Ok (v, r) /\ at_pos r rest /\ spaces rest) <->
  (exists w t w', s = w ++ t ++ w' /\ spaces w /\ spaces w' /\ text_of precise_text t).
Proof.
  intros L F s Hd HF Hs Hm. split.
  - intros (v & r & rest & H & Hat & Hsp).
    apply parse_sound in H as (w & t & rest0 & v0 & -> & Hw & Hg & _ & _ & Hat0); auto.
    exists w, t, rest0. repeat split; auto; [eapply at_pos_spaces; eauto; intros Hi; apply Hm; rewrite !in_app_iff; auto|].
    exists v0. eapply gval_impl; [| |exact Hg]; [intros x b (Hb & _); exact Hb|].
    unfold flag_value. rewrite HF. intros n x (Hx & _). exact Hx.
  - intros (w & t & w' & -> & Hw & Hw' & (v & Hg)).
    destruct (gval_redo (fun _ b => body b) read_as (fun _ t => precise_text t) (fun _ t => precise_text t)) with (v := v) (t := t) as (v0 & Hg0); auto.
    { intros _ b Hb. apply body_read_as. exact Hb. }
    { intros n x Hx. exists n. exact Hx. }
    destruct (grammar_outcome L F read_as (fun _ t => precise_text t) precise_value v0 t) as (v1 & _ & H); auto.
    { intros _ x Hx. apply precise_read; auto. }
    destruct (H w w' Hw (spaces_num_end w' Hw')) as (H1 & _).
    destruct H1 as (v' & r' & E & _ & Hat); auto. exists v', r', w'. auto.
Qed.

(** In ordinary mode the same up to the size of numbers. *)
Lemma plain_language : forall L F s, allow_dup F = true -> precise F = false -> Forall source_char s -> ~ In (-1) s ->
  ((exists v r rest, parse_source L F s = Ok (v, r) /\ at_pos r rest /\ spaces rest) ->
   exists w t w', s = w ++ t ++ w' /\ spaces w /\ spaces w' /\ text_of plain_text t) /\
  ((exists w t w', s = w ++ t ++ w' /\ spaces w /\ spaces w' /\ text_of moderate t) ->
   exists v r rest, parse_source L F s = Ok (v, r) /\ at_pos r rest /\ spaces rest).
Proof.
  intros L F s Hd HF Hs Hm. split.
  - intros (v & r & rest & H & Hat & Hsp).
    apply parse_sound in H as (w & t & rest0 & v0 & -> & Hw & Hg & _ & _ & Hat0); auto.
    exists w, t, rest0. repeat split; auto; [eapply at_pos_spaces; eauto; intros Hi; apply Hm; rewrite !in_app_iff; auto|].
    exists v0. eapply gval_impl; [| |exact Hg]; [intros x b (Hb & _); exact Hb|].
    unfold flag_value. rewrite HF. intros n x (sg & ip & fp & ex & -> & Hx & _). exists sg, ip, fp, ex. auto.
  - intros (w & t & w' & -> & Hw & Hw' & (v & Hg)).
    destruct (gval_redo (fun _ b => body b) read_as (fun _ t => moderate t) (fun _ t => moderate t)) with (v := v) (t := t) as (v0 & Hg0); auto.
    { intros _ b Hb. apply body_read_as. exact Hb. }
    { intros n x Hx. exists n. exact Hx. }
    destruct (grammar_outcome L F read_as (fun _ t => moderate t) plain_value v0 t) as (v1 & _ & H); auto.
    { intros _ x Hx. apply moderate_read; auto. }
    destruct (H w w' Hw (spaces_num_end w' Hw')) as (H1 & _).
    destruct H1 as (v' & r' & E & _ & Hat); auto. exists v', r', w'. auto.
Qed.

(** String literals: exactly the bodies followed by a quote. *)
Lemma literal_language : forall L F w s, spaces w ->
  (exists v r, parse_source L F (w ++ 34 :: s) = Ok (v, r)) <-> (exists b rest, s = b ++ 34 :: rest /\ body b).
Proof.
  intros L F w s Hw.
  assert (parse_source L F (w ++ 34 :: s) = do (t, r2) <- read_string_r (mkR s None); Ok (string_value t, r2)) as ->.
  { unfold parse_source. cbn [parse]. rewrite (next_spaces_low (mkR (w ++ 34 :: s) None) w 34 s (at_none _)) by (auto; lia).
    reflexivity. }
  split.
  - intros (v & r & H). destruct (read_string_r (mkR s None)) as [[t r2]| |] eqn:E; try discriminate.
    apply read_string_r_inv in E as (b & rest & -> & (Hb & _) & _). eauto.
  - intros (b & rest & -> & Hb). destruct (body_read_as b Hb) as (t & _ & Ht).
    unfold read_string_r. cbn [src]. rewrite Ht. cbn [bind]. eauto.
Qed.

(** *** Examples *)
(** [ +1,"\u00Z7é"] as a source of unsigned bytes. *)
Definition ex_text : list Z := [91;32;43;49;44;34;92;117;48;48;90;55;195;169;34;93].
Definition ex_value : value := VArr [([], VNum (NUInt 1)); ([], VStr None [7;195;169])].

Lemma ex_gval : gval (denotes false) (fun _ t => moderate t) ex_value ex_text.
Proof.
  apply (gv_arr _ _ _ ([32] ++ [43;49] ++ [] ++ 44 :: [] ++ (34 :: [92;117;48;48;90;55;195;169] ++ [34]) ++ [])).
  apply ge_cons.
  - constructor; [left; reflexivity|constructor].
  - apply gv_num. exists [43], [49], [], []. split; [reflexivity|]. split; [|split; [reflexivity|discriminate]].
    split; [right; left; reflexivity|]. split; [constructor; [unfold digit_char; lia|constructor]|].
    split; [left; reflexivity|]. split; [left; reflexivity|discriminate].
  - constructor.
  - apply ge_one; [constructor| |constructor]. apply gv_str; [|discriminate|discriminate].
    apply (dn_hex false 48 48 90 55 0 0 0 7 [195;169] [195;169]);
      try (left; unfold hex_char; lia).
    + right. split; [|reflexivity]. unfold hex_char. intros x. lia.
    + apply (dn_char false 233 [] []); [split; lia|lia|lia|constructor].
Qed.

Lemma ex_parse : forall L, parse_source L (mkPF false false) ex_text = Ok (ex_value, mkR [] None).
Proof. intros L. reflexivity. Qed.

(** A text with a form feed, a number without digits after the point and a key
    written twice, in precise mode. *)
Definition ex_text2 : list Z := [12;123;34;107;34;58;49;46;44;34;107;34;58;91;93;125;10].

Lemma ex_parse2 : forall L, parse_source L (mkPF true true) ex_text2 = Ok (VObj false [([107], VArr [])], mkR [10] None).
Proof. intros L. reflexivity. Qed.

Lemma ex_text2_of : exists t, ex_text2 = [12] ++ t ++ [10] /\ spaces [12] /\ spaces [10] /\ text_of precise_text t.
Proof.
  exists [123;34;107;34;58;49;46;44;34;107;34;58;91;93;125].
  split; [reflexivity|]. split; [constructor; [right; lia|constructor]|]. split; [constructor; [right; lia|constructor]|].
  exists (VObj false [([107], VNum (NUInt 1)); ([107], VArr [])]).
  apply (gv_obj _ _ _ ([] ++ 34 :: [107] ++ 34 :: [] ++ 58 :: [] ++ [49;46] ++ [] ++ 44 ::
    ([] ++ 34 :: [107] ++ 34 :: [] ++ 58 :: [] ++ (91 :: [] ++ [93]) ++ []))).
  assert (body [107]) as Hb by (apply b_raw; [lia..|constructor]).
  apply gm_cons; auto; try (constructor; fail).
  - apply gv_num. exists [], [49], [46], []. split; [reflexivity|].
    split; [left; reflexivity|]. split; [discriminate|]. split; [constructor; [unfold digit_char; lia|constructor]|].
    split; [right; exists []; split; [reflexivity|constructor]|left; reflexivity].
  - apply gm_one; auto; try (constructor; fail). apply gv_arr0. constructor.
Qed.

(** Outside the language: a trailing comma. *)
Lemma ex_trailing : forall L F, parse_source L F [91;49;44;93] = Err.
Proof. intros L [[|] [|]]; reflexivity. Qed.
