(** Lemmas about JSON text: number literals of every form, documents with any
    numbers, and precise mode. *)
From Coq Require Import ZifyBool Sorted Permutation.
From Verif Require Import Base ModelUtf8 SpecUtf8 ProofUtf8 ModelKeyed SpecKeyed ProofKeyed
  ModelValue ProofValue ModelText SpecText ProofText1 ProofText2 ProofText3 ProofText4.
Local Open Scope Z_scope.

Lemma digit_is : forall c, digit_char c -> isdigit c = true.
Proof. intros c H. apply isdigit_spec. exact H. Qed.

(** *** Digit runs *)
Lemma pu_loop_pos : forall ds acc cnt c s,
  Forall digit_char (c :: ds) -> isdigit (hd_eof s) = false ->
  exists ok v n c' s' ds2, pu_loop acc cnt c (ds ++ s) = (ok, v, n, c', s') /\
    at_pos (mkR s' (Some c')) (ds2 ++ s) /\ Forall digit_char ds2 /\ (ok = true -> ds2 = []).
Proof.
  induction ds as [|d ds IH]; intros acc cnt c s Hd Hs; inversion_clear Hd as [|? ? Hc Hds].
  - cbn [app].
    assert (Hstop : forall v n : Z, exists ok' v' n' c' s' ds2, (false, v, n, c, s) = (ok', v', n', c', s') /\
      at_pos (mkR s' (Some c')) (ds2 ++ s) /\ Forall digit_char ds2 /\ (ok' = true -> ds2 = [])).
    { intros. do 5 eexists. exists [c]. split; [reflexivity|]. split; [apply at_cons|]. split; auto. intros. congruence. }
    destruct s as [|x s]; cbn [pu_loop]; rewrite (digit_is c Hc).
    + destruct (overflow_detection <? acc); [apply Hstop|].
      cbv zeta. destruct (u64 (acc * 10 + (c - 48)) <? acc); [apply Hstop|].
      do 5 eexists. exists []. split; [reflexivity|]. split; [right; auto|]. auto.
    + destruct (overflow_detection <? acc); [apply Hstop|].
      cbv zeta. destruct (u64 (acc * 10 + (c - 48)) <? acc); [apply Hstop|].
      cbn in Hs. do 5 eexists. exists []. split; [destruct s; cbn [pu_loop]; rewrite Hs; reflexivity|].
      split; [apply at_cons|]. auto.
  - cbn [app pu_loop]. rewrite (digit_is c Hc).
    assert (Hstop : forall v n : Z, exists ok' v' n' c' s' ds2, (false, v, n, c, d :: ds ++ s) = (ok', v', n', c', s') /\
      at_pos (mkR s' (Some c')) (ds2 ++ s) /\ Forall digit_char ds2 /\ (ok' = true -> ds2 = [])).
    { intros. do 5 eexists. exists (c :: d :: ds). split; [reflexivity|]. split; [apply at_cons|]. split; auto.
      intros. congruence. }
    destruct (overflow_detection <? acc); [apply Hstop|]. cbv zeta.
    destruct (u64 (acc * 10 + (c - 48)) <? acc); [apply Hstop|].
    apply IH; auto.
Qed.

Lemma parse_unsigned_pos : forall r ds s, ds <> [] ->
  Forall digit_char ds -> isdigit (hd_eof s) = false -> at_pos r (ds ++ s) ->
  exists ok v n r' ds2, parse_unsigned r = (ok, v, n, r') /\ at_pos r' (ds2 ++ s) /\
    Forall digit_char ds2 /\ (ok = true -> ds2 = []).
Proof.
  intros r [|c ds] s Hne Hd Hs Hr; [congruence|]. unfold parse_unsigned. rewrite (next_at _ _ Hr).
  cbn [app tl src]. change (hd_eof (c :: ds ++ s)) with c.
  destruct (pu_loop_pos ds 0 0 c s Hd Hs) as (ok & v & n & c' & s' & ds2 & -> & H1 & H2 & H3).
  do 5 eexists. split; [reflexivity|]. eauto.
Qed.

Lemma hd_app_digit : forall ds s, Forall digit_char ds -> ds <> [] -> isdigit (hd_eof (ds ++ s)) = true.
Proof. intros [|c ds] s H Hn; [congruence|]. apply digit_is. apply (Forall_inv H). Qed.

Lemma parse_large_pos : forall L fuel d r ds s,
  Forall digit_char ds -> isdigit (hd_eof s) = false -> at_pos r (ds ++ s) ->
  parse_large L fuel d r = Fuel \/ parse_large L fuel d r = Err \/
  exists d' r', parse_large L fuel d r = Ok (d', r') /\ at_pos r' s.
Proof.
  induction fuel as [|f IH]; intros d r ds s Hd Hs Hr; [left; reflexivity|]. cbn [parse_large].
  rewrite (next_at _ _ Hr). destruct ds as [|c ds].
  - cbn [app]. rewrite Hs. right. right. do 2 eexists. split; [reflexivity|]. apply at_next.
  - rewrite (hd_app_digit (c :: ds) s Hd) by discriminate.
    destruct (parse_unsigned_pos (mkR (tl ((c :: ds) ++ s)) (Some (hd_eof ((c :: ds) ++ s)))) (c :: ds) s)
      as (ok & v & n & r' & ds2 & -> & H1 & H2 & _); auto; [discriminate|apply at_next|].
    cbv zeta. match goal with |- context [f_isinf ?x] => destruct (f_isinf x) end; [auto|].
    apply IH with ds2; auto.
Qed.

Lemma decimal_loop_pos : forall ds d p c s, Forall digit_char (c :: ds) -> isdigit (hd_eof s) = false ->
  exists d' p' c' s', decimal_loop d p c (ds ++ s) = (d', p', c', s') /\ at_pos (mkR s' (Some c')) s.
Proof.
  induction ds as [|x ds IH]; intros d p c s Hd Hs; inversion_clear Hd as [|? ? Hc Hds].
  - cbn [app]. destruct s as [|y s]; cbn [decimal_loop]; rewrite (digit_is c Hc).
    + do 4 eexists. split; [reflexivity|]. right; auto.
    + cbn in Hs. do 4 eexists. split; [destruct s; cbn [decimal_loop]; rewrite Hs; reflexivity|]. apply at_cons.
  - cbn [app decimal_loop]. rewrite (digit_is c Hc). apply IH; auto.
Qed.

Lemma parse_decimal_pos : forall L r ds s, ds <> [] -> Forall digit_char ds -> isdigit (hd_eof s) = false ->
  at_pos r (ds ++ s) -> exists d r', parse_decimal L r = (d, r') /\ at_pos r' s.
Proof.
  intros L r [|c ds] s Hne Hd Hs Hr; [congruence|]. unfold parse_decimal. rewrite (next_at _ _ Hr).
  cbn [app tl src]. change (hd_eof (c :: ds ++ s)) with c.
  destruct (decimal_loop_pos ds (S754_zero false) 0 c s Hd Hs) as (d' & p' & c' & s' & -> & H).
  do 2 eexists. split; [reflexivity|]. exact H.
Qed.

Lemma digit_run_pos : forall ds c s, Forall digit_char (c :: ds) -> isdigit (hd_eof s) = false ->
  digit_run c (ds ++ s) = (c :: ds, hd_eof s, tl s).
Proof.
  assert (Hb : forall c, digit_char c -> to_byte c = c)
    by (unfold digit_char, to_byte; intros; apply Z.mod_small; lia).
  induction ds as [|x ds IH]; intros c s Hd Hs; inversion_clear Hd as [|? ? Hc Hds].
  - cbn [app]. destruct s as [|y s]; cbn [digit_run]; rewrite (digit_is c Hc), Hb by auto; [reflexivity|].
    cbn in Hs. destruct s; cbn [digit_run]; rewrite Hs; reflexivity.
  - cbn [app digit_run]. rewrite (digit_is c Hc), Hb by auto. rewrite (IH x s Hds Hs). reflexivity.
Qed.

(** *** Fractions and exponents *)
Definition frac_part (fp : bytes) : Prop :=
  fp = [] \/ exists ds, fp = 46 :: ds /\ ds <> [] /\ Forall digit_char ds.
Definition exp_part (ex : bytes) : Prop :=
  ex = [] \/ exists e s ds, ex = e :: s ++ ds /\ (e = 69 \/ e = 101) /\
     (s = [] \/ s = [43] \/ s = [45]) /\ ds <> [] /\ Forall digit_char ds.

Definition flags0 : pflags := mkPF false false.
Lemma num_end_stop : forall rest, num_end rest -> isdigit (hd_eof rest) = false.
Proof. intros rest H. apply (num_stop flags0). exact H. Qed.

Lemma exp_stop : forall ex rest, exp_part ex -> num_end rest ->
  isdigit (hd_eof (ex ++ rest)) = false /\ (hd_eof (ex ++ rest) =? 46) = false.
Proof.
  intros ex rest [->|(e & s & ds & -> & He & _)] Hn.
  - destruct (num_stop flags0 rest Hn) as (H1 & H2 & _). auto.
  - change (hd_eof ((e :: s ++ ds) ++ rest)) with e. unfold isdigit. lia.
Qed.

Lemma frac_stop : forall fp ex rest, frac_part fp -> exp_part ex -> num_end rest ->
  isdigit (hd_eof (fp ++ ex ++ rest)) = false.
Proof.
  intros fp ex rest Hfp He Hn. destruct Hfp as [->|(ds & -> & _)].
  - cbn [app]. destruct (exp_stop ex rest He Hn) as [H _]. exact H.
  - change (hd_eof ((46 :: ds) ++ ex ++ rest)) with 46. reflexivity.
Qed.

Lemma read_sign_pos : forall r s, at_pos r s -> hd_eof s <> 45 -> hd_eof s <> 43 ->
  exists r', read_sign r = (false, r') /\ at_pos r' s.
Proof.
  intros r s Hr H1 H2. unfold read_sign. rewrite (next_at _ _ Hr).
  replace (hd_eof s =? 45) with false by lia. replace (hd_eof s =? 43) with false by lia.
  eexists. split; [reflexivity|]. apply at_next.
Qed.

Lemma read_sign_sgn : forall r x s, at_pos r (x :: s) -> x = 45 \/ x = 43 ->
  exists r', read_sign r = (x =? 45, r') /\ at_pos r' s.
Proof.
  intros r x s Hr Hx. unfold read_sign. rewrite (next_at _ _ Hr). change (hd_eof (x :: s)) with x.
  destruct Hx as [->| ->]; eexists; (split; [reflexivity|]); reflexivity.
Qed.

Lemma digits_head : forall ds s, ds <> [] -> Forall digit_char ds -> digit_char (hd_eof (ds ++ s)).
Proof. intros [|c ds] s Hn H; [congruence|]. apply (Forall_inv H). Qed.

Lemma parse_double_pos : forall L i b r ds fp ex rest,
  Forall digit_char ds -> frac_part fp -> exp_part ex -> num_end rest ->
  at_pos r (ds ++ fp ++ ex ++ rest) ->
  parse_double L i b r = Err \/
  exists n r', parse_double L i b r = Ok (VNum n, r') /\ at_pos r' rest.
Proof.
  intros L i b r ds fp ex rest Hd Hfp Hex Hn Hr. unfold parse_double.
  destruct (parse_large_pos L (large_fuel r) (f_of_Z i) r ds (fp ++ ex ++ rest) Hd (frac_stop _ _ _ Hfp Hex Hn) Hr)
    as [E|[E|(d0 & r0 & E & Hr0)]]; rewrite E; cbn [bind]; auto.
  { exfalso. apply parse_large_fuel in E; auto. unfold large_fuel, rw. destruct (cur r) as [c|]; [destruct (c =? -1)|]; lia. }
  rewrite (next_at _ _ Hr0). destruct (exp_stop ex rest Hex Hn) as [Hs1 Hs2].
  assert (HF : exists d1 r2,
    (if hd_eof (fp ++ ex ++ rest) =? 46
     then let '(c1, r1') := next (commit (mkR (tl (fp ++ ex ++ rest)) (Some (hd_eof (fp ++ ex ++ rest))))) in
          if isdigit c1 then let '(fr, r1'') := parse_decimal L r1' in Ok (f_add d0 fr, r1'') else Err
     else Ok (d0, mkR (tl (fp ++ ex ++ rest)) (Some (hd_eof (fp ++ ex ++ rest))))) = Ok (d1, r2) /\
    at_pos r2 (ex ++ rest)).
  { destruct Hfp as [->|(fds & -> & Hne & Hfd)].
    - cbn [app]. rewrite Hs2. do 2 eexists. split; [reflexivity|]. apply at_next.
    - change (hd_eof ((46 :: fds) ++ ex ++ rest)) with 46. change (46 =? 46) with true. cbv iota.
      cbn [app tl]. unfold commit. cbn [src].
      rewrite (next_at (mkR (fds ++ ex ++ rest) None) _ (at_none _)).
      rewrite (hd_app_digit fds _ Hfd Hne).
      destruct (parse_decimal_pos L (mkR (tl (fds ++ ex ++ rest)) (Some (hd_eof (fds ++ ex ++ rest)))) fds (ex ++ rest))
        as (d & r' & -> & Hr'); auto; [apply at_next|].
      do 2 eexists. split; [reflexivity|]. exact Hr'. }
  destruct HF as (d1 & r2 & -> & Hr2). cbn [bind]. rewrite (next_at _ _ Hr2).
  destruct Hex as [->|(e & s & eds & -> & He & Hs & Hne & Hed)].
  - cbn [app]. destruct (num_stop flags0 rest Hn) as (_ & _ & ->). cbn [bind]. right. do 2 eexists.
    split; [reflexivity|]. apply at_next.
  - change (hd_eof ((e :: s ++ eds) ++ rest)) with e. assert (is_e e = true) as -> by (unfold is_e; lia).
    cbn [app tl]. unfold commit. cbn [src]. rewrite <- app_assoc.
    assert (Hsg : exists ng r5, read_sign (mkR (s ++ eds ++ rest) None) = (ng, r5) /\ at_pos r5 (eds ++ rest)).
    { destruct Hs as [->|[->| ->]]; cbn [app].
      - destruct (read_sign_pos (mkR (eds ++ rest) None) (eds ++ rest) (at_none _)) as (r' & H1 & H2);
          try (pose proof (digits_head eds rest Hne Hed) as Hh; unfold digit_char in Hh; lia). eauto.
      - destruct (read_sign_sgn (mkR (43 :: eds ++ rest) None) 43 (eds ++ rest) (at_none _)) as (r' & H1 & H2); auto. eauto.
      - destruct (read_sign_sgn (mkR (45 :: eds ++ rest) None) 45 (eds ++ rest) (at_none _)) as (r' & H1 & H2); auto. eauto. }
    destruct Hsg as (ng & r5 & -> & Hr5). rewrite (next_at _ _ Hr5). rewrite (hd_app_digit eds rest Hed Hne).
    destruct (parse_unsigned_pos (mkR (tl (eds ++ rest)) (Some (hd_eof (eds ++ rest)))) eds rest)
      as (ok & v & n & r' & ds2 & -> & H1 & H2 & H3); auto; [apply num_end_stop; auto|apply at_next|].
    destruct ok; cbn [bind]; auto. right. do 2 eexists. split; [reflexivity|]. rewrite H3 in H1; auto.
Qed.

Lemma parse_plain_pos : forall L F r sg ip fp ex rest,
  precise F = false -> (sg = [] \/ sg = [45]) -> ip <> [] -> Forall digit_char ip ->
  frac_part fp -> exp_part ex -> num_end rest -> at_pos r (sg ++ ip ++ fp ++ ex ++ rest) ->
  parse_number L F r = Err \/ exists n r', parse_number L F r = Ok (VNum n, r') /\ at_pos r' rest.
Proof.
  intros L F r sg ip fp ex rest HF Hsg Hne Hip Hfp Hex Hn Hr. unfold parse_number. rewrite HF.
  assert (Hs : exists ng r1, read_sign r = (ng, r1) /\ at_pos r1 (ip ++ fp ++ ex ++ rest)).
  { destruct Hsg as [->| ->]; cbn [app] in Hr.
    - destruct (read_sign_pos _ _ Hr) as (r' & H1 & H2);
        try (pose proof (digits_head ip (fp ++ ex ++ rest) Hne Hip) as Hh; unfold digit_char in Hh; lia). eauto.
    - destruct (read_sign_sgn _ _ _ Hr) as (r' & H1 & H2); auto. eauto. }
  destruct Hs as (ng & r1 & -> & Hr1). rewrite (next_at _ _ Hr1). rewrite (hd_app_digit ip _ Hip Hne). cbn [negb andb].
  destruct (parse_unsigned_pos (mkR (tl (ip ++ fp ++ ex ++ rest)) (Some (hd_eof (ip ++ fp ++ ex ++ rest)))) ip (fp ++ ex ++ rest))
    as (ok & v & n & r' & ds2 & -> & H1 & H2 & H3); auto; [apply frac_stop; auto|apply at_next|].
  rewrite (next_at _ _ H1).
  match goal with |- context [if ?b then _ else _] => destruct b eqn:Eb end.
  - eapply parse_double_pos with (ds := ds2); eauto. apply at_next.
  - assert (ok = true) by (destruct ok; cbn in Eb; congruence). specialize (H3 H). subst ok ds2. cbn [app] in *.
    assert (fp = [] /\ ex = []) as [-> ->].
    { cbn [negb orb] in Eb. apply orb_false_iff in Eb as [Eb1 Eb2].
      destruct Hfp as [->|(fds & -> & _)]; [|discriminate Eb1]. split; auto.
      destruct Hex as [->|(e & s & eds & -> & He & _)]; auto.
      change (hd_eof ([] ++ (e :: s ++ eds) ++ rest)) with e in Eb2. unfold is_e in Eb2. lia. }
    cbn [app] in *. right.
    destruct ng; [destruct (Z.testbit v 63)|]; do 2 eexists; (split; [reflexivity|]); apply at_next.
Qed.

(** *** Precise mode *)
Lemma next_commit_at : forall r s, at_pos r s -> next_commit r = (hd_eof s, mkR (tl s) None).
Proof.
  intros [sr [c|]] s H; unfold at_pos, next_commit in *; cbn [cur src] in *.
  - destruct H as [->|(-> & -> & ->)]; reflexivity.
  - subst. destruct s; reflexivity.
Qed.

Lemma pull_hd : forall s, pull s = (hd_eof s, tl s).
Proof. intros [|c s]; reflexivity. Qed.

Lemma digit_run_app : forall ds s, ds <> [] -> Forall digit_char ds -> isdigit (hd_eof s) = false ->
  digit_run (hd_eof (ds ++ s)) (tl (ds ++ s)) = (ds, hd_eof s, tl s).
Proof.
  intros [|c ds] s Hne Hd Hs; [congruence|]. cbn [app tl]. change (hd_eof (c :: ds ++ s)) with c.
  apply digit_run_pos; auto.
Qed.

Lemma parse_precise_pos : forall r sg ip fp ex rest,
  (sg = [] \/ sg = [45]) -> ip <> [] -> Forall digit_char ip ->
  frac_part fp -> exp_part ex -> num_end rest -> at_pos r (sg ++ ip ++ fp ++ ex ++ rest) ->
  exists r', parse_precise r =
    Ok (sg ++ ip ++ fp ++ ex, negb (match fp ++ ex with [] => true | _ => false end), r') /\ at_pos r' rest.
Proof.
  intros r sg ip fp ex rest Hsg Hne Hip Hfp Hex Hn Hr. unfold parse_precise.
  rewrite (next_commit_at _ _ Hr). cbn [src].
  pose proof (digits_head ip (fp ++ ex ++ rest) Hne Hip) as Hh. unfold digit_char in Hh.
  assert (E1 : (if (hd_eof (sg ++ ip ++ fp ++ ex ++ rest) =? 43) || (hd_eof (sg ++ ip ++ fp ++ ex ++ rest) =? 45)
     then let '(c, s) := pull (tl (sg ++ ip ++ fp ++ ex ++ rest)) in
          ([to_byte (hd_eof (sg ++ ip ++ fp ++ ex ++ rest))], c, s)
     else ([], hd_eof (sg ++ ip ++ fp ++ ex ++ rest), tl (sg ++ ip ++ fp ++ ex ++ rest))) =
     (sg, hd_eof (ip ++ fp ++ ex ++ rest), tl (ip ++ fp ++ ex ++ rest))).
  { destruct Hsg as [->| ->].
    - cbn [app]. replace (hd_eof (ip ++ fp ++ ex ++ rest) =? 43) with false by lia.
      replace (hd_eof (ip ++ fp ++ ex ++ rest) =? 45) with false by lia. reflexivity.
    - cbn [app tl]. change (hd_eof (45 :: ip ++ fp ++ ex ++ rest)) with 45. cbn. rewrite pull_hd. reflexivity. }
  rewrite E1. rewrite (hd_app_digit ip _ Hip Hne).
  rewrite (digit_run_app ip _ Hne Hip (frac_stop _ _ _ Hfp Hex Hn)).
  destruct (exp_stop ex rest Hex Hn) as [Hs1 Hs2].
  assert (E2 : (if hd_eof (fp ++ ex ++ rest) =? 46
    then let '(c, s) := pull (tl (fp ++ ex ++ rest)) in
         let '(ds, c', s') := digit_run c s in (46 :: ds, true, c', s')
    else ([], false, hd_eof (fp ++ ex ++ rest), tl (fp ++ ex ++ rest))) =
    (fp, negb (match fp with [] => true | _ => false end), hd_eof (ex ++ rest), tl (ex ++ rest))).
  { destruct Hfp as [->|(fds & -> & Hfne & Hfd)].
    - cbn [app]. rewrite Hs2. reflexivity.
    - change (hd_eof ((46 :: fds) ++ ex ++ rest)) with 46. change (46 =? 46) with true. cbv iota. cbn [app tl].
      rewrite pull_hd. rewrite (digit_run_app fds _ Hfne Hfd Hs1). reflexivity. }
  rewrite E2.
  destruct Hex as [->|(e & s & eds & -> & He & Hs & Hene & Hed)].
  - cbn [app]. destruct (num_stop flags0 rest Hn) as (_ & _ & ->). rewrite !app_nil_r. eexists. split; [reflexivity|]. apply at_next.
  - change (hd_eof ((e :: s ++ eds) ++ rest)) with e. assert (is_e e = true) as -> by (unfold is_e; lia).
    cbn [app tl]. rewrite <- app_assoc. rewrite pull_hd.
    pose proof (digits_head eds rest Hene Hed) as Hh2. unfold digit_char in Hh2.
    assert (E3 : (if (hd_eof (s ++ eds ++ rest) =? 43) || (hd_eof (s ++ eds ++ rest) =? 45)
       then let '(c, s0) := pull (tl (s ++ eds ++ rest)) in ([to_byte (hd_eof (s ++ eds ++ rest))], c, s0)
       else ([], hd_eof (s ++ eds ++ rest), tl (s ++ eds ++ rest))) =
       (s, hd_eof (eds ++ rest), tl (eds ++ rest))).
    { destruct Hs as [->|[->| ->]].
      - cbn [app]. replace (hd_eof (eds ++ rest) =? 43) with false by lia.
        replace (hd_eof (eds ++ rest) =? 45) with false by lia. reflexivity.
      - cbn [app tl]. change (hd_eof (43 :: eds ++ rest)) with 43. cbn. rewrite pull_hd. reflexivity.
      - cbn [app tl]. change (hd_eof (45 :: eds ++ rest)) with 45. cbn. rewrite pull_hd. reflexivity. }
    rewrite E3. rewrite (hd_app_digit eds _ Hed Hene).
    rewrite (digit_run_app eds _ Hene Hed (num_end_stop _ Hn)).
    assert (to_byte e = e) as -> by (unfold to_byte; apply Z.mod_small; lia).
    eexists. split; [|apply at_next]. f_equal. f_equal. f_equal. destruct fp; reflexivity.
Qed.

Lemma number_text_pos : forall L F r t rest, number_text t -> num_end rest -> at_pos r (t ++ rest) ->
  parse_number L F r = Err \/ exists n r', parse_number L F r = Ok (VNum n, r') /\ at_pos r' rest.
Proof.
  intros L F r t rest (sg & ip & fp & ex & -> & Hsg & [Hne Hip] & Hfp & Hex) Hn Hr.
  rewrite <- !app_assoc in Hr.
  destruct (precise F) eqn:HF.
  - destruct (parse_precise_pos r sg ip fp ex rest Hsg Hne Hip Hfp Hex Hn Hr) as (r' & E & Hr').
    right. unfold parse_number. rewrite HF, E. cbn [bind]. eauto.
  - eapply parse_plain_pos; eauto.
Qed.

Lemma number_text_head : forall t, number_text t -> exists c t', t = c :: t' /\ (digit_char c \/ c = 45).
Proof.
  intros t (sg & ip & fp & ex & -> & Hsg & [Hne Hip] & _).
  destruct ip as [|c ip]; [congruence|]. pose proof (Forall_inv Hip) as Hc.
  destruct Hsg as [->| ->]; cbn [app]; eauto.
Qed.

(** *** Documents with any numbers: accepted documents have no duplicate keys *)
Section Dup.
Variables (L : libm) (F : pflags) (sg : bool).
Hypothesis Hnd : allow_dup F = false.
Notation asrc := (map (as_source sg)).

Definition outcome (bad : Prop) (p : nat -> res (value * reader)) (rest : list Z) : Prop :=
  (exists f0, forall f, (f0 <= f)%nat -> p f = Err) \/
  (~ bad /\ exists v' r' f0, is_undef v' = false /\ at_pos r' rest /\ forall f, (f0 <= f)%nat -> p f = Ok (v', r')).

Definition Q_val (v : value) (t : bytes) : Prop := forall w r rest,
  ws w -> num_end rest -> at_pos r (w ++ asrc t ++ rest) -> outcome (has_dup v) (fun f => parse L F f r) rest.

Definition Q_elems (l : list (bytes * value)) (t : bytes) : Prop := forall r rest acc,
  at_pos r (asrc t ++ 93 :: rest) ->
  outcome (exists k v, In (k, v) l /\ has_dup v) (fun f => parse_arr L F f r acc) rest.

Definition Q_members (l : list (bytes * value)) (t : bytes) : Prop := forall r rest acc,
  at_pos r (asrc t ++ 125 :: rest) -> Forall (fun m => is_undef (snd m) = false) acc ->
  outcome ((exists k v, In (k, v) l /\ has_dup v) \/ ~ NoDup (map fst (rev acc) ++ map fst l))
    (fun f => let '(c, r1) := next_ws r in parse_obj L F f c r1 acc) rest.

Lemma outcome_ok : forall (bad : Prop) p rest v r f0, ~ bad -> is_undef v = false -> at_pos r rest ->
  (forall f, (f0 <= f)%nat -> p f = Ok (v, r)) -> outcome bad p rest.
Proof. intros. right. split; auto. exists v, r, f0. auto. Qed.

Lemma has_dup_leaf : forall v, match v with VArr _ | VObj _ _ => False | _ => True end -> ~ has_dup v.
Proof. intros v Hv H. destruct H; contradiction. Qed.

Lemma any_starts : forall v t, jval any_number v t -> exists c t', t = c :: t' /\ 33 <= c < 128 /\ c <> 93 /\ c <> 125.
Proof.
  intros v t H. destruct H as [| | |n t Hn| | | | | | |]; try (do 2 eexists; split; [reflexivity|lia]).
  destruct (number_text_head t Hn) as (c & t' & -> & Hc). unfold digit_char in Hc.
  do 2 eexists; split; [reflexivity|lia].
Qed.
Lemma any_elems_starts : forall l t, jelems any_number l t -> starts_value t.
Proof.
  intros l t H. destruct H as [v w1 t w2 Hw Hv Hw2|v w1 t w2 l ts Hw Hv Hw2 Hl];
  destruct (any_starts _ _ Hv) as (c & t' & -> & Hc1 & Hc2 & Hc3);
  (exists w1, c; eexists; split; [reflexivity|auto]).
Qed.
Lemma any_members_starts : forall l t, jmembers any_number l t -> exists w t', t = w ++ 34 :: t' /\ ws w.
Proof. intros l t H. destruct H; exists w1; eexists; split; try reflexivity; assumption. Qed.

Ltac nsrc H := repeat (rewrite ?map_app in H; cbn [map] in H);
  rewrite ?(as_source_low sg 34), ?(as_source_low sg 44), ?(as_source_low sg 45),
    ?(as_source_low sg 58), ?(as_source_low sg 91), ?(as_source_low sg 93),
    ?(as_source_low sg 123), ?(as_source_low sg 125) in H by lia;
  repeat (rewrite <- ?app_assoc in H; cbn [app] in H).
Ltac wsr H := repeat match goal with Hw : ws ?w |- _ => rewrite (ws_src sg w Hw) in H end.

Lemma low_src : forall t, Forall (fun c => 0 <= c < 128) t -> asrc t = t.
Proof. induction 1 as [|c t Hc _ IH]; simpl; auto. rewrite IH, as_source_low by auto. reflexivity. Qed.

Lemma digits_low : forall ds, Forall digit_char ds -> Forall (fun c => 0 <= c < 128) ds.
Proof. intros ds H. eapply Forall_impl; [|exact H]. unfold digit_char. intros; lia. Qed.

Lemma number_text_low : forall t, number_text t -> Forall (fun c => 0 <= c < 128) t.
Proof.
  intros t (s0 & ip & fp & ex & -> & Hsg & [Hne Hip] & Hfp & Hex).
  rewrite !Forall_app. split; [destruct Hsg as [->| ->]; repeat constructor; lia|].
  split; [apply digits_low; auto|]. split.
  - destruct Hfp as [->|(ds & -> & _ & Hd)]; constructor; [lia|apply digits_low; auto].
  - destruct Hex as [->|(e & s & ds & -> & He & Hs & _ & Hd)]; constructor; [lia|].
    apply Forall_app. split; [|apply digits_low; auto].
    destruct Hs as [->|[->| ->]]; repeat constructor; lia.
Qed.

Lemma D_word : forall str v, In (str, v) [(str_true, VBool true); (str_false, VBool false); (str_null, VNull)] ->
  Q_val v str.
Proof.
  intros str v Hin w r rest Hw Hn Hr.
  assert (Hlow : Forall (fun c => 0 <= c < 128) str /\ is_undef v = false /\ ~ has_dup v).
  { simpl in Hin. destruct Hin as [E|[E|[E|[]]]]; inversion E; subst;
      (split; [repeat constructor; lia|split; [reflexivity|apply has_dup_leaf; exact I]]). }
  destruct Hlow as (Hl & Hu & Hd). rewrite (low_src _ Hl) in Hr.
  apply outcome_ok with v (mkR rest None) 1%nat; auto; [reflexivity|].
  intros [|f] Hf; [lia|]. apply parse_word with (str := str) (w := w); auto.
Qed.

Lemma D_num : forall n t, number_text t -> Q_val (VNum n) t.
Proof.
  intros n t Ht w r rest Hw Hn Hr. rewrite (low_src _ (number_text_low t Ht)) in Hr.
  destruct (number_text_head t Ht) as (c & t' & Et & Hc). unfold digit_char in Hc.
  assert (Hns : next_ws r = (c, mkR (t' ++ rest) (Some c))).
  { apply next_ws_low with w; auto; [|lia]. subst t. exact Hr. }
  assert (Hp : forall f, parse L F (S f) r = parse_number L F (mkR (t' ++ rest) (Some c))).
  { intros f. cbn [parse]. rewrite Hns.
    replace (c =? 123) with false by lia. replace (c =? 91) with false by lia.
    replace (c =? 34) with false by lia. replace (c =? 116) with false by lia.
    replace (c =? 102) with false by lia. replace (c =? 110) with false by lia.
    assert (isdigit c || (c =? 43) || (c =? 45) || (c =? 46) = true) as -> by (unfold isdigit; lia). reflexivity. }
  destruct (number_text_pos L F (mkR (t' ++ rest) (Some c)) t rest Ht Hn) as [E|(n' & r' & E & Hr')].
  { subst t. apply at_cons. }
  - left. exists 1%nat. intros [|f] Hf; [lia|]. rewrite Hp. exact E.
  - apply outcome_ok with (VNum n') r' 1%nat; auto; [apply has_dup_leaf; exact I|].
    intros [|f] Hf; [lia|]. rewrite Hp. exact E.
Qed.

Lemma D_lit : forall s b v, jstr s b -> match v with VArr _ | VObj _ _ => False | _ => True end ->
  Q_val v (34 :: b ++ [34]).
Proof.
  intros s b v Hb Hv w r rest Hw Hn Hr. nsrc Hr.
  apply outcome_ok with (string_value s) (mkR rest None) 1%nat; [apply has_dup_leaf; auto| |reflexivity|].
  - unfold string_value. destruct (beqb s inf_word); [reflexivity|]. destruct (beqb s neg_inf_word); reflexivity.
  - intros [|f] Hf; [lia|]. apply parse_string_lit with (sg := sg) (b := b) (w := w); auto.
Qed.

Lemma D_arr0 : forall w, ws w -> Q_val (VArr []) (91 :: w ++ [93]).
Proof.
  intros w1 Hw1 w r rest Hw Hn Hr. nsrc Hr. wsr Hr.
  apply outcome_ok with (VArr []) (mkR rest None) 1%nat; try reflexivity.
  { intros H. inversion H as [| |? ? ? Hi]; subst. contradiction. }
  intros [|f] Hf; [lia|]. cbn [parse].
  rewrite (next_ws_low r w 91 _ Hr) by (auto; lia).
  change (91 =? 123) with false. change (91 =? 91) with true. cbv iota. unfold commit; cbn [src].
  rewrite (next_ws_low (mkR (w1 ++ 93 :: rest) None) w1 93 rest) by (auto using at_none; lia).
  reflexivity.
Qed.

Lemma D_obj0 : forall w, ws w -> Q_val (VObj false []) (123 :: w ++ [125]).
Proof.
  intros w1 Hw1 w r rest Hw Hn Hr. nsrc Hr. wsr Hr.
  apply outcome_ok with (VObj false []) (mkR rest None) 1%nat; try reflexivity.
  { intros H. inversion H as [? ? Hd|? ? ? ? Hi|]; subst; [|contradiction]. apply Hd. constructor. }
  intros [|f] Hf; [lia|]. cbn [parse].
  rewrite (next_ws_low r w 123 _ Hr) by (auto; lia).
  change (123 =? 123) with true. cbv iota. unfold commit; cbn [src].
  rewrite (next_ws_low (mkR (w1 ++ 125 :: rest) None) w1 125 rest) by (auto using at_none; lia).
  reflexivity.
Qed.

Lemma outcome_shift : forall (bad bad' : Prop) p p' rest,
  (bad' -> bad) -> (forall f, p' (S f) = p f) -> outcome bad p rest -> outcome bad' p' rest.
Proof.
  intros bad bad' p p' rest Hb Hp [(f0 & H)|(Hn & v & r & f0 & Hu & Ha & H)].
  - left. exists (S f0). intros [|f] Hf; [lia|]. rewrite Hp. apply H. lia.
  - right. split; [tauto|]. exists v, r, (S f0). split; [auto|]. split; [auto|].
    intros [|f] Hf; [lia|]. rewrite Hp. apply H. lia.
Qed.

Lemma D_arr : forall l t, jelems any_number l t -> Q_elems l t -> Q_val (VArr l) (91 :: t ++ [93]).
Proof.
  intros l t Ht IH w r rest Hw Hn Hr. nsrc Hr.
  destruct (any_elems_starts _ _ Ht) as (w1 & c & t' & Et & Hw1 & Hc & Hc1 & Hc2).
  set (r2 := mkR (asrc t ++ 93 :: rest) None).
  assert (Hns : next_ws r2 = (c, mkR (asrc t' ++ 93 :: rest) (Some c))).
  { apply next_ws_low with (w := w1); auto. subst t. unfold r2, at_pos. cbn [cur src].
    rewrite map_app. cbn [map]. rewrite (as_source_low sg c) by lia. rewrite (ws_src sg w1 Hw1).
    rewrite <- app_assoc. reflexivity. }
  apply outcome_shift with (3 := IH r2 rest [] (at_none _)).
  - intros H. inversion H; subst; eauto.
  - intros f. cbn [parse]. rewrite (next_ws_low r w 91 _ Hr) by (auto; lia).
    change (91 =? 123) with false. change (91 =? 91) with true. cbv iota. unfold commit; cbn [src].
    fold r2. rewrite <- (parse_arr_ws L F f r2). rewrite Hns.
    replace (c =? 93) with false by lia. reflexivity.
Qed.

Lemma D_obj : forall l t, jmembers any_number l t -> Q_members l t -> Q_val (VObj false l) (123 :: t ++ [125]).
Proof.
  intros l t Ht IH w r rest Hw Hn Hr. nsrc Hr.
  destruct (any_members_starts _ _ Ht) as (w1 & t' & Et & Hw1).
  set (r2 := mkR (asrc t ++ 125 :: rest) None).
  assert (Hns : next_ws r2 = (34, mkR (asrc t' ++ 125 :: rest) (Some 34))).
  { apply next_ws_low with (w := w1); auto; [|lia]. subst t. unfold r2, at_pos. cbn [cur src].
    rewrite map_app. cbn [map]. rewrite (as_source_low sg 34) by lia. rewrite (ws_src sg w1 Hw1).
    rewrite <- app_assoc. reflexivity. }
  apply outcome_shift with (3 := IH r2 rest [] (at_none _) (Forall_nil _)).
  - intros H. inversion H; subst; [right; auto|left; eauto].
  - intros f. cbn [parse]. rewrite (next_ws_low r w 123 _ Hr) by (auto; lia).
    change (123 =? 123) with true. cbv iota. unfold commit; cbn [src].
    fold r2. rewrite Hns. reflexivity.
Qed.

Lemma D_one : forall v w1 t w2, ws w1 -> Q_val v t -> ws w2 -> Q_elems [([], v)] (w1 ++ t ++ w2).
Proof.
  intros v w1 t w2 Hw1 IH Hw2 r rest acc Hr. nsrc Hr. wsr Hr.
  assert (num_end (w2 ++ 93 :: rest)) as Hn by (apply (num_end_ws F); unfold digit_char; auto; lia).
  destruct (IH w1 r (w2 ++ 93 :: rest) Hw1 Hn Hr) as [(f0 & H)|(Hb & v' & r' & f0 & Hu & Hat & H)].
  - left. exists (S f0). intros [|f] Hf; [lia|]. cbn [parse_arr]. rewrite H by lia. reflexivity.
  - eapply outcome_ok with (f0 := S f0) (r := mkR rest None); [| |reflexivity|]; cycle 2.
    + intros [|f] Hf; [lia|]. cbn [parse_arr]. rewrite H by lia. cbn [bind].
      rewrite (next_ws_low r' w2 93 rest Hat) by (auto; lia). reflexivity.
    + intros (k & v0 & [E|[]] & Hd). inversion E; subst. auto.
    + reflexivity.
Qed.

Lemma D_cons : forall v w1 t w2 l ts, ws w1 -> Q_val v t -> ws w2 -> Q_elems l ts ->
  Q_elems (([], v) :: l) (w1 ++ t ++ w2 ++ 44 :: ts).
Proof.
  intros v w1 t w2 l ts Hw1 IH Hw2 IHl r rest acc Hr. nsrc Hr. wsr Hr.
  assert (num_end (w2 ++ 44 :: asrc ts ++ 93 :: rest)) as Hn by (apply (num_end_ws F); unfold digit_char; auto; lia).
  destruct (IH w1 r _ Hw1 Hn Hr) as [(f0 & H)|(Hb & v' & r' & f0 & Hu & Hat & H)].
  - left. exists (S f0). intros [|f] Hf; [lia|]. cbn [parse_arr]. rewrite H by lia. reflexivity.
  - assert (Hstep : forall f, (f0 <= f)%nat ->
      parse_arr L F (S f) r acc = parse_arr L F f (mkR (asrc ts ++ 93 :: rest) None) (v' :: acc)).
    { intros f Hle. cbn [parse_arr]. rewrite H by lia. cbn [bind].
      rewrite (next_ws_low r' w2 44 _ Hat) by (auto; lia). reflexivity. }
    destruct (IHl (mkR (asrc ts ++ 93 :: rest) None) rest (v' :: acc) (at_none _))
      as [(f1 & H1)|(Hb1 & v1 & r1 & f1 & Hu1 & Hat1 & H1)].
    + left. exists (S (max f0 f1)). intros [|f] Hf; [lia|]. rewrite Hstep by lia. apply H1. lia.
    + apply outcome_ok with v1 r1 (S (max f0 f1)); auto.
      * intros (k & v0 & [E|Hi] & Hd); [inversion E; subst; auto|]. apply Hb1. eauto.
      * intros [|f] Hf; [lia|]. rewrite Hstep by lia. apply H1. lia.
Qed.

Lemma D_member : forall k b v w1 w2 w3 t w4 c tail,
  jstr k b -> ws w1 -> ws w2 -> ws w3 -> Q_val v t -> ws w4 -> (c = 44 \/ c = 125) ->
  forall r acc,
  at_pos r (w1 ++ 34 :: asrc b ++ 34 :: w2 ++ 58 :: w3 ++ asrc t ++ w4 ++ c :: tail) ->
  (exists f0, forall f, (f0 <= f)%nat -> (let '(c0, r1) := next_ws r in parse_obj L F f c0 r1 acc) = Err) \/
  (~ has_dup v /\ exists v' f0, is_undef v' = false /\ forall f, (f0 <= f)%nat ->
     (let '(c0, r1) := next_ws r in parse_obj L F (S f) c0 r1 acc) =
     (if c =? 125 then do o <- finish_object F (rev ((k, v') :: acc)); Ok (o, mkR tail None)
      else let '(c3, r6) := next_ws (mkR tail None) in parse_obj L F f c3 r6 ((k, v') :: acc))).
Proof.
  intros k b v w1 w2 w3 t w4 c tail Hk Hw1 Hw2 Hw3 IH Hw4 Hc r acc Hr.
  rewrite (next_ws_low r w1 34 _ Hr) by (auto; lia).
  assert (num_end (w4 ++ c :: tail)) as Hn by (apply (num_end_ws F); unfold digit_char; auto; lia).
  specialize (IH w3 (mkR (w3 ++ asrc t ++ w4 ++ c :: tail) None) (w4 ++ c :: tail) Hw3 Hn (at_none _)).
  assert (Hstep : forall f, 
    parse_obj L F (S f) 34 (mkR (asrc b ++ 34 :: w2 ++ 58 :: w3 ++ asrc t ++ w4 ++ c :: tail) (Some 34)) acc =
    do (v0, r3) <- parse L F f (mkR (w3 ++ asrc t ++ w4 ++ c :: tail) None);
    let acc' := (k, v0) :: acc in
    let '(c2, r4) := next_ws r3 in
    let r5 := commit r4 in
    if c2 =? 125 then do o <- finish_object F (rev acc'); Ok (o, r5)
    else if c2 =? 44 then let '(c3, r6) := next_ws r5 in parse_obj L F f c3 r6 acc'
    else Err).
  { intros f. cbn [parse_obj]. change (34 =? 34) with true. cbv iota.
    unfold read_string_r. unfold commit; cbn [src cur]. rewrite (read_string_jstr k b Hk). cbn [bind app].
    rewrite (next_ws_low (mkR (w2 ++ 58 :: w3 ++ asrc t ++ w4 ++ c :: tail) None) w2 58 _ (at_none _)) by (auto; lia).
    change (58 =? 58) with true. cbv iota. cbn [src]. reflexivity. }
  destruct IH as [(f0 & H)|(Hb & v' & r' & f0 & Hu & Hat & H)].
  - left. exists (S f0). intros [|f] Hle; [lia|]. rewrite Hstep, H by lia. reflexivity.
  - right. split; auto. exists v', f0. split; auto. intros f Hle.
    rewrite Hstep, (H f Hle). cbn [bind]. cbv zeta.
    rewrite (next_ws_low r' w4 c tail Hat) by (auto; lia). unfold commit. cbn [src].
    destruct Hc as [->| ->]; reflexivity.
Qed.

Lemma finish_object_dup : forall l, Forall (fun m => is_undef (snd m) = false) l ->
  finish_object F l = Err \/ (NoDup (map fst l) /\ exists o, finish_object F l = Ok o /\ is_undef o = false).
Proof.
  intros l Hl. unfold finish_object. rewrite Hnd. cbv zeta. cbn [negb andb].
  destruct (length (build_object is_undef l) =? length l)%nat eqn:E; cbn [negb]; [right|left; reflexivity].
  split; [apply build_object_length; auto; apply Nat.eqb_eq; auto|]. eexists. split; reflexivity.
Qed.

Lemma rev_defined : forall l : list (bytes * value), Forall (fun m => is_undef (snd m) = false) l ->
  Forall (fun m => is_undef (snd m) = false) (rev l).
Proof. intros. apply Forall_rev. auto. Qed.

Lemma D_mone : forall k b v w1 w2 w3 t w4,
  jstr k b -> ws w1 -> ws w2 -> ws w3 -> Q_val v t -> ws w4 ->
  Q_members [(k, v)] (w1 ++ 34 :: b ++ 34 :: w2 ++ 58 :: w3 ++ t ++ w4).
Proof.
  intros k b v w1 w2 w3 t w4 Hk Hw1 Hw2 Hw3 IH Hw4 r rest acc Hr Hacc. nsrc Hr. wsr Hr.
  destruct (D_member k b v w1 w2 w3 t w4 125 rest Hk Hw1 Hw2 Hw3 IH Hw4 (or_intror eq_refl) r acc Hr)
    as [He|(Hb & v' & f0 & Hu & H)]; [left; exact He|].
  assert (Hacc' : Forall (fun m => is_undef (snd m) = false) (rev ((k, v') :: acc)))
    by (apply rev_defined; constructor; auto).
  change (125 =? 125) with true in H. cbv iota in H.
  destruct (finish_object_dup _ Hacc') as [E|(Hn & o & E & Ho)].
  - left. exists (S f0). intros [|f] Hf; [lia|]. rewrite H by lia. rewrite E. reflexivity.
  - apply outcome_ok with o (mkR rest None) (S f0); auto; [|reflexivity|].
    + intros [(k0 & v0 & [Ei|[]] & Hd)|Hd]; [inversion Ei; subst; auto|].
      apply Hd. cbn [map fst rev] in *. rewrite map_app in Hn. exact Hn.
    + intros [|f] Hf; [lia|]. rewrite H by lia. rewrite E. reflexivity.
Qed.

Lemma D_mcons : forall k b v w1 w2 w3 t w4 l ts,
  jstr k b -> ws w1 -> ws w2 -> ws w3 -> Q_val v t -> ws w4 -> Q_members l ts ->
  Q_members ((k, v) :: l) (w1 ++ 34 :: b ++ 34 :: w2 ++ 58 :: w3 ++ t ++ w4 ++ 44 :: ts).
Proof.
  intros k b v w1 w2 w3 t w4 l ts Hk Hw1 Hw2 Hw3 IH Hw4 IHl r rest acc Hr Hacc. nsrc Hr. wsr Hr.
  destruct (D_member k b v w1 w2 w3 t w4 44 (asrc ts ++ 125 :: rest) Hk Hw1 Hw2 Hw3 IH Hw4 (or_introl eq_refl) r acc Hr)
    as [He|(Hb & v' & f0 & Hu & H)]; [left; exact He|].
  change (44 =? 125) with false in H. cbv iota in H.
  destruct (IHl (mkR (asrc ts ++ 125 :: rest) None) rest ((k, v') :: acc) (at_none _))
    as [(f1 & H1)|(Hb1 & v1 & r1 & f1 & Hu1 & Hat1 & H1)]; [constructor; auto| |].
  - left. exists (S (max f0 f1)). intros [|f] Hf; [lia|]. rewrite H by lia. apply H1. lia.
  - apply outcome_ok with v1 r1 (S (max f0 f1)); auto.
    + intros [(k0 & v0 & [Ei|Hi] & Hd)|Hd]; [inversion Ei; subst; auto| |].
      * apply Hb1. left. eauto.
      * apply Hb1. right. cbn [rev map fst] in *. rewrite map_app, <- app_assoc. exact Hd.
    + intros [|f] Hf; [lia|]. rewrite H by lia. apply H1. lia.
Qed.

Lemma any_document : forall v t, jval any_number v t -> Q_val v t.
Proof.
  apply (jval_mind any_number (fun v t _ => Q_val v t) (fun l t _ => Q_elems l t) (fun l t _ => Q_members l t)).
  - apply D_word. simpl; auto.
  - apply D_word. simpl; auto.
  - apply D_word. simpl; auto.
  - intros n t Hn. apply D_num. exact Hn.
  - intros s b Hb H1 H2. apply D_lit with s; simpl; auto.
  - intros b Hb. apply D_lit with word_inf; simpl; auto.
  - intros b Hb. apply D_lit with word_neg_inf; simpl; auto.
  - exact D_arr0.
  - exact D_arr.
  - exact D_obj0.
  - exact D_obj.
  - intros. apply D_one; auto.
  - intros. apply D_cons; auto.
  - intros. apply D_mone; auto.
  - intros. apply D_mcons; auto.
Qed.

Lemma parse_source_dup : forall v t w rest,
  jval any_number v t -> ws w -> num_end rest -> has_dup v ->
  parse_source L F (w ++ asrc t ++ rest) = Err.
Proof.
  intros v t w rest Hj Hw Hn Hd.
  destruct (any_document v t Hj w (mkR (w ++ asrc t ++ rest) None) rest Hw Hn (at_none _)) as [(f0 & H)|(Hb & _)]; [|tauto].
  specialize (H f0 (le_n _)). rewrite <- H. apply parse_source_any. congruence.
Qed.
End Dup.

(** *** Precise numbers *)
Lemma nfs_loop_exact : forall ds a, Forall digit_char ds -> 0 <= a ->
  fold_left (fun a c => a * 10 + (c - 48)) ds a < 2 ^ 64 ->
  nfs_loop a ds = Some (fold_left (fun a c => a * 10 + (c - 48)) ds a).
Proof.
  induction ds as [|c ds IH]; intros a Hd Ha Hv; [reflexivity|]. inversion_clear Hd as [|? ? Hc Hds].
  cbn [fold_left nfs_loop] in *. rewrite (digit_is c Hc).
  assert (Hc' := Hc). unfold digit_char in Hc'.
  pose proof (dec_fold_ge ds (a * 10 + (c - 48)) ltac:(lia) Hds) as Hge.
  assert (u64 (a * 10 + (c - 48)) = a * 10 + (c - 48)) as -> by (unfold u64; apply Z.mod_small; lia).
  cbv zeta. replace (a * 10 + (c - 48) <? a) with false by lia. apply IH; auto; lia.
Qed.

Lemma nfs_loop_over : forall ds a, Forall digit_char ds -> 0 <= a < 2 ^ 64 ->
  2 ^ 64 <= fold_left (fun a c => a * 10 + (c - 48)) ds a < 2 ^ 64 + 2 ^ 64 / 10 ->
  nfs_loop a ds = None.
Proof.
  induction ds as [|c ds IH]; intros a Hd Ha Hv; [cbn in Hv; lia|]. inversion_clear Hd as [|? ? Hc Hds].
  cbn [fold_left nfs_loop] in *. rewrite (digit_is c Hc).
  assert (Hc' := Hc). unfold digit_char in Hc'.
  pose proof (dec_fold_ge ds (a * 10 + (c - 48)) ltac:(lia) Hds) as Hge. cbv zeta.
  destruct (Z_lt_ge_dec (a * 10 + (c - 48)) (2 ^ 64)) as [Hlt|Hov].
  - assert (u64 (a * 10 + (c - 48)) = a * 10 + (c - 48)) as -> by (unfold u64; apply Z.mod_small; lia).
    replace (a * 10 + (c - 48) <? a) with false by lia. apply IH; auto; lia.
  - assert (u64 (a * 10 + (c - 48)) = a * 10 + (c - 48) - 2 ^ 64) as ->.
    { unfold u64. symmetry. apply Z.mod_unique with 1; lia. }
    replace (a * 10 + (c - 48) - 2 ^ 64 <? a) with true by lia. reflexivity.
Qed.

Lemma precise_over : forall sg ds, (sg = [] \/ sg = [45]) -> ds <> [] -> Forall digit_char ds ->
  2 ^ 64 <= dec_value ds < 2 ^ 64 + 2 ^ 64 / 10 \/ (sg = [45] /\ 2 ^ 63 <= dec_value ds < 2 ^ 64) ->
  number_from_string_raw (sg ++ ds) false = NPrec (sg ++ ds) PkDbl.
Proof.
  intros sg [|c ds] Hs Hne Hd Hv; [congruence|]. unfold number_from_string_raw. cbv iota.
  pose proof (Forall_inv Hd) as Hc. unfold digit_char in Hc.
  destruct Hs as [->| ->]; cbn [app].
  - replace ((c =? 45) || (c =? 43)) with false by lia.
    destruct Hv as [Hv|[Hv _]]; [|discriminate].
    rewrite (nfs_loop_over (c :: ds) 0) by (auto; lia). reflexivity.
  - change ((45 =? 45) || (45 =? 43)) with true. cbv iota. change (45 =? 45) with true.
    destruct Hv as [Hv|[_ Hv]].
    + rewrite (nfs_loop_over (c :: ds) 0) by (auto; lia). reflexivity.
    + rewrite (nfs_loop_exact (c :: ds) 0) by (auto; unfold dec_value in *; lia). fold (dec_value (c :: ds)). cbv iota.
      assert (u64 (Z.shiftl (dec_value (c :: ds)) 1) = 2 * dec_value (c :: ds) - 2 ^ 64) as ->.
      { rewrite Z.shiftl_mul_pow2 by lia. unfold u64. symmetry. apply Z.mod_unique with 1; lia. }
      replace (2 * dec_value (c :: ds) - 2 ^ 64 <? dec_value (c :: ds)) with true by lia. reflexivity.
Qed.

Lemma precise_uint : forall ds, ds <> [] -> Forall digit_char ds -> dec_value ds < 2 ^ 64 ->
  number_from_string_raw ds false = NPrec ds (PkUInt (dec_value ds)).
Proof.
  intros [|c ds] Hne Hd Hv; [congruence|]. unfold number_from_string_raw. cbv iota.
  pose proof (Forall_inv Hd) as Hc. unfold digit_char in Hc.
  replace ((c =? 45) || (c =? 43)) with false by lia.
  rewrite (nfs_loop_exact (c :: ds) 0) by (auto; lia). reflexivity.
Qed.

Lemma precise_int : forall ds, ds <> [] -> Forall digit_char ds -> dec_value ds < 2 ^ 63 ->
  number_from_string_raw (45 :: ds) false = NPrec (45 :: ds) (PkInt (- dec_value ds)).
Proof.
  intros ds Hne Hd Hv. unfold number_from_string_raw. cbv iota.
  change ((45 =? 45) || (45 =? 43)) with true. cbv iota. change (45 =? 45) with true.
  pose proof (dec_fold_ge ds 0 ltac:(lia) Hd) as Hp. fold (dec_value ds) in Hp.
  rewrite (nfs_loop_exact ds 0) by (auto; unfold dec_value in *; lia). fold (dec_value ds). cbv iota.
  assert (u64 (Z.shiftl (dec_value ds) 1) = 2 * dec_value ds) as ->.
  { rewrite Z.shiftl_mul_pow2 by lia. unfold u64. rewrite Z.mod_small; lia. }
  replace (2 * dec_value ds <? dec_value ds) with false by lia.
  assert (s64 (dec_value ds) = dec_value ds) as ->.
  { unfold s64. rewrite Z.mod_small by lia. replace (dec_value ds <? 2 ^ 63) with true by lia. reflexivity. }
  reflexivity.
Qed.

Lemma precise_parse : forall L F t w rest,
  precise F = true -> number_text t -> ws w -> num_end rest ->
  exists k r', parse_source L F (w ++ t ++ rest) = Ok (VNum (NPrec t k), r') /\ at_pos r' rest.
Proof.
  intros L F t w rest HF Ht Hw Hn.
  destruct (number_text_head t Ht) as (c & t' & Et & Hc). unfold digit_char in Hc.
  assert (Hns : next_ws (mkR (w ++ t ++ rest) None) = (c, mkR (t' ++ rest) (Some c))).
  { apply next_ws_low with w; auto; [|lia]. subst t. reflexivity. }
  assert (Hp : parse L F 1 (mkR (w ++ t ++ rest) None) = parse_number L F (mkR (t' ++ rest) (Some c))).
  { cbn [parse]. rewrite Hns.
    replace (c =? 123) with false by lia. replace (c =? 91) with false by lia.
    replace (c =? 34) with false by lia. replace (c =? 116) with false by lia.
    replace (c =? 102) with false by lia. replace (c =? 110) with false by lia.
    assert (isdigit c || (c =? 43) || (c =? 45) || (c =? 46) = true) as -> by (unfold isdigit; lia). reflexivity. }
  assert (Hat : at_pos (mkR (t' ++ rest) (Some c)) (t ++ rest)) by (subst t; apply at_cons).
  destruct Ht as (sg & ip & fp & ex & Et2 & Hsg & [Hne Hip] & Hfp & Hex).
  rewrite Et2 in Hat. rewrite <- !app_assoc in Hat.
  destruct (parse_precise_pos _ sg ip fp ex rest Hsg Hne Hip Hfp Hex Hn Hat) as (r' & E & Hr').
  rewrite <- Et2 in E.
  assert (exists k, number_from_string_raw t (negb match fp ++ ex with [] => true | _ => false end) = NPrec t k) as (k & Ek).
  { unfold number_from_string_raw.
    match goal with |- context [if ?b then _ else _] => destruct b end; [eauto|].
    destruct (match t with c0 :: t0 => if (c0 =? 45) || (c0 =? 43) then (c0 =? 45, t0) else (false, t) | [] => (false, []) end) as [ng dg].
    destruct (nfs_loop 0 dg); [|eauto]. destruct ng; [|eauto]. destruct (u64 (Z.shiftl z 1) <? z); eauto. }
  exists k, r'. split; auto. unfold parse_number in Hp. rewrite HF, E in Hp. cbn [bind] in Hp. rewrite Ek in Hp.
  rewrite <- Hp. apply parse_source_any. rewrite Hp. discriminate.
Qed.

Lemma precise_parse_sgn : forall L F sg ip w rest k,
  precise F = true -> (sg = [] \/ sg = [45]) -> ip <> [] -> Forall digit_char ip -> ws w -> num_end rest ->
  number_from_string_raw (sg ++ ip) false = NPrec (sg ++ ip) k ->
  exists r', parse_source L F (w ++ (sg ++ ip) ++ rest) = Ok (VNum (NPrec (sg ++ ip) k), r') /\ at_pos r' rest.
Proof.
  intros L F sg ip w rest k HF Hsg Hne Hip Hw Hn Hk. set (t := sg ++ ip) in *.
  assert (Et : t = sg ++ ip ++ [] ++ []) by (cbn [app]; rewrite app_nil_r; reflexivity).
  assert (Hnt : number_text t) by (exists sg, ip, [], []; auto 8).
  destruct (precise_parse L F t w rest HF Hnt Hw Hn) as (k' & r' & E & Hr'). exists r'. split; auto. rewrite E.
  do 2 f_equal. f_equal. f_equal.
  (* recompute the kind *)
  destruct (number_text_head t Hnt) as (c & t' & Ec & Hc). unfold digit_char in Hc.
  assert (Hat : at_pos (mkR (t' ++ rest) (Some c)) (sg ++ ip ++ [] ++ [] ++ rest)).
  { rewrite Ec in Et. cbn [app] in *. rewrite app_nil_r in Et. rewrite app_assoc, <- Et. apply at_cons. }
  destruct (parse_precise_pos _ sg ip [] [] rest Hsg Hne Hip (or_introl eq_refl) (or_introl eq_refl) Hn Hat)
    as (r2 & E2 & _). rewrite <- Et in E2. cbn [app negb] in E2.
  assert (Hns : next_ws (mkR (w ++ t ++ rest) None) = (c, mkR (t' ++ rest) (Some c))).
  { apply next_ws_low with w; auto; [|lia]. rewrite Ec. reflexivity. }
  unfold parse_source in E. cbn [parse] in E. rewrite Hns in E.
  replace (c =? 123) with false in E by lia. replace (c =? 91) with false in E by lia.
  replace (c =? 34) with false in E by lia. replace (c =? 116) with false in E by lia.
  replace (c =? 102) with false in E by lia. replace (c =? 110) with false in E by lia.
  assert (isdigit c || (c =? 43) || (c =? 45) || (c =? 46) = true) as Hb by (unfold isdigit; lia).
  rewrite Hb in E. unfold parse_number in E. rewrite HF, E2 in E. cbn [bind] in E.
  rewrite Hk in E. congruence.
Qed.

Lemma precise_parse_int : forall L F k t w rest,
  precise F = true -> kind_literal k t -> ws w -> num_end rest ->
  exists r', parse_source L F (w ++ t ++ rest) = Ok (VNum (NPrec t k), r') /\ at_pos r' rest.
Proof.
  intros L F k t w rest HF Hi Hw Hn. destruct Hi as [ds H1 H2 H3|ds H1 H2 H3].
  - apply (precise_parse_sgn L F [] ds); auto. apply precise_uint; auto.
  - apply (precise_parse_sgn L F [45] ds); auto. apply precise_int; auto.
Qed.

Lemma precise_parse_over : forall L F sg ds w rest,
  precise F = true -> (sg = [] \/ sg = [45]) -> ds <> [] -> Forall digit_char ds ->
  2 ^ 64 <= dec_value ds < 2 ^ 64 + 2 ^ 64 / 10 \/ (sg = [45] /\ 2 ^ 63 <= dec_value ds < 2 ^ 64) ->
  ws w -> num_end rest ->
  exists r', parse_source L F (w ++ (sg ++ ds) ++ rest) = Ok (VNum (NPrec (sg ++ ds) PkDbl), r') /\ at_pos r' rest.
Proof. intros. apply precise_parse_sgn; auto. apply precise_over; auto. Qed.

(** *** String literals that must be rejected *)
Lemma read_string_bad_escape : forall s b sg e st acc rest,
  jstr s b -> e <> 117 -> (forall x, ~ In (e, x) escape_pairs) ->
  read_string st acc (map (as_source sg) b ++ 92 :: e :: rest) = Err.
Proof.
  intros s b sg e st acc rest H He Hx. revert st acc.
  assert (Hsimple : simple_escape e = None).
  { unfold simple_escape. unfold escape_pairs in Hx. simpl in Hx.
    destruct ((e =? 34) || (e =? 92) || (e =? 47)) eqn:E1.
    { exfalso. apply (Hx e).
      assert (e = 34 \/ e = 92 \/ e = 47) as [->|[->| ->]] by lia; tauto. }
    destruct (e =? 98) eqn:E2; [exfalso; apply (Hx 8); assert (e = 98) by lia; subst; tauto|].
    destruct (e =? 102) eqn:E3; [exfalso; apply (Hx 12); assert (e = 102) by lia; subst; tauto|].
    destruct (e =? 110) eqn:E4; [exfalso; apply (Hx 10); assert (e = 110) by lia; subst; tauto|].
    destruct (e =? 114) eqn:E5; [exfalso; apply (Hx 13); assert (e = 114) by lia; subst; tauto|].
    destruct (e =? 116) eqn:E6; [exfalso; apply (Hx 9); assert (e = 116) by lia; subst; tauto|].
    reflexivity. }
  induction H as [|c s b Hc H32 H34 H92 Hs IH|e' x s b He' Hs IH|a b c d va vb vc vd s t Ha Hb Hc Hd Hs IH]; intros st acc.
  - cbn. rewrite Hsimple. replace (e =? 117) with false by lia. reflexivity.
  - rewrite map_app, <- app_assoc.
    destruct (read_string_cp sg c st acc (map (as_source sg) b ++ 92 :: e :: rest) Hc H34 H92) as [st' ->]. apply IH.
  - cbn [map app]. rewrite (as_source_low sg 92) by lia.
    rewrite (as_source_low sg e') by (eapply escape_low; eauto).
    rewrite (read_string_escape e' x) by auto. apply IH.
  - cbn [map app]. rewrite (as_source_low sg 92), (as_source_low sg 117) by lia.
    rewrite (as_source_low sg a) by (eapply hex_char_low; eauto).
    rewrite (as_source_low sg b) by (eapply hex_char_low; eauto).
    rewrite (as_source_low sg c) by (eapply hex_char_low; eauto).
    rewrite (as_source_low sg d) by (eapply hex_char_low; eauto).
    erewrite read_string_hex by eauto. apply IH.
Qed.

Lemma parse_bad_escape : forall L F s b sg e w rest,
  jstr s b -> ws w -> e <> 117 -> (forall x, ~ In (e, x) escape_pairs) ->
  parse_source L F (w ++ 34 :: map (as_source sg) b ++ 92 :: e :: rest) = Err.
Proof.
  intros L F s b sg e w rest Hb Hw He Hx. unfold parse_source. cbn [parse].
  rewrite (next_ws_low _ w 34 _ (at_none _)) by (auto; lia).
  change (34 =? 123) with false. change (34 =? 91) with false. change (34 =? 34) with true. cbv iota.
  unfold read_string_r, commit. cbn [src cur]. rewrite (read_string_bad_escape s b) by auto. reflexivity.
Qed.

(** *** Escaped output keeps the low 16 bits of each code point *)
Lemma write_unicode_low : forall c, is_cp c -> write_unicode false c = write_unicode false (c mod 65536).
Proof.
  unfold is_cp. intros c Hc. unfold write_unicode. cbn [andb]. cbv iota.
  pose proof (Z.mod_pos_bound c 65536 ltac:(lia)).
  rewrite !u32_small by lia. do 2 f_equal.
  assert (forall k, 0 <= k <= 12 -> Z.land (Z.shiftr c k) 15 = Z.land (Z.shiftr (c mod 65536) k) 15) as E.
  { intros k Hk. change 65536 with (2 ^ 16). change 15 with (Z.ones 4).
    rewrite !Z.land_ones by lia. rewrite !Z.shiftr_div_pow2 by lia.
    apply Z.bits_inj'. intros n Hn.
    destruct (Z_lt_le_dec n 4).
    - rewrite !Z.mod_pow2_bits_low by lia. rewrite !Z.div_pow2_bits by lia.
      rewrite Z.mod_pow2_bits_low by lia. reflexivity.
    - rewrite !Z.mod_pow2_bits_high by lia. reflexivity. }
  cbn [map]. rewrite !E by lia. reflexivity.
Qed.

Lemma write_body_low : forall cs, Forall is_cp cs ->
  forall st, jstr (utf8_encode (map (fun c => c mod 65536) cs)) (write_body false st (utf8_encode cs)).
Proof.
  induction 1 as [|c cs Hc Hcs IH]; intros st; [constructor|].
  assert (0 <= c <= 0x10FFFF) as Hr by exact Hc.
  cbn [map]. change (utf8_encode (c :: cs)) with (utf8_bytes c ++ utf8_encode cs).
  change (utf8_encode (c mod 65536 :: ?x)) with (utf8_bytes (c mod 65536) ++ utf8_encode x).
  set (lows := map (fun c0 => c0 mod 65536) cs) in *.
  destruct (Z_lt_le_dec c 128) as [Hl|Hl].
  - replace (c mod 65536) with c by (symmetry; apply Z.mod_small; lia).
    assert (utf8_bytes c = [c]) as E.
    { unfold utf8_bytes. replace (c <? 0x80) with true by lia. reflexivity. }
    change (utf8_encode (c :: lows)) with (utf8_bytes c ++ utf8_encode lows).
    rewrite E. cbn [app write_body].
    unfold write_direct.
    destruct ((c =? 92) || (c =? 34)) eqn:E1.
    { cbn [app]. apply js_esc; auto. unfold escape_pairs. simpl.
      assert (c = 92 \/ c = 34) as [->| ->] by lia; auto. }
    destruct (c =? 12) eqn:E2; [replace c with 12 by lia; apply js_esc; auto; simpl; tauto|].
    destruct (c =? 8) eqn:E3; [replace c with 8 by lia; apply js_esc; auto; simpl; tauto|].
    destruct (c =? 13) eqn:E4; [replace c with 13 by lia; apply js_esc; auto; simpl; tauto|].
    destruct (c =? 10) eqn:E5; [replace c with 10 by lia; apply js_esc; auto; simpl; tauto|].
    destruct (c =? 9) eqn:E6; [replace c with 9 by lia; apply js_esc; auto; simpl; tauto|].
    destruct ((c <? 32) || (128 <=? c)) eqn:E7.
    + pose proof (step_ascii false st c ltac:(lia)) as Hs. simpl as_source in Hs. rewrite Hs.
      cbn [flat_map]. rewrite app_nil_r. change (c :: utf8_encode lows) with ([c] ++ utf8_encode lows).
      rewrite <- E. apply write_unicode_jstr; auto; unfold cp_ok; lia.
    + cbn [app]. change (c :: utf8_encode lows) with ([c] ++ utf8_encode lows).
      change (c :: write_body false st (utf8_encode cs)) with ([c] ++ write_body false st (utf8_encode cs)).
      rewrite <- E. apply js_char; auto; lia.
  - rewrite write_body_run by (apply utf8_bytes_high; auto).
    pose proof (decode_cp false c st Hc) as [st' Hd].
    replace (map (as_source false) (utf8_bytes c)) with (utf8_bytes c) in Hd
      by (symmetry; apply map_id).
    rewrite Hd. cbn [flat_map]. rewrite app_nil_r. rewrite write_unicode_low by auto.
    change (utf8_encode (c mod 65536 :: lows)) with (utf8_bytes (c mod 65536) ++ utf8_encode lows).
    pose proof (Z.mod_pos_bound c 65536 ltac:(lia)).
    unfold write_unicode. cbn [andb]. cbv iota. rewrite u32_small by lia. apply jstr_u; auto; lia.
Qed.

Lemma escaped_round_trip : forall L E F sg cs w rest,
  Forall is_cp cs -> ws w ->
  parse_source L F (w ++ map (as_source sg) (ser E false (VStr None (utf8_encode cs))) ++ rest) =
  Ok (string_value (utf8_encode (map (fun c => c mod 65536) cs)), mkR rest None).
Proof.
  intros L E F sg cs w rest Hc Hw.
  set (s0 := w ++ map (as_source sg) (ser E false (VStr None (utf8_encode cs))) ++ rest).
  assert (Hat : at_pos (mkR s0 None) (w ++ 34 :: map (as_source sg) (write_string_body false (utf8_encode cs)) ++ 34 :: rest)).
  { unfold s0. cbn [ser]. unfold write_string, at_pos. cbn [cur src map]. rewrite map_app. cbn [map].
    rewrite (as_source_low sg 34) by lia. cbn [app]. rewrite <- app_assoc. reflexivity. }
  pose proof (parse_string_lit L F sg _ _ _ w rest (write_body_low cs Hc u_init) Hw Hat 0) as Hp.
  rewrite <- Hp. apply parse_source_any. rewrite Hp. discriminate.
Qed.

Lemma utf8_encode_inj : forall a b, Forall is_cp a -> Forall is_cp b -> utf8_encode a = utf8_encode b -> a = b.
Proof.
  intros a b Ha Hb H.
  rewrite <- (wide_utf8_roundtrip false a Ha), <- (wide_utf8_roundtrip false b Hb).
  rewrite !wide_to_utf8_spec by auto. rewrite H. reflexivity.
Qed.

Lemma low_cp : forall cs, Forall is_cp (map (fun c => c mod 65536) cs).
Proof. intros. apply Forall_map, Forall_forall. intros c _. unfold is_cp. lia. Qed.

Lemma low_same : forall cs, Forall is_cp cs ->
  (utf8_encode (map (fun c => c mod 65536) cs) = utf8_encode cs <-> Forall (fun c => c <= 0xFFFF) cs).
Proof.
  intros cs H. split.
  - intros E. apply utf8_encode_inj in E; auto using low_cp. clear H.
    induction cs as [|c cs IH]; constructor; cbn [map] in E; inversion E as [[E1 E2]].
    + pose proof (Z.mod_pos_bound c 65536 ltac:(lia)). lia.
    + rewrite !E2. auto.
  - intros Hs. f_equal. induction H as [|c cs Hc H IH]; [reflexivity|]. inversion_clear Hs. cbn [map].
    unfold is_cp in Hc. rewrite Z.mod_small by lia. rewrite IH; auto.
Qed.

Lemma escaped_exact : forall L E F sg cs w rest,
  Forall is_cp cs -> utf8_encode cs <> word_inf -> utf8_encode cs <> word_neg_inf -> ws w ->
  (parse_source L F (w ++ map (as_source sg) (ser E false (VStr None (utf8_encode cs))) ++ rest) =
     Ok (VStr None (utf8_encode cs), mkR rest None) <-> Forall (fun c => c <= 0xFFFF) cs).
Proof.
  intros L E F sg cs w rest Hc Hi1 Hi2 Hw. rewrite escaped_round_trip by auto. rewrite <- low_same by auto.
  split; intros H.
  - inversion H as [H1]. unfold string_value in H1.
    destruct (beqb _ inf_word); [discriminate|]. destruct (beqb _ neg_inf_word); [discriminate|].
    congruence.
  - rewrite H. rewrite string_value_plain by auto. reflexivity.
Qed.

Lemma utf8_exact : forall L E F sg s w rest,
  text_ok true s -> ws w ->
  (parse_source L F (w ++ map (as_source sg) (ser E true (VStr None s)) ++ rest) =
     Ok (VStr None s, mkR rest None) <-> s <> word_inf /\ s <> word_neg_inf).
Proof.
  intros L E F sg s w rest Hs Hw.
  set (s0 := w ++ map (as_source sg) (ser E true (VStr None s)) ++ rest).
  assert (Hat : at_pos (mkR s0 None) (w ++ 34 :: map (as_source sg) (write_string_body true s) ++ 34 :: rest)).
  { unfold s0. cbn [ser]. unfold write_string, at_pos. cbn [cur src map]. rewrite map_app. cbn [map].
    rewrite (as_source_low sg 34) by lia. cbn [app]. rewrite <- app_assoc. reflexivity. }
  pose proof (parse_string_lit L F sg s _ _ w rest (write_string_body_jstr true s Hs) Hw Hat 0) as Hp.
  rewrite (parse_source_any L F s0 1) by (rewrite Hp; discriminate). rewrite Hp.
  split.
  - intros H. split; intros ->; discriminate H.
  - intros [H1 H2]. rewrite string_value_plain by auto. reflexivity.
Qed.
