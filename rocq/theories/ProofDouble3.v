(** Reading a number text: which double it becomes. *)
From Coq Require Import ZArith Reals Lia Lra Psatz Floats.SpecFloat ZifyBool.
From Flocq Require Import Core.Core IEEE754.BinarySingleNaN.
From Verif Require Import Base ModelValue SpecText SpecBin ModelText ProofText1 ProofText2 ProofText5 SpecDouble ProofReal ProofDouble ProofDouble2.
Local Open Scope R_scope.

Notation fold10 := (fold_left (fun a c => a * 10 + (c - 48))%Z).
Lemma ten_R : dbl f_ten 10.
Proof. apply (of_Z_R 10). vm_compute. discriminate. Qed.
Lemma big_le : forall x, Rabs x <= bpow radix2 1000 -> Rabs x < big.
Proof. intros x H. eapply Rle_lt_trans; [exact H|]. apply bpow_lt. reflexivity. Qed.
Lemma int_small : forall z, (Z.abs z <= 2 ^ 53)%Z -> Rabs (IZR z) < big.
Proof. intros z H. rewrite <- abs_IZR. eapply Rle_lt_trans; [apply IZR_le; exact H|]. rewrite <- (bpow_Z 53) by lia. apply bpow_lt. reflexivity. Qed.

Lemma decimal_step : forall d a c, dbl d (IZR a) -> (0 <= a)%Z -> digit_char c -> (a * 10 + (c - 48) < 2 ^ 53)%Z ->
  dbl (f_floor (f_add (f_mul d f_ten) (f_of_Z (c - 48)))) (IZR (a * 10 + (c - 48))).
Proof.
  intros d a c D A C B. unfold digit_char in C.
  assert (E1 : RN (IZR a * 10) = IZR (a * 10)) by (rewrite <- mult_IZR; apply RN_id, format_int; lia).
  pose proof (mul_R _ _ _ _ D ten_R) as M. rewrite E1 in M. specialize (M (int_small (a * 10) ltac:(lia))).
  assert (Dc : dbl (f_of_Z (c - 48)) (IZR (c - 48))) by (apply of_Z_R; lia).
  assert (E2 : RN (IZR (a * 10) + IZR (c - 48)) = IZR (a * 10 + (c - 48))) by (rewrite <- plus_IZR; apply RN_id, format_int; lia).
  pose proof (add_R _ _ _ _ M Dc) as S. rewrite E2 in S. specialize (S (int_small (a * 10 + (c - 48)) ltac:(lia))).
  destruct (floor_R _ _ S) as (_ & F). rewrite Zfloor_IZR in F. exact F.
Qed.
Lemma decimal_loop_exact : forall ds d a pos c s, Forall digit_char (c :: ds) -> isdigit (hd_eof s) = false -> dbl d (IZR a) -> (0 <= a)%Z ->
  (fold10 (c :: ds) a < 2 ^ 53)%Z -> (0 <= pos)%Z -> (pos + Z.of_nat (length (c :: ds)) < 2 ^ 32)%Z ->
  exists d', decimal_loop d pos c (ds ++ s) = (d', (pos + Z.of_nat (length (c :: ds)))%Z, hd_eof s, tl s) /\ dbl d' (IZR (fold10 (c :: ds) a)).
Proof.
  induction ds as [|x ds IH]; intros d a pos c s Hd Hs D A B P0 P1; inversion_clear Hd as [|? ? Hc Hds].
  - cbn [fold_left length] in *. pose proof (decimal_step d a c D A Hc B) as St. cbn [app].
    assert (U : u32 (pos + 1) = (pos + 1)%Z) by (unfold u32; apply Z.mod_small; lia).
    destruct s as [|y s]; cbn [decimal_loop]; rewrite (digit_is c Hc); rewrite U.
    + eexists. split; [reflexivity|exact St].
    + cbn in Hs. eexists. split; [destruct s; cbn [decimal_loop]; rewrite Hs; reflexivity|exact St].
  - change (fold10 (c :: x :: ds) a) with (fold10 (x :: ds) (a * 10 + (c - 48))%Z) in *.
    assert (G : (a * 10 + (c - 48) <= fold10 (x :: ds) (a * 10 + (c - 48)))%Z) by (apply dec_fold_ge; auto; unfold digit_char in Hc; lia).
    cbn [app decimal_loop]. rewrite (digit_is c Hc). cbn [length] in *.
    assert (U : u32 (pos + 1) = (pos + 1)%Z) by (unfold u32; apply Z.mod_small; lia). rewrite U.
    destruct (IH (f_floor (f_add (f_mul d f_ten) (f_of_Z (c - 48)))) (a * 10 + (c - 48))%Z (pos + 1)%Z x s Hds Hs) as (d' & E & D'); [apply decimal_step; auto; lia|unfold digit_char in Hc; lia|exact B|lia|lia|].
    exists d'. split; [rewrite E; f_equal; f_equal; f_equal; cbn [length]; lia|exact D'].
Qed.
Lemma parse_unsigned_exact : forall r ds s, ds <> [] -> Forall digit_char ds -> isdigit (hd_eof s) = false -> (dec_value ds < 2 ^ 64)%Z -> at_pos r (ds ++ s) ->
  exists n, parse_unsigned r = (true, dec_value ds, n, mkR (tl s) (Some (hd_eof s))).
Proof.
  intros r [|c ds] s Hne Hd Hs Hv Hr; [congruence|]. unfold parse_unsigned. rewrite (next_at _ _ Hr). cbn [app tl src]. change (hd_eof (c :: ds ++ s)) with c.
  rewrite pu_loop_run by (auto; lia). eexists. reflexivity.
Qed.

(** The magnitude a text with a point or an exponent is read as. *)
Definition pow_real (L : libm) (x : Z) : R := real_of (lm_pow L (if (x <? 0)%Z then f_tenth else f_ten) (f_of_Z (Z.abs x))).
Definition read_as (L : libm) (n m : Z) (q : nat) (x : Z) (y : R) : Prop :=
  let b := RN (IZR n + RN (IZR m / 10 ^ q)) in
  (x = 0%Z /\ y = b) \/ x <> 0%Z /\ exists w, Rabs (w - powerRZ 10 x) <= / 10 ^ 13 * powerRZ 10 x /\ w = pow_real L x /\ y = RN (b * w).

Lemma frac_range : forall fp m q, frac_text fp m q -> (q <= 15)%nat -> 0 <= IZR m / 10 ^ q < 1.
Proof.
  intros fp m q [(-> & -> & ->)|(ds & _ & Ne & Fd & -> & ->)] Q; [cbn; lra|].
  destruct ds as [|c ds]; [congruence|]. 
  assert (B : (0 <= dec_value (c :: ds) < 10 ^ Z.of_nat (length (c :: ds)))%Z).
  { clear - Fd. split; [apply (dec_fold_ge (c :: ds) 0); auto; lia|]. induction (c :: ds) as [|y l IH] using rev_ind; [reflexivity|]. apply Forall_app in Fd as (H1 & H2). apply Forall_inv in H2. unfold digit_char in H2.
    rewrite dec_value_app1, app_length. cbn [length]. replace (Z.of_nat (length l + 1)) with (Z.succ (Z.of_nat (length l))) by lia. rewrite Z.pow_succ_r by lia. specialize (IH H1). lia. }
  assert (Pq : 0 < 10 ^ length (c :: ds)) by (apply pow_lt; lra).
  split; [apply Rmult_le_pos; [apply IZR_le; lia|apply Rlt_le, Rinv_0_lt_compat; exact Pq]|]. apply Rmult_lt_reg_r with (10 ^ length (c :: ds)); [exact Pq|]. unfold Rdiv. rewrite Rmult_assoc, Rinv_l, Rmult_1_l, Rmult_1_r by lra. rewrite <- pow10. apply IZR_lt. lia.
Qed.
Lemma base_range : forall n m q, (0 <= n < 2 ^ 52)%Z -> 0 <= IZR m / 10 ^ q < 1 -> IZR n <= RN (IZR n + RN (IZR m / 10 ^ q)) <= IZR n + 1 /\ 0 <= RN (IZR m / 10 ^ q) <= 1.
Proof.
  intros n m q N Q. assert (A : 0 <= RN (IZR m / 10 ^ q) <= 1) by (apply RN_bounds; [apply (format_int 0); lia|apply (format_int 1); lia|lra]).
  split; [|exact A]. rewrite <- plus_IZR. apply RN_bounds; [apply format_int; lia|apply format_int; lia|]. rewrite plus_IZR. lra.
Qed.

(** The number a text is read as. *)
Definition number_read (L : libm) (sign : bool) (n m : Z) (q : nat) (x : Z) (r : num) : Prop :=
  (m = 0 /\ x = 0 /\ r = if sign then int_num (- n) else NUInt n)%Z \/
  (m <> 0 \/ x <> 0)%Z /\ exists d y, r = dbl_num d /\ dbl d ((if sign then -1 else 1) * y) /\ read_as L n m q x y.
Lemma dbl_inj : forall a b v, dbl a v -> dbl b v -> v <> 0 -> a = b.
Proof.
  intros a b v A B Nz. destruct (dbl_lift _ _ A) as (x & <- & Fx & Ex). destruct (dbl_lift _ _ B) as (y & <- & Fy & Ey). f_equal.
  apply B2R_inj; [| |congruence].
  - apply is_finite_strict_B2R. rewrite Ex. exact Nz.
  - apply is_finite_strict_B2R. rewrite Ey. exact Nz.
Qed.

Lemma dbl_num_real : forall d, num_real (dbl_num d) = real_of d.
Proof. intros [s|s| |s m e]; try reflexivity. Qed.
Lemma dbl_num_nz : forall d v, dbl d v -> v <> 0 -> dbl_num d = NDbl d.
Proof.
  intros d v D Nz. destruct (dbl_finite _ _ D) as (_ & Re). destruct d as [s|s| |s m e]; try reflexivity.
  exfalso. apply Nz. rewrite <- Re. reflexivity.
Qed.

Section Read.
Variables (L : libm) (F : pflags).
Hypotheses (GL : good_libm L) (Hnp : precise F = false).

Lemma ten_exact : forall n, (0 <= n <= 22)%Z -> dbl (lm_pow L f_ten (f_of_Z n)) (IZR (10 ^ n)).
Proof. intros n H. rewrite <- (gl_exact L GL n H). apply finite_dbl. apply (gl_ten L GL n). lia. Qed.

(** The digits after the point. *)
Lemma parse_decimal_exact : forall r ds s, ds <> [] -> Forall digit_char ds -> (length ds <= 15)%nat -> isdigit (hd_eof s) = false -> at_pos r (ds ++ s) ->
  exists fr, parse_decimal L r = (fr, mkR (tl s) (Some (hd_eof s))) /\ dbl fr (RN (IZR (dec_value ds) / 10 ^ length ds)) /\ 0 <= IZR (dec_value ds) / 10 ^ length ds < 1.
Proof.
  intros r [|c ds] s Hne Hd Hl Hs Hr; [congruence|]. unfold parse_decimal. rewrite (next_at _ _ Hr). cbn [app tl src]. change (hd_eof (c :: ds ++ s)) with c.
  assert (B : (0 <= dec_value (c :: ds) < 10 ^ Z.of_nat (length (c :: ds)))%Z).
  { clear - Hd. split; [apply (dec_fold_ge (c :: ds) 0); auto; lia|]. induction (c :: ds) as [|y l IH] using rev_ind; [reflexivity|]. apply Forall_app in Hd as (H1 & H2). apply Forall_inv in H2. unfold digit_char in H2.
    rewrite dec_value_app1, app_length. cbn [length]. replace (Z.of_nat (length l + 1)) with (Z.succ (Z.of_nat (length l))) by lia. rewrite Z.pow_succ_r by lia. specialize (IH H1). lia. }
  assert (B2 : (10 ^ Z.of_nat (length (c :: ds)) <= 10 ^ 15)%Z) by (apply Z.pow_le_mono_r; lia). change (10 ^ 15)%Z with 1000000000000000%Z in B2.
  destruct (decimal_loop_exact ds (S754_zero false) 0 0 c s Hd Hs) as (d' & E & D'); [split; [reflexivity|split; reflexivity]|lia| |lia|lia|].
  { change (fold10 (c :: ds) 0%Z) with (dec_value (c :: ds)). lia. }
  rewrite E. rewrite Z.add_0_l. eexists. split; [reflexivity|]. change (fold10 (c :: ds) 0%Z) with (dec_value (c :: ds)) in D'.
  assert (Dp : dbl (lm_pow L f_ten (f_of_Z (Z.of_nat (length (c :: ds))))) (10 ^ length (c :: ds))) by (rewrite <- pow10; apply ten_exact; lia).
  assert (Pq : 0 < 10 ^ length (c :: ds)) by (apply pow_lt; lra).
  assert (Q : 0 <= IZR (dec_value (c :: ds)) / 10 ^ length (c :: ds) < 1).
  { split; [apply Rmult_le_pos; [apply IZR_le; lia|apply Rlt_le, Rinv_0_lt_compat; exact Pq]|]. apply Rmult_lt_reg_r with (10 ^ length (c :: ds)); [exact Pq|]. unfold Rdiv. rewrite Rmult_assoc, Rinv_l, Rmult_1_l, Rmult_1_r by lra. rewrite <- pow10. apply IZR_lt. lia. }
  split; [|exact Q]. apply div_R; [exact D'|exact Dp|lra|]. apply big_le. assert (N : 0 <= RN (IZR (dec_value (c :: ds)) / 10 ^ length (c :: ds)) <= 1).
  { apply RN_bounds; [apply (format_int 0); lia|apply (format_int 1); lia|lra]. }
  rewrite Rabs_pos_eq by lra. eapply Rle_trans; [apply N|]. rewrite bpow_Z by lia. apply IZR_le. vm_compute. discriminate.
Qed.

Lemma parse_double_exact : forall n neg r fp ep m q x rest, (0 <= n < 2 ^ 52)%Z -> frac_text fp m q -> exp_text ep x -> (ep = [] \/ x <> 0%Z) -> (q <= 15)%nat -> (-308 <= x <= 308)%Z ->
  (IZR n + 1) * powerRZ 10 x <= 12 / 10 * powerRZ 10 308 -> num_end rest -> at_pos r (fp ++ ep ++ rest) ->
  exists d y, parse_double L n neg r = Ok (VNum (dbl_num d), mkR (tl rest) (Some (hd_eof rest))) /\ dbl d ((if neg then -1 else 1) * y) /\ read_as L n m q x y.
Proof.
  intros n neg r fp ep m q x rest Hn Hf He Hz Hq Hx Hb Hr Ha.
  pose proof (frac_range _ _ _ Hf Hq) as Qr. destruct (base_range n m q Hn Qr) as (Br & Bf).
  assert (Fp : frac_part fp) by (destruct Hf as [(-> & _)|(ds & -> & A & B & _)]; [left|right]; eauto).
  assert (Ep : exp_part ep).
  { destruct He as [(-> & _)|(e & s & ds & -> & A & B & C & D)]; [left; reflexivity|right]. exists e, s, ds. repeat split; auto. destruct D as [([?|?] & _)|(? & _)]; auto. }
  assert (Dn : dbl (f_of_Z n) (IZR n)) by (apply of_Z_R; lia).
  unfold parse_double. cbn [large_fuel parse_large]. rewrite (next_at _ _ Ha), (frac_stop fp ep rest Fp Ep Hr). cbn [bind next cur].
  destruct (exp_stop ep rest Ep Hr) as (Es1 & Es2).
  set (b := RN (IZR n + RN (IZR m / 10 ^ q))) in *.
  assert (HF : exists d1 r2,
    (if (hd_eof (fp ++ ep ++ rest) =? 46)%Z
     then let '(c1, r1') := next (commit (mkR (tl (fp ++ ep ++ rest)) (Some (hd_eof (fp ++ ep ++ rest))))) in
          if isdigit c1 then let '(fr, r1'') := parse_decimal L r1' in Ok (f_add (f_of_Z n) fr, r1'') else Err
     else Ok (f_of_Z n, mkR (tl (fp ++ ep ++ rest)) (Some (hd_eof (fp ++ ep ++ rest))))) = Ok (d1, r2) /\
    at_pos r2 (ep ++ rest) /\ dbl d1 b).
  { destruct Hf as [(-> & -> & ->)|(fds & -> & Hne & Hfd & Em & Eq)].
    - cbn [app]. rewrite Es2. do 2 eexists. split; [reflexivity|]. split; [apply at_next|]. unfold b. replace (IZR 0 / 10 ^ 0) with (IZR 0) by (cbn; field). rewrite (RN_id (IZR 0)) by (apply (format_int 0); lia). rewrite Rplus_0_r, RN_id by (apply format_int; lia). exact Dn.
    - change (hd_eof ((46%Z :: fds) ++ ep ++ rest)) with 46%Z. change (46 =? 46)%Z with true. cbv iota.
      cbn [app tl]. unfold commit. cbn [src].
      rewrite (next_at (mkR (fds ++ ep ++ rest) None) _ (at_none _)).
      rewrite (hd_app_digit fds _ Hfd Hne).
      destruct (parse_decimal_exact (mkR (tl (fds ++ ep ++ rest)) (Some (hd_eof (fds ++ ep ++ rest)))) fds (ep ++ rest)) as (fr & E & Df & _); auto; [lia|apply at_next|]. rewrite E.
      do 2 eexists. split; [reflexivity|]. split; [apply at_next|]. rewrite <- Em, <- Eq in Df. apply add_R; [exact Dn|exact Df|]. fold b. apply big_le. rewrite Rabs_pos_eq by (apply Rle_trans with (IZR n); [apply IZR_le; lia|apply Br]).
      eapply Rle_trans; [apply Br|]. rewrite <- plus_IZR, bpow_Z by lia. apply IZR_le. apply Z.le_trans with (2 ^ 52)%Z; [lia|vm_compute; discriminate]. }
  destruct HF as (d1 & r2 & -> & Hr2 & Db). cbn [bind]. rewrite (next_at _ _ Hr2).
  assert (Fin : forall d2 y, dbl d2 y -> dbl (if neg then f_opp d2 else d2) ((if neg then -1 else 1) * y)).
  { intros d2 y D2. destruct neg; [replace (-1 * y) with (- y) by ring; apply opp_R; exact D2|rewrite Rmult_1_l; exact D2]. }
  destruct He as [(-> & ->)|(e & s & eds & -> & He & Hne & Hed & Hs)].
  - cbn [app]. destruct (num_stop flags0 rest Hr) as (_ & _ & ->). cbn [bind]. do 2 eexists. split; [reflexivity|]. split; [apply (Fin _ b); auto|]. left. auto.
  - change (hd_eof ((e :: s ++ eds) ++ rest)) with e. assert (is_e e = true) as -> by (unfold is_e; lia).
    cbn [app tl]. unfold commit. cbn [src]. rewrite <- app_assoc.
    assert (D0 : (0 <= dec_value eds)%Z) by (apply (dec_fold_ge eds 0); auto; lia).
    assert (Hsg : exists ng r5, read_sign (mkR (s ++ eds ++ rest) None) = (ng, r5) /\ at_pos r5 (eds ++ rest) /\ x = if ng then (- dec_value eds)%Z else dec_value eds).
    { destruct Hs as [([->| ->] & Ex)|(-> & Ex)]; cbn [app].
      - destruct (read_sign_pos (mkR (eds ++ rest) None) (eds ++ rest) (at_none _)) as (r' & H1 & H2);
          try (pose proof (digits_head eds rest Hne Hed) as Hh; unfold digit_char in Hh; lia). eauto.
      - destruct (read_sign_sgn (mkR (43%Z :: eds ++ rest) None) 43 (eds ++ rest) (at_none _)) as (r' & H1 & H2); auto. eauto.
      - destruct (read_sign_sgn (mkR (45%Z :: eds ++ rest) None) 45 (eds ++ rest) (at_none _)) as (r' & H1 & H2); auto. eauto. }
    destruct Hsg as (ng & r5 & -> & Hr5 & Ex). rewrite (next_at _ _ Hr5). rewrite (hd_app_digit eds rest Hed Hne).
    destruct (parse_unsigned_exact (mkR (tl (eds ++ rest)) (Some (hd_eof (eds ++ rest)))) eds rest) as (cn & ->); auto; [apply num_end_stop; auto|destruct ng; lia|apply at_next|]. cbn [bind].
    assert (Np : near_power (lm_pow L (if ng then f_tenth else f_ten) (f_of_Z (dec_value eds))) x).
    { destruct ng; subst x; [apply (gl_tenth L GL); lia|apply (gl_ten L GL); lia]. }
    destruct Np as (Fw & Nw). set (w := real_of (lm_pow L (if ng then f_tenth else f_ten) (f_of_Z (dec_value eds)))) in *.
    pose proof (p10_pos x) as Px. assert (W : 0 <= w <= (1 + / 10 ^ 13) * powerRZ 10 x) by (apply Rabs_le_inv in Nw; nra).
    assert (B0 : 0 <= b) by (apply Rle_trans with (IZR n); [apply IZR_le; lia|apply Br]).
    assert (Y : b * w <= IZR (2 ^ 53 - 1) * bpow radix2 971).
    { apply Rle_trans with ((IZR n + 1) * ((1 + / 10 ^ 13) * powerRZ 10 x)); [apply Rmult_le_compat; try apply W; try apply Br; lra|].
      replace ((IZR n + 1) * ((1 + / 10 ^ 13) * powerRZ 10 x)) with ((1 + / 10 ^ 13) * ((IZR n + 1) * powerRZ 10 x)) by ring.
      apply Rle_trans with ((1 + / 10 ^ 13) * (12 / 10 * powerRZ 10 308)); [apply Rmult_le_compat_l; [lra|exact Hb]|].
      apply Rle_trans with (13 / 10 * powerRZ 10 308); [pose proof (p10_pos 308); nra|]. rewrite p10_IZR, bpow_Z by lia. rewrite <- mult_IZR.
      apply Rmult_le_reg_r with 10; [lra|]. replace (13 / 10 * IZR (10 ^ 308) * 10) with (13 * IZR (10 ^ 308)) by field. rewrite <- !mult_IZR. apply IZR_le. vm_compute. discriminate. }
    assert (Dm : dbl (f_mul d1 (lm_pow L (if ng then f_tenth else f_ten) (f_of_Z (dec_value eds)))) (RN (b * w))).
    { apply mul_R; [exact Db|apply finite_dbl; exact Fw|]. fold w.
      assert (0 <= RN (b * w) <= IZR (2 ^ 53 - 1) * bpow radix2 971).
      { apply RN_bounds; [apply (format_int 0); lia|apply format_scaled; lia|]. split; [apply Rmult_le_pos; [exact B0|apply W]|exact Y]. }
      rewrite Rabs_pos_eq by lra. eapply Rle_lt_trans; [apply H|]. rewrite !bpow_Z, <- mult_IZR by lia. apply IZR_lt. vm_compute. reflexivity. }
    do 2 eexists. split; [reflexivity|]. split; [apply (Fin _ (RN (b * w))); auto|]. right. split; [destruct Hz; [discriminate|assumption]|]. exists w. split; [exact Nw|]. split; [|reflexivity].
    assert (Nx : x <> 0%Z) by (destruct Hz; [discriminate|assumption]). unfold w, pow_real. destruct ng; subst x.
    + replace (- dec_value eds <? 0)%Z with true by lia. replace (Z.abs (- dec_value eds)) with (dec_value eds) by lia. reflexivity.
    + replace (dec_value eds <? 0)%Z with false by lia. replace (Z.abs (dec_value eds)) with (dec_value eds) by lia. reflexivity.
Qed.

Lemma parse_number_exact : forall t r sign n m q x rest, parts_of t sign n m q x -> (0 <= n < 2 ^ 52)%Z -> (q <= 15)%nat -> (-308 <= x <= 308)%Z ->
  (IZR n + 1) * powerRZ 10 x <= 12 / 10 * powerRZ 10 308 -> num_end rest -> at_pos r (t ++ rest) ->
  exists u, parse_number L F r = Ok (VNum u, mkR (tl rest) (Some (hd_eof rest))) /\ number_read L sign n m q x u.
Proof.
  intros t r sign n m q x rest (ip & fp & ep & -> & (Id & En & Ih) & Hf & He & Zf & Ze) Hn Hq Hx Hb Hr Ha. unfold parse_number. rewrite Hnp.
  assert (Ine : ip <> []) by (destruct Ih as [->|(? & ? & -> & _)]; discriminate).
  assert (Fp : frac_part fp) by (destruct Hf as [(-> & _)|(ds & -> & A & B & _)]; [left|right]; eauto).
  assert (Ep : exp_part ep).
  { destruct He as [(-> & _)|(e & s & ds & -> & A & B & C & D)]; [left; reflexivity|right]. exists e, s, ds. repeat split; auto. destruct D as [([?|?] & _)|(? & _)]; auto. }
  rewrite <- !app_assoc in Ha.
  assert (Hs : exists r1, read_sign r = (sign, r1) /\ at_pos r1 (ip ++ fp ++ ep ++ rest)).
  { destruct sign; cbn [app] in Ha.
    - destruct (read_sign_sgn _ _ _ Ha) as (r' & H1 & H2); auto. eauto.
    - destruct (read_sign_pos _ _ Ha) as (r' & H1 & H2);
        try (pose proof (digits_head ip (fp ++ ep ++ rest) Ine Id) as Hh; unfold digit_char in Hh; lia). eauto. }
  destruct Hs as (r1 & -> & Hr1). rewrite (next_at _ _ Hr1). rewrite (hd_app_digit ip _ Id Ine). cbn [negb andb].
  destruct (parse_unsigned_exact (mkR (tl (ip ++ fp ++ ep ++ rest)) (Some (hd_eof (ip ++ fp ++ ep ++ rest)))) ip (fp ++ ep ++ rest)) as (cn & ->); auto; [apply frac_stop; auto|lia|apply at_next|].
  cbn [next cur negb orb]. rewrite <- En.
  destruct ((hd_eof (fp ++ ep ++ rest) =? 46)%Z || is_e (hd_eof (fp ++ ep ++ rest))) eqn:Eb.
  - destruct (parse_double_exact n sign (mkR (tl (fp ++ ep ++ rest)) (Some (hd_eof (fp ++ ep ++ rest)))) fp ep m q x rest Hn Hf He Ze Hq Hx Hb Hr (at_next _)) as (d & y & E & D & R).
    rewrite E. eexists. split; [reflexivity|]. right. split; [|eauto].
    destruct Zf as [Zf|Zf]; [|left; exact Zf]. destruct Ze as [Ze|Ze]; [|right; exact Ze]. exfalso. subst fp ep. cbn [app] in Eb.
    destruct (num_stop flags0 rest Hr) as (_ & E1 & E2). rewrite E1, E2 in Eb. discriminate.
  - apply orb_false_iff in Eb as (Eb1 & Eb2). destruct Hf as [(-> & Em & Eq)|(fds & -> & _)]; [|discriminate Eb1].
    destruct He as [(-> & Exx)|(e & s & eds & -> & He & _)]; [|change (hd_eof ([] ++ (e :: s ++ eds) ++ rest)) with e in Eb2; unfold is_e in Eb2; lia].
    cbn [app]. destruct sign.
    + replace (Z.testbit n 63) with false; [eexists; split; [reflexivity|left; auto]|]. symmetry. destruct (Z.eq_dec n 0) as [->|Nz]; [reflexivity|]. apply Z.bits_above_log2; [lia|]. apply Z.log2_lt_pow2; [lia|]. apply Z.lt_trans with (2 ^ 52)%Z; [lia|reflexivity].
    + eexists. split; [reflexivity|]. left. auto.
Qed.
(** The same number wherever the text stands. *)
Lemma number_read_inj : forall sign n m q x u u', (forall y, read_as L n m q x y -> y <> 0) ->
  number_read L sign n m q x u -> number_read L sign n m q x u' -> u = u'.
Proof.
  intros sign n m q x u u' Hy [(A & B & ->)|(A & d & y & -> & D & R)] [(A' & B' & ->)|(A' & d' & y' & -> & D' & R')]; try lia; [reflexivity|].
  f_equal. assert (Ey : y = y').
  { destruct R as [(X & ->)|(X & w & _ & -> & ->)], R' as [(X' & ->)|(X' & w' & _ & -> & ->)]; congruence. }
  subst y'. apply (dbl_inj d d' _ D D'). specialize (Hy y R). destruct sign; lra.
Qed.
Lemma parse_number_same : forall t sign n m q x, parts_of t sign n m q x -> (0 <= n < 2 ^ 52)%Z -> (q <= 15)%nat -> (-308 <= x <= 308)%Z ->
  (IZR n + 1) * powerRZ 10 x <= 12 / 10 * powerRZ 10 308 -> (forall y, read_as L n m q x y -> y <> 0) ->
  exists u, number_read L sign n m q x u /\
    forall r rest, num_end rest -> at_pos r (t ++ rest) -> parse_number L F r = Ok (VNum u, mkR (tl rest) (Some (hd_eof rest))).
Proof.
  intros t sign n m q x Pt Hn Hq Hx Hb Hy.
  destruct (parse_number_exact t (mkR (t ++ []) None) sign n m q x [] Pt Hn Hq Hx Hb I (at_none _)) as (u & _ & Nu).
  exists u. split; [exact Nu|]. intros r rest Hr Ha. destruct (parse_number_exact t r sign n m q x rest Pt Hn Hq Hx Hb Hr Ha) as (u' & E & Nu').
  rewrite E. rewrite (number_read_inj sign n m q x u' u Hy Nu' Nu). reflexivity.
Qed.
End Read.
