(** Reading number texts of any length: the relative error. *)
From Coq Require Import ZArith Reals Lia Lra Psatz Floats.SpecFloat ZifyBool.
From Flocq Require Import Core.Core IEEE754.BinarySingleNaN.
From Verif Require Import Base ModelValue SpecText SpecBin ModelText SpecAccept SpecDouble ProofText1 ProofText2 ProofText5 ProofReal ProofDouble ProofDouble2 ProofDouble3 ProofNear.
Local Open Scope R_scope.

Lemma fold10_split : forall ds a, fold10 ds a = (a * 10 ^ Z.of_nat (length ds) + dec_value ds)%Z.
Proof.
  induction ds as [|c ds IH] using rev_ind; intros a; [change (dec_value []) with 0%Z; cbn; lia|].
  rewrite fold_left_app, dec_value_app1, app_length. cbn [fold_left length]. rewrite IH.
  replace (Z.of_nat (length ds + 1)) with (Z.succ (Z.of_nat (length ds))) by lia. rewrite Z.pow_succ_r by lia. lia.
Qed.
Lemma dec_bound : forall ds, digits ds -> (0 <= dec_value ds < 10 ^ Z.of_nat (length ds))%Z.
Proof.
  induction ds as [|y l IH] using rev_ind; intros H; [cbn; lia|]. apply Forall_app in H as (H1 & H2). apply Forall_inv in H2. unfold digit_char in H2.
  rewrite dec_value_app1, app_length. cbn [length]. replace (Z.of_nat (length l + 1)) with (Z.succ (Z.of_nat (length l))) by lia. rewrite Z.pow_succ_r by lia. specialize (IH H1). lia.
Qed.

(** *** Chunks of digits *)
Lemma pu_split : forall ds a, digits ds -> (0 <= a < 2 ^ 64)%Z ->
  exists d1 d2 ok, ds = d1 ++ d2 /\ (fold10 d1 a < 2 ^ 64)%Z /\
    (ok = true /\ d2 = [] \/ ok = false /\ d2 <> [] /\ (2 ^ 60 <= fold10 d1 a /\ 2 ^ 64 <= fold10 ds a)%Z) /\
    forall s cnt, isdigit (hd_eof s) = false ->
    pu_loop a cnt (hd_eof (ds ++ s)) (tl (ds ++ s)) = (ok, fold10 d1 a, (cnt + Z.of_nat (length d1))%Z, hd_eof (d2 ++ s), tl (d2 ++ s)).
Proof.
  induction ds as [|c ds IH]; intros a H A.
  - exists [], [], true. split; [reflexivity|]. split; [apply A|]. split; [auto|]. intros s cnt Hs. cbn [app fold_left length]. replace (cnt + Z.of_nat 0)%Z with cnt by lia.
    destruct (tl s); cbn [pu_loop]; rewrite Hs; reflexivity.
  - inversion_clear H as [|? ? Hc Hds].
    destruct (Z_lt_le_dec (a * 10 + (c - 48)) (2 ^ 64)) as [Lt|Ge].
    + assert (U : u64 (a * 10 + (c - 48)) = (a * 10 + (c - 48))%Z) by (unfold u64, digit_char in *; apply Z.mod_small; lia).
      destruct (IH (a * 10 + (c - 48))%Z Hds ltac:(unfold digit_char in *; lia)) as (d1 & d2 & ok & E & B & K & R).
      exists (c :: d1), d2, ok. split; [rewrite E; reflexivity|]. split; [exact B|]. split; [exact K|]. intros s cnt Hs. specialize (R s (cnt + 1)%Z Hs).
      cbn [app tl length fold_left]. change (hd_eof (c :: ds ++ s)) with c. replace (cnt + Z.of_nat (S (length d1)))%Z with (cnt + 1 + Z.of_nat (length d1))%Z by lia. rewrite <- R.
      destruct (ds ++ s) as [|c' s'] eqn:Es; cbn [pu_loop]; rewrite (digit_is c Hc), U;
        replace (overflow_detection <? a)%Z with false by (change overflow_detection with 1844674407370955161%Z; unfold digit_char in *; lia);
        (replace (a * 10 + (c - 48) <? a)%Z with false by (unfold digit_char in *; lia)); reflexivity.
    + exists [], (c :: ds), false. split; [reflexivity|]. split; [apply A|]. split.
      { right. split; [reflexivity|]. split; [discriminate|]. cbn [fold_left] in *. unfold digit_char in Hc. split; [lia|]. pose proof (dec_fold_ge ds (a * 10 + (c - 48))%Z ltac:(lia) Hds). lia. }
      intros s cnt Hs. cbn [app tl length fold_left]. change (hd_eof (c :: ds ++ s)) with c. replace (cnt + Z.of_nat 0)%Z with cnt by lia.
      pose proof (pu_step_overflow a c A Hc Ge) as Ov. apply orb_prop in Ov.
      destruct (ds ++ s) as [|c' s'] eqn:Es; cbn [pu_loop]; rewrite (digit_is c Hc); destruct (overflow_detection <? a)%Z eqn:O; try reflexivity; destruct Ov as [Ov|Ov]; try discriminate Ov; rewrite Ov; reflexivity.
Qed.
Lemma parse_unsigned_split : forall ds, digits ds ->
  exists d1 d2 ok, ds = d1 ++ d2 /\ (dec_value d1 < 2 ^ 64)%Z /\
    (ok = true /\ d2 = [] \/ ok = false /\ d2 <> [] /\ (2 ^ 60 <= dec_value d1 /\ 2 ^ 64 <= dec_value ds)%Z) /\
    forall r s, isdigit (hd_eof s) = false -> at_pos r (ds ++ s) ->
    parse_unsigned r = (ok, dec_value d1, Z.of_nat (length d1), mkR (tl (d2 ++ s)) (Some (hd_eof (d2 ++ s)))).
Proof.
  intros ds H. destruct (pu_split ds 0 H ltac:(lia)) as (d1 & d2 & ok & E & B & K & R). exists d1, d2, ok. split; [exact E|]. split; [exact B|]. split; [exact K|].
  intros r s Hs Hr. unfold parse_unsigned. rewrite (next_at _ _ Hr). cbn [src]. rewrite (R s 0%Z Hs). reflexivity.
Qed.

(** *** The digits after the point *)
Notation du := (4 * ulp1).
Lemma dec_step_near : forall d a c e V, dbl d (IZR a) -> (0 <= a)%Z -> digit_char c -> near e (IZR a) (IZR V) -> (0 <= V)%Z -> 0 <= e -> e + du <= / 2 ->
  (V * 10 + (c - 48) < 10 ^ 300)%Z ->
  exists b, dbl (f_floor (f_add (f_mul d f_ten) (f_of_Z (c - 48)))) (IZR b) /\ (0 <= b)%Z /\ near (e + du) (IZR b) (IZR (V * 10 + (c - 48))).
Proof.
  intros d a c e V D A C N V0 E0 E B. pose proof C as C'. unfold digit_char in C'.
  assert (Vr : 0 <= IZR V) by (apply IZR_le; exact V0). assert (Cr : 0 <= IZR (c - 48)) by (apply IZR_le; lia).
  assert (S0 : near e (IZR a * 10 + IZR (c - 48)) (IZR (V * 10 + (c - 48)))).
  { rewrite plus_IZR, mult_IZR. apply near_sum; [|apply near_refl; lra]. destruct N as (N1 & N2). unfold near. split; lra. }
  assert (S1 : 0 <= IZR (V * 10 + (c - 48))) by (apply IZR_le; lia).
  destruct (Z_lt_le_dec (a * 10 + (c - 48)) (2 ^ 53)) as [Lt|Ge].
  - exists (a * 10 + (c - 48))%Z. split; [apply decimal_step; assumption|]. split; [lia|]. rewrite plus_IZR, mult_IZR. eapply near_mono; [exact S0|exact S1|lra].
  - assert (P : IZR (V * 10 + (c - 48)) <= powerRZ 10 300) by (rewrite p10_IZR by lia; apply IZR_le; lia).
    edestruct near_le as (_ & Up); [exact S0|lra|lra|]. pose proof top_10 as T.
    assert (Al : 4503599627370496 <= IZR a * 10) by (rewrite <- mult_IZR; apply IZR_le; lia).
    assert (C9 : IZR (c - 48) <= 9) by (apply IZR_le; lia).
    assert (F52 : format 4503599627370496) by (apply (format_int 4503599627370496); lia).
    assert (Tiny : bpow radix2 (-1022) <= 1) by (change 1 with (bpow radix2 0); apply bpow_le; lia).
    set (x1 := RN (IZR a * 10)).
    assert (X1 : 4503599627370496 <= x1 <= top) by (apply RN_bounds; [exact F52|apply generic_format_FLT_bpow; [exact Hp|lia]|lra]).
    assert (M : dbl (f_mul d f_ten) x1) by (apply mul_R; [exact D|apply ten_R|apply top_big; fold x1; lra]).
    assert (N1 : near (e + ulp1) (x1 + IZR (c - 48)) (IZR (V * 10 + (c - 48)))).
    { rewrite plus_IZR, mult_IZR. apply near_sum; [|apply near_refl; lra]. rewrite (Rplus_comm e). apply near_trans with (IZR a * 10); [apply near_RN; right; lra|]. destruct N as (n1 & n2). unfold near. split; lra. }
    edestruct near_le as (_ & Up1); [exact N1|lra|lra|].
    assert (Dc : dbl (f_of_Z (c - 48)) (IZR (c - 48))) by (apply of_Z_R; lia).
    set (x2 := RN (x1 + IZR (c - 48))).
    assert (X2 : 4503599627370496 <= x2 <= top) by (apply RN_bounds; [exact F52|apply generic_format_FLT_bpow; [exact Hp|lia]|lra]).
    assert (Ad : dbl (f_add (f_mul d f_ten) (f_of_Z (c - 48))) x2) by (apply add_R; [exact M|exact Dc|apply top_big; fold x2; lra]).
    exists (Zfloor x2). split; [apply (floor_R _ _ Ad)|]. split; [apply Zfloor_lub; lra|].
    replace (e + du) with (2 * ulp1 + (ulp1 + (e + ulp1))) by ring. apply near_trans with x2; [apply near_floor; lra|]. apply near_trans with (x1 + IZR (c - 48)); [apply near_RN; right; lra|exact N1].
Qed.
Lemma dec_loop_near : forall ds d a e V, digits ds -> dbl d (IZR a) -> (0 <= a)%Z -> near e (IZR a) (IZR V) -> (0 <= V)%Z -> 0 <= e -> e + INR (length ds) * du <= / 2 ->
  (fold10 ds V < 10 ^ 300)%Z ->
  exists d' b, dbl d' (IZR b) /\ (0 <= b)%Z /\ near (e + INR (length ds) * du) (IZR b) (IZR (fold10 ds V)) /\
    forall pos s, isdigit (hd_eof s) = false -> (0 <= pos)%Z -> (pos + Z.of_nat (length ds) < 2 ^ 32)%Z ->
    decimal_loop d pos (hd_eof (ds ++ s)) (tl (ds ++ s)) = (d', (pos + Z.of_nat (length ds))%Z, hd_eof s, tl s).
Proof.
  induction ds as [|c ds IH]; intros d a e V H D A N V0 E0 E B.
  - exists d, a. split; [exact D|]. split; [exact A|]. split; [cbn [length INR fold_left]; rewrite Rmult_0_l, Rplus_0_r; exact N|].
    intros pos s Hs P0 P1. cbn [app length]. replace (pos + Z.of_nat 0)%Z with pos by lia. destruct (tl s); cbn [decimal_loop]; rewrite Hs; reflexivity.
  - inversion_clear H as [|? ? Hc Hds]. cbn [length fold_left] in *. rewrite S_INR in *. pose proof (pos_INR (length ds)) as Pl.
    pose proof Hc as C'. unfold digit_char in C'. pose proof (dec_fold_ge ds (V * 10 + (c - 48))%Z ltac:(lia) Hds) as G.
    destruct (dec_step_near d a c e V D A Hc N V0 E0 ltac:(lra) ltac:(lia)) as (a' & D' & A' & N').
    destruct (IH _ a' (e + du) (V * 10 + (c - 48))%Z Hds D' A' N' ltac:(lia) ltac:(lra) ltac:(lra) B) as (d' & b & Db & Bp & Nb & R).
    exists d', b. split; [exact Db|]. split; [exact Bp|]. split; [replace (e + (INR (length ds) + 1) * du) with (e + du + INR (length ds) * du) by ring; exact Nb|].
    intros pos s Hs P0 P1. assert (U : u32 (pos + 1) = (pos + 1)%Z) by (unfold u32; apply Z.mod_small; lia).
    specialize (R (pos + 1)%Z s Hs ltac:(lia) ltac:(lia)). replace (pos + Z.of_nat (S (length ds)))%Z with (pos + 1 + Z.of_nat (length ds))%Z by lia. rewrite <- R.
    cbn [app tl]. change (hd_eof (c :: ds ++ s)) with c. destruct (ds ++ s) as [|c' s'] eqn:Es; cbn [decimal_loop]; rewrite (digit_is c Hc), U; reflexivity.
Qed.

Section Read.
Variable L : libm.
Hypothesis GL : good_libm L.
Notation pw := (2 * / 10 ^ 13).

Lemma ten_near : forall n, (0 <= n <= 300)%Z -> exists w, dbl (lm_pow L f_ten (f_of_Z n)) w /\ near pw w (powerRZ 10 n).
Proof. intros n H. eexists. apply near_pow. apply (gl_ten L GL). lia. Qed.
Lemma tenth_near : forall n, (0 <= n <= 300)%Z -> exists w, dbl (lm_pow L f_tenth (f_of_Z n)) w /\ near pw w (powerRZ 10 (- n)).
Proof. intros n H. eexists. apply near_pow. apply (gl_tenth L GL). lia. Qed.

Lemma parse_decimal_near : forall ds, digits ds -> (length ds <= 300)%nat ->
  exists fr v, dbl fr v /\ near (/ 10 ^ 12) v (IZR (dec_value ds) / 10 ^ length ds) /\
    (v = 0 \/ / (4 * powerRZ 10 300) <= v) /\
    forall r s, isdigit (hd_eof s) = false -> at_pos r (ds ++ s) -> parse_decimal L r = (fr, mkR (tl s) (Some (hd_eof s))).
Proof.
  intros ds H Hl. pose proof (dec_bound ds H) as B.
  assert (Li : INR (length ds) <= 300) by (rewrite INR_IZR_INZ; apply IZR_le; lia). pose proof (pos_INR (length ds)) as Lp.
  assert (B3 : (10 ^ Z.of_nat (length ds) <= 10 ^ 300)%Z) by (apply Z.pow_le_mono_r; lia).
  destruct (dec_loop_near ds (S754_zero false) 0 0 0 H) as (d' & a & D & A & N & R); [split; [reflexivity|split; reflexivity]|lia|apply near_refl; lra|lia|lra|lra| |].
  { change (fold10 ds 0%Z) with (dec_value ds). lia. }
  change (fold10 ds 0%Z) with (dec_value ds) in N. rewrite Rplus_0_l in N.
  destruct (ten_near (Z.of_nat (length ds)) ltac:(lia)) as (w & Dw & Nw).
  assert (P : 0 < powerRZ 10 (Z.of_nat (length ds))) by apply p10_pos.
  assert (P3 : powerRZ 10 (Z.of_nat (length ds)) <= powerRZ 10 300) by (apply p10_mono; lia).
  edestruct near_le as (W1 & W2); [exact Nw|lra|lra|].
  assert (V0 : 0 <= IZR (dec_value ds)) by (apply IZR_le; lia).
  assert (Q : near (INR (length ds) * du + pw) (IZR a / w) (IZR (dec_value ds) / powerRZ 10 (Z.of_nat (length ds)))) by (apply near_div; assumption).
  assert (Q0 : 0 <= IZR (dec_value ds) / powerRZ 10 (Z.of_nat (length ds)) <= 1).
  { split; [apply Rmult_le_pos; [exact V0|left; apply Rinv_0_lt_compat; exact P]|]. apply Rmult_le_reg_r with (powerRZ 10 (Z.of_nat (length ds))); [exact P|]. unfold Rdiv. rewrite Rmult_assoc, Rinv_l, Rmult_1_l, Rmult_1_r by lra.
    rewrite p10_IZR by lia. apply IZR_le. lia. }
  edestruct near_le as (Q1 & Q2); [exact Q|lra|lra|]. pose proof top_10 as T. pose proof (p10_pos 300) as P300.
  assert (Az : IZR a / w = 0 \/ / (2 * powerRZ 10 300) <= IZR a / w).
  { destruct (Z.eq_dec a 0) as [->|Nz]; [left; unfold Rdiv; ring|right]. assert (1 <= IZR a) by (apply IZR_le; lia).
    apply Rle_trans with (/ w); [apply Rinv_le; lra|]. unfold Rdiv. rewrite <- (Rmult_1_l (/ w)) at 1. apply Rmult_le_compat_r; [left; apply Rinv_0_lt_compat; lra|lra]. }
  pose proof tiny_10 as Ty.
  assert (T8 : / (8 * powerRZ 10 300) <= / (2 * powerRZ 10 300)) by (apply Rinv_le; lra).
  assert (Rn : near ulp1 (RN (IZR a / w)) (IZR a / w)) by (apply near_RN; destruct Az; [left; assumption|right; lra]).
  exists (f_div d' (lm_pow L f_ten (f_of_Z (Z.of_nat (length ds))))), (RN (IZR a / w)). split; [|split; [|split]].
  - apply div_R; [exact D|exact Dw|lra|]. apply top_big, RN_top. lra.
  - rewrite <- (p10_nat (length ds)). eapply near_mono; [eapply near_trans; [exact Rn|exact Q]|lra|]. lra.
  - destruct Az as [Z0|Z1]; [left; rewrite Z0; apply round_0, valid_rnd_N|right]. edestruct near_le as (R1 & _); [exact Rn|lra|lra|].
    replace (/ (4 * powerRZ 10 300)) with (/ (2 * powerRZ 10 300) / 2) by (field; lra). lra.
  - intros r s Hs Hr. unfold parse_decimal. rewrite (next_at _ _ Hr). cbn [src]. rewrite (R 0%Z s Hs) by lia. rewrite Z.add_0_l. reflexivity.
Qed.

(** *** The digits before the point *)
Notation ec := (3 * / 10 ^ 13).
Lemma chunk_near : forall d v V ds e, dbl d v -> near e v (IZR V) -> (10 ^ 18 <= V)%Z -> 0 <= e -> e + ec <= / 2 -> digits ds -> (dec_value ds < 2 ^ 64)%Z ->
  (fold10 ds V < 10 ^ 300)%Z ->
  exists v', dbl (f_floor (f_add (f_mul d (lm_pow L f_ten (f_of_Z (Z.of_nat (length ds))))) (f_of_Z (dec_value ds)))) v' /\ near (e + ec) v' (IZR (fold10 ds V)).
Proof.
  intros d v V ds e D N V18 E0 E Hd P B. pose proof (dec_bound ds Hd) as Pb. rewrite fold10_split in *.
  assert (Lp : (0 < 10 ^ Z.of_nat (length ds))%Z) by (apply Z.pow_pos_nonneg; lia).
  assert (Lb : (Z.of_nat (length ds) <= 300)%Z).
  { destruct (Z_le_gt_dec (Z.of_nat (length ds)) 300) as [Q|Q]; [exact Q|exfalso]. assert (10 ^ 300 <= 10 ^ Z.of_nat (length ds))%Z by (apply Z.pow_le_mono_r; lia). nia. }
  destruct (ten_near (Z.of_nat (length ds)) ltac:(lia)) as (w & Dw & Nw). pose proof (p10_pos (Z.of_nat (length ds))) as Pw.
  rewrite plus_IZR, mult_IZR in *. rewrite <- p10_IZR in * by lia. set (T := powerRZ 10 (Z.of_nat (length ds))) in *.
  assert (Vr : 10 ^ 18 <= IZR V) by (rewrite pow_IZR; apply IZR_le; exact V18).
  assert (Pr : 0 <= IZR (dec_value ds)) by (apply IZR_le; lia).
  assert (Tot : IZR V * T + IZR (dec_value ds) < powerRZ 10 300).
  { unfold T. rewrite !p10_IZR by lia. rewrite <- mult_IZR, <- plus_IZR. apply IZR_lt. exact B. }
  assert (T1 : 1 <= T) by (unfold T; rewrite p10_IZR by lia; apply IZR_le; lia).
  assert (VT : 10 ^ 18 <= IZR V * T) by nra.
  pose proof top_10 as Tp. pose proof (p10_pos 300) as P3.
  assert (Tiny : bpow radix2 (-1022) <= 1) by (change 1 with (bpow radix2 0); apply bpow_le; lia).
  (* the product *)
  assert (N1 : near (e + pw) (v * w) (IZR V * T)) by (apply near_mul; auto; lra).
  edestruct near_le as (M1 & M2); [exact N1|lra|lra|].
  assert (R1 : near ulp1 (RN (v * w)) (v * w)) by (apply near_RN; right; lra).
  assert (N2 : near (ulp1 + (e + pw)) (RN (v * w)) (IZR V * T)) by (eapply near_trans; eauto).
  assert (Dm : dbl (f_mul d (lm_pow L f_ten (f_of_Z (Z.of_nat (length ds))))) (RN (v * w))) by (apply mul_R; [exact D|exact Dw|apply top_big, RN_top; lra]).
  (* the digits *)
  assert (R2 : near ulp1 (RN (IZR (dec_value ds))) (IZR (dec_value ds))).
  { apply near_RN. destruct (Z.eq_dec (dec_value ds) 0) as [->|Nz]; [left; reflexivity|right]. assert (1 <= IZR (dec_value ds)) by (apply IZR_le; lia). lra. }
  assert (Dp : dbl (f_of_Z (dec_value ds)) (RN (IZR (dec_value ds)))).
  { apply norm_R. apply top_big, RN_top. split; [exact Pr|]. nra. }
  (* the sum *)
  assert (N3 : near (ulp1 + (e + pw)) (RN (v * w) + RN (IZR (dec_value ds))) (IZR V * T + IZR (dec_value ds))).
  { apply near_sum; [exact N2|]. eapply near_mono; [exact R2|exact Pr|lra]. }
  edestruct near_le as (M3 & M4); [exact N3|lra|lra|].
  assert (R3 : near ulp1 (RN (RN (v * w) + RN (IZR (dec_value ds)))) (RN (v * w) + RN (IZR (dec_value ds)))) by (apply near_RN; right; lra).
  pose proof (near_trans _ _ _ _ _ R3 N3) as N4. edestruct near_le as (M5 & M6); [exact N4|lra|lra|].
  assert (Ds : dbl (f_add (f_mul d (lm_pow L f_ten (f_of_Z (Z.of_nat (length ds))))) (f_of_Z (dec_value ds))) (RN (RN (v * w) + RN (IZR (dec_value ds))))).
  { apply add_R; [exact Dm|exact Dp|]. apply top_big, RN_top. lra. }
  destruct (floor_R _ _ Ds) as (_ & Df). eexists. split; [exact Df|].
  eapply near_mono; [eapply near_trans; [apply near_floor; lra|exact N4]|lra|]. lra.
Qed.

Lemma large_near : forall n ds d v V k, (length ds <= n)%nat -> digits ds -> dbl d v -> near ((INR k + 1) * ec) v (IZR V) ->
  (ds = [] /\ (k <= 15)%nat /\ 0 <= V \/ 10 ^ (18 + 19 * Z.of_nat k) <= V)%Z -> (fold10 ds V < 10 ^ 300)%Z ->
  exists d' v', dbl d' v' /\ near (16 * ec) v' (IZR (fold10 ds V)) /\
    forall fuel r s, isdigit (hd_eof s) = false -> (n < fuel)%nat -> at_pos r (ds ++ s) ->
    exists r', parse_large L fuel d r = Ok (d', r') /\ at_pos r' s.
Proof.
  induction n as [|n IH]; intros ds d v V k Hn Hd D N C B.
  - assert (ds = []) by (destruct ds; [reflexivity|cbn in Hn; lia]). subst ds. exists d, v. split; [exact D|].
    assert (K : (k <= 15)%nat /\ (0 <= V)%Z).
    { destruct C as [(_ & K & V0)|K]; [auto|]. cbn [fold_left] in B. split; [|pose proof (Z.pow_pos_nonneg 10 (18 + 19 * Z.of_nat k)); lia].
      assert (Q : (18 + 19 * Z.of_nat k < 300)%Z) by (apply (Z.pow_lt_mono_r_iff 10); lia). lia. }
    destruct K as (K & V0).
    split; [cbn [fold_left]; eapply near_mono; [exact N|apply IZR_le; exact V0|]; assert (INR k <= 15) by (rewrite INR_IZR_INZ; apply IZR_le; lia); lra|].
    intros [|f] r s Hs Hf Hr; [lia|]. cbn [parse_large]. cbn [app] in Hr. rewrite (next_at _ _ Hr), Hs. eexists. split; [reflexivity|apply at_next].
  - destruct ds as [|c ds]; [apply (IH [] d v V k) in D; auto; [|cbn; lia]; destruct D as (d' & v' & H1 & H2 & H3); exists d', v'; split; [exact H1|]; split; [exact H2|]; intros fuel r s Hs Hf Hr; apply H3; auto; lia|].
    destruct C as [(Q & _)|C]; [discriminate Q|].
    assert (V18 : (10 ^ 18 <= V)%Z) by (eapply Z.le_trans; [|exact C]; apply Z.pow_le_mono_r; lia).
    destruct (parse_unsigned_split (c :: ds) Hd) as (d1 & d2 & ok & Eq & P & K & R).
    assert (Ne : d1 <> []).
    { intros ->. cbn [app] in Eq. destruct K as [(_ & ->)|(_ & _ & Q & _)]; [discriminate Eq|]. change (dec_value []) with 0%Z in Q. lia. }
    pose proof Hd as Hd'. rewrite Eq in Hd'. apply Forall_app in Hd' as (Hd1 & Hd2).
    rewrite Eq in B |- *. rewrite fold_left_app in *.
    pose proof (dec_fold_ge d1 V ltac:(lia) Hd1) as G1. assert (V1 : (0 <= fold10 d1 V)%Z) by lia. pose proof (dec_fold_ge d2 _ V1 Hd2) as G2.
    assert (Kb : (k <= 14)%nat).
    { assert (Q : (18 + 19 * Z.of_nat k < 300)%Z) by (apply (Z.pow_lt_mono_r_iff 10); lia). lia. }
    assert (Kr : 0 <= INR k <= 14) by (split; [apply pos_INR|rewrite INR_IZR_INZ; apply IZR_le; lia]).
    destruct (chunk_near d v V d1 ((INR k + 1) * ec) D N V18 ltac:(lra) ltac:(lra) Hd1 P ltac:(lia)) as (v1 & D1 & N1).
    assert (Len : (length d2 <= n)%nat).
    { assert (Q : length (c :: ds) = length (d1 ++ d2)) by (rewrite Eq; reflexivity). rewrite app_length in Q. destruct d1; [congruence|]. cbn [length] in *. lia. }
    replace ((INR k + 1) * ec + ec) with ((INR (S k) + 1) * ec) in N1 by (rewrite S_INR; ring).
    destruct (IH d2 _ v1 (fold10 d1 V) (S k) Len Hd2 D1 N1) as (d' & v' & D' & N' & R').
    { destruct K as [(_ & ->)|(_ & _ & Q & _)]; [left; split; [reflexivity|]; split; [lia|exact V1]|right].
      rewrite fold10_split. pose proof (dec_bound d1 Hd1) as Pb.
      assert (L19 : (19 <= Z.of_nat (length d1))%Z).
      { assert (Q2 : (10 ^ 18 < 10 ^ Z.of_nat (length d1))%Z) by (change (10 ^ 18)%Z with 1000000000000000000%Z; change (2 ^ 60)%Z with 1152921504606846976%Z in Q; lia). apply Z.pow_lt_mono_r_iff in Q2; lia. }
      replace (18 + 19 * Z.of_nat (S k))%Z with ((18 + 19 * Z.of_nat k) + 19)%Z by lia. rewrite Z.pow_add_r by lia.
      assert (10 ^ 19 <= 10 ^ Z.of_nat (length d1))%Z by (apply Z.pow_le_mono_r; lia). pose proof (Z.pow_pos_nonneg 10 (18 + 19 * Z.of_nat k)). nia. }
    { exact B. }
    exists d', v'. split; [exact D'|]. split; [exact N'|]. intros [|f] r s Hs Hf Hr; [lia|]. cbn [parse_large]. rewrite (next_at _ _ Hr).
    assert (Hh : hd_eof ((d1 ++ d2) ++ s) = c) by (rewrite <- Eq; reflexivity). rewrite Hh. rewrite (digit_is c (Forall_inv Hd)).
    rewrite (R _ s Hs) by (rewrite Eq, <- Hh; apply at_next).
    assert (Fi : f_isinf (f_floor (f_add (f_mul d (lm_pow L f_ten (f_of_Z (Z.of_nat (length d1))))) (f_of_Z (dec_value d1)))) = false).
    { destruct D1 as (_ & Fin & _). destruct (f_floor _); try reflexivity. discriminate Fin. }
    rewrite Fi. apply R'; [exact Hs|lia|apply at_next].
Qed.
End Read.
