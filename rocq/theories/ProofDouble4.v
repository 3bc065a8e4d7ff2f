(** Writing a double, reading the text back and writing it again. *)
From Coq Require Import ZArith Reals Lia Lra Psatz Floats.SpecFloat ZifyBool.
From Flocq Require Import Core.Core IEEE754.BinarySingleNaN.
From Verif Require Import Base ModelValue SpecText SpecBin ModelText ProofText1 ProofText2 ProofText3 ProofText5 SpecDouble ProofReal ProofDouble ProofDouble2 ProofDouble3.
Local Open Scope R_scope.

(** *** Doubles of a given size are multiples of a power of two *)
Lemma format_multiple : forall v c, format v -> (-1022 <= c)%Z -> bpow radix2 c <= v -> exists M, v = IZR M * bpow radix2 (c - 52).
Proof.
  intros v c Fv C V. assert (Pc := bpow_gt_0 radix2 c). assert (Vp : 0 < v) by lra.
  assert (Mg : (c + 1 <= mag radix2 v)%Z). { apply mag_ge_bpow. replace (c + 1 - 1)%Z with c by lia. rewrite Rabs_pos_eq; lra. }
  unfold generic_format, F2R in Fv. cbn [Fnum Fexp] in Fv. set (M0 := Ztrunc (scaled_mantissa radix2 (FLT_exp (-1074) 53) v)) in *.
  set (ce := cexp radix2 (FLT_exp (-1074) 53) v) in *. assert (Ce : (c - 52 <= ce)%Z) by (unfold ce, cexp, FLT_exp; lia).
  exists (M0 * 2 ^ (ce - (c - 52)))%Z. rewrite Fv at 1. rewrite mult_IZR, <- bpow_Z by lia. rewrite Rmult_assoc, <- bpow_plus. do 2 f_equal. lia.
Qed.
Lemma RN_nearest : forall s g, format g -> Rabs (RN s - s) <= Rabs (g - s).
Proof. intros s g G. assert (N := round_N_pt radix2 (FLT_exp (-1074) 53) (fun x => negb (Z.even x)) s). destruct N as (_ & N). apply N. exact G. Qed.
Lemma RN_format : forall s, format (RN s).
Proof. intros s. apply generic_format_round; [apply FLT_exp_valid; exact Hp|apply valid_rnd_N]. Qed.
Lemma multiple_eq : forall a b g, 0 < g -> Rabs (IZR a * g - IZR b * g) < g -> a = b.
Proof.
  intros a b g G H. replace (IZR a * g - IZR b * g) with (IZR (a - b) * g) in H by (rewrite minus_IZR; ring). rewrite Rabs_mult, (Rabs_pos_eq g) in H by lra.
  assert (Rabs (IZR (a - b)) < 1) by (apply Rmult_lt_reg_r with g; lra). rewrite <- abs_IZR in H0. apply lt_IZR in H0. lia.
Qed.
(** A sum next to a double rounds to it. *)
Lemma round_back : forall v s n b, format v -> (1 <= b <= 40)%Z -> (2 ^ b <= n)%Z -> (n < 2 ^ 52)%Z -> IZR n <= s -> Rabs (v - s) < bpow radix2 (b - 53) -> RN s = v.
Proof.
  intros v s n b Fv B N N2 S D. assert (Pb := bpow_gt_0 radix2 (b - 53)). assert (Nb : bpow radix2 b <= IZR n) by (rewrite bpow_Z by lia; apply IZR_le; exact N).
  assert (E2 : bpow radix2 (b - 52) = 2 * bpow radix2 (b - 53)) by (replace (b - 52)%Z with (1 + (b - 53))%Z by lia; rewrite bpow_plus; reflexivity).
  assert (Eb : bpow radix2 b = 9007199254740992 * bpow radix2 (b - 53)). { replace b with (53 + (b - 53))%Z at 1 by lia. rewrite bpow_plus. f_equal. }
  assert (Rn : IZR n <= RN s). { rewrite <- (RN_id (IZR n)) at 1 by (apply format_int; lia). apply RN_le. exact S. }
  pose proof (RN_nearest s v Fv) as Ne. apply Rabs_lt_inv in D. assert (Nv : Rabs (RN s - v) < 2 * bpow radix2 (b - 53)).
  { replace (RN s - v) with ((RN s - s) + (s - v)) by ring. eapply Rle_lt_trans; [apply Rabs_triang|]. assert (Rabs (v - s) < bpow radix2 (b - 53)) by (apply Rabs_lt; lra). assert (Rabs (s - v) < bpow radix2 (b - 53)) by (apply Rabs_lt; lra). lra. }
  assert (Vb : bpow radix2 b <= v).
  { destruct (Rle_or_lt (bpow radix2 b) v) as [|Lt]; [assumption|exfalso]. destruct (format_multiple v (b - 1) Fv ltac:(lia)) as (M & EM).
    { assert (bpow radix2 (b - 1) * 2 = bpow radix2 b) by (replace b with (1 + (b - 1))%Z at 2 by lia; rewrite bpow_plus; cbn; ring). lra. }
    replace (b - 1 - 52)%Z with (b - 53)%Z in EM by lia. rewrite EM, Eb in Lt. apply Rmult_lt_reg_r in Lt; [|exact Pb]. apply lt_IZR in Lt.
    assert (IZR M <= IZR 9007199254740991) by (apply IZR_le; lia). rewrite EM in D. nra. }
  destruct (format_multiple v b Fv ltac:(lia) Vb) as (M & EM). destruct (format_multiple (RN s) b (RN_format s) ltac:(lia) ltac:(lra)) as (M' & EM').
  rewrite EM, EM' in Nv |- *. f_equal. f_equal. apply (multiple_eq M' M (bpow radix2 (b - 52))); [apply bpow_gt_0|]. rewrite E2 at 3. exact Nv.
Qed.
Lemma RN_rel : forall x, bpow radix2 (-1022) <= Rabs x -> Rabs (RN x - x) <= / 2 ^ 53 * Rabs x.
Proof.
  intros x H. assert (Nz : x <> 0). { intros ->. rewrite Rabs_R0 in H. pose proof (bpow_gt_0 radix2 (-1022)). lra. }
  assert (U := bpow_mag_gt radix2 x). assert (Lo := bpow_mag_le radix2 x Nz).
  assert (Mg : (-1021 <= mag radix2 x)%Z). { assert (-1022 + 1 <= mag radix2 x)%Z; [|lia]. apply mag_ge_bpow. replace (-1022 + 1 - 1)%Z with (-1022)%Z by lia. exact H. }
  eapply Rle_trans; [apply (RN_err x (mag radix2 x)); [exact Mg|lra]|].
  replace (mag radix2 x - 54)%Z with (-53 + (mag radix2 x - 1))%Z by lia. rewrite bpow_plus. apply Rmult_le_compat; try apply bpow_ge_0; [|exact Lo].
  rewrite bpow_inv by lia. change (- -53)%Z with (Z.of_nat 53). rewrite <- pow_IZR. lra.
Qed.
(** *** The text of a number of known size *)
Section Text.
Variables (L : libm) (utf8 : bool) (mp : nat).
Hypothesis (GL : good_libm L).
Notation p := (Nat.min mp 9).

Lemma unit_small : 0 < / 10 ^ p <= 1 /\ ((3 <= p)%nat -> / 10 ^ p <= / 1000).
Proof.
  split.
  - split; [apply Rinv_0_lt_compat, pow_lt; lra|]. rewrite <- Rinv_1. apply Rinv_le; [lra|]. apply pow_R1_Rle. lra.
  - intros P. apply Rinv_le; [lra|]. apply Rle_trans with (10 ^ 3); [lra|]. apply Rle_pow; [lra|exact P].
Qed.
Lemma plain_k : forall d k, log10_near L d k -> 101 / 10000 <= Rabs (real_of d) <= 999999999 / 10 -> (-3 < k < 8)%Z.
Proof.
  intros d k (_ & _ & A & B) (V0 & V1). split.
  - destruct (Z_lt_le_dec (-3) k) as [|C]; [assumption|exfalso]. assert (P : powerRZ 10 (k + 1) <= powerRZ 10 (-2)) by (apply p10_mono; lia). change (powerRZ 10 (-2)) with (/ (10 * (10 * 1))) in P. lra.
  - destruct (Z_lt_le_dec k 8) as [|C]; [assumption|exfalso]. assert (P : powerRZ 10 8 <= powerRZ 10 k) by (apply p10_mono; lia). rewrite (p10_IZR 8) in P by lia. change (10 ^ 8)%Z with 100000000%Z in P. lra.
Qed.
Lemma scaled_k : forall d k, log10_near L d k -> (Rabs (real_of d) <= 995 / 100000 \/ 1005 * 10 ^ 5 <= Rabs (real_of d)) -> plain_exp k = false.
Proof.
  intros d k (_ & _ & A & B) [V|V]; unfold plain_exp; destruct ((-3 <? k)%Z && (k <? 8)%Z) eqn:E; auto; exfalso; apply andb_prop in E as (E1 & E2).
  - assert (P : powerRZ 10 (-2) <= powerRZ 10 k) by (apply p10_mono; lia). change (powerRZ 10 (-2)) with (/ (10 * (10 * 1))) in P. lra.
  - assert (P : powerRZ 10 (k + 1) <= powerRZ 10 8) by (apply p10_mono; lia). rewrite (p10_IZR 8) in P by lia. change (10 ^ 8)%Z with 100000000%Z in P. lra.
Qed.
Lemma low_k : forall d k, log10_near L d k -> 2 / 10 * powerRZ 10 (-307) <= Rabs (real_of d) -> (-308 <= k)%Z.
Proof.
  intros d k (_ & _ & A & B) V. destruct (Z_le_gt_dec (-308) k) as [|C]; [assumption|exfalso]. assert (P : powerRZ 10 (k + 1) <= powerRZ 10 (-308)) by (apply p10_mono; lia).
  replace (-307)%Z with (-308 + 1)%Z in V by lia. rewrite powerRZ_add in V by lra. change (powerRZ 10 1) with (10 * 1) in V. pose proof (p10_pos (-308)). nra.
Qed.
Lemma high_k : forall d k, log10_near L d k -> Rabs (real_of d) <= 9 * powerRZ 10 307 -> (k <= 307)%Z.
Proof.
  intros d k (_ & _ & A & B) V. destruct (Z_le_gt_dec k 307) as [|C]; [assumption|exfalso]. assert (P : powerRZ 10 308 <= powerRZ 10 k) by (apply p10_mono; lia).
  replace 308%Z with (307 + 1)%Z in P by lia. rewrite powerRZ_add in P by lra. change (powerRZ 10 1) with (10 * 1) in P. pose proof (p10_pos 307). nra.
Qed.

(** What is written, for numbers that are not too small. *)
Lemma text_any : forall d k, finite d -> real_of d <> 0 -> log10_near L d k -> (plain_exp k = true \/ -308 <= k)%Z ->
  exists t z, write_double L utf8 mp d = Some t /\ digits_text mp t (Rlt_bool (real_of d) 0) z (dexp k) /\ (0 <= z)%Z /\ Rabs (IZR z * unit_of mp k - Rabs (real_of d)) <= 51 / 100 * unit_of mp k.
Proof.
  intros d k Fd Nz Lg K. pose proof (log_range _ _ _ Fd Nz Lg) as R. apply write_any; auto. intros Np. apply (gl_tenth L GL). destruct K as [K|K]; [congruence|lia].
Qed.
Lemma same_digits : forall z z0 u v, 0 < u -> Rabs (IZR z * u - v) <= 51 / 100 * u -> Rabs (IZR z0 * u - v) <= 48 / 100 * u -> z = z0.
Proof. intros z z0 u v U A B. apply (multiple_eq z z0 u U). apply Rabs_le_inv in A. apply Rabs_le_inv in B. apply Rabs_lt. lra. Qed.
(** Without exponent the digits make the text. *)
Lemma plain_text : forall t sign z, digits_text mp t sign z 0 -> t = dbl_text sign (z / 10 ^ Z.of_nat p) (z mod 10 ^ Z.of_nat p) p 0.
Proof.
  intros t sign z (n & m & x & E & N & M & [(-> & Ez)|(_ & H & _)]); [|congruence]. rewrite E. f_equal.
  - apply Z.div_unique with m; lia.
  - apply Z.mod_unique with n; lia.
Qed.
End Text.

(** *** Reading back *)
Lemma plain_units : forall mp k, (-3 < k < 8)%Z -> dexp k = 0%Z /\ unit_of mp k = / 10 ^ Nat.min mp 9 /\ plain_exp k = true.
Proof. intros mp k K. assert (P : plain_exp k = true) by (unfold plain_exp; lia). unfold dexp, unit_of, dexp. rewrite P. change (powerRZ 10 0) with 1. repeat split. unfold Rdiv. ring. Qed.
Lemma sign_sgn : forall s y, 0 < y -> Rlt_bool ((if s : bool then -1 else 1) * y) 0 = s /\ Rabs ((if s then -1 else 1) * y) = y.
Proof. intros [|] y Y; split; [apply Rlt_bool_true; lra|rewrite Rabs_left; lra|apply Rlt_bool_false; lra|rewrite Rabs_pos_eq; lra]. Qed.
Lemma sgn_value : forall a, a = (if Rlt_bool a 0 then -1 else 1) * Rabs a.
Proof. intros a. destruct (Rlt_bool_spec a 0); [rewrite Rabs_left by lra|rewrite Rabs_pos_eq by lra]; ring. Qed.
Section Back.
Variables (L : libm) (F : pflags) (utf8 : bool) (mp : nat) (E : serenv).
Hypotheses (GL : good_libm L) (Hnp : precise F = false) (By : doubles_by L mp E) (Hp3 : (3 <= mp)%nat).
Notation p := (Nat.min mp 9).

Lemma number_value : forall sign n m q r, (0 <= n < 2 ^ 52)%Z -> number_read L sign n m q 0 r -> num_real r = (if sign then -1 else 1) * RN (IZR n + RN (IZR m / 10 ^ q)).
Proof.
  intros sign n m q r N [(-> & _ & ->)|(_ & d & y & -> & D & R)].
  - replace (IZR 0 / 10 ^ q) with (IZR 0) by (unfold Rdiv; rewrite Rmult_0_l; reflexivity).
    rewrite (RN_id (IZR 0)) by (apply (format_int 0); lia). rewrite Rplus_0_r, RN_id by (apply format_int; lia). destruct sign; [|cbn [num_real]; ring]. unfold int_num.
    destruct (Z.eqb_spec (- n) 0) as [Z0|Z0]; cbn [num_real]; [replace n with 0%Z by lia; ring|rewrite opp_IZR; ring].
  - destruct (dbl_finite _ _ D) as (Fi & Re). rewrite dbl_num_real, Re. destruct R as [(_ & ->)|(X & _)]; [reflexivity|congruence].
Qed.
Lemma integer_text : forall (s : bool) n, (0 < n < 2 ^ 52)%Z -> ser_num E utf8 (if s then int_num (- n) else NUInt n) = dbl_text s n 0 p 0.
Proof.
  intros s n N. unfold dbl_text. destruct (strip_zeros 20 0 p) as [m' dg]. cbn [Z.eqb app]. rewrite !app_nil_r. destruct s; cbn [ser_num app]; [|reflexivity]. unfold int_num. replace (- n =? 0)%Z with false by lia. cbn [ser_num].
  unfold write_signed. destruct (Z.ltb_spec (- n) 0); [|lia]. rewrite Z.opp_involutive. unfold u64. rewrite Z.mod_small by lia. reflexivity.
Qed.

(** Between a ninetieth and a hundred million: the text survives. *)
Lemma plain_back : forall d, finite d -> / 90 <= Rabs (real_of d) <= 99999999 ->
  exists t u, write_double L utf8 mp d = Some t /\ (exists n m q, parts_of t (Rlt_bool (real_of d) 0) n m q 0) /\
    (forall r rest, num_end rest -> at_pos r (t ++ rest) -> parse_number L F r = Ok (VNum u, mkR (tl rest) (Some (hd_eof rest)))) /\ ser_num E utf8 u = t /\
      Rabs (num_real u - real_of d) <= 51 / 100 / 10 ^ p + / 10 ^ 8 /\ ((9 <= mp)%nat -> 2 ^ 23 <= Rabs (real_of d) -> num_real u = real_of d).
Proof.
  intros d Fd (V0 & V1). assert (Nz : real_of d <> 0) by (intros Z0; rewrite Z0, Rabs_R0 in V0; lra).
  destruct (gl_log L GL d Fd Nz) as (k & Lg). assert (K : (-3 < k < 8)%Z) by (apply (plain_k L d k Lg); lra).
  destruct (plain_units mp k K) as (De & Un & Pe). destruct (text_any L utf8 mp GL d k Fd Nz Lg (or_introl Pe)) as (t & z & Ew & Dt & Z0 & Cl). rewrite De in Dt. rewrite Un in Cl.
  set (s := Rlt_bool (real_of d) 0) in *. set (v := Rabs (real_of d)) in *.
  assert (Rd : real_of d = (if s then -1 else 1) * v) by apply sgn_value.
  destruct (digits_value mp t s z 0 ltac:(lia) Dt) as (n & m & q & x & Pt & N & M & Q & _ & [(Ex & EX)|(_ & H & _)]); [|congruence]. subst x.
  destruct (unit_small mp) as ((U0 & U1) & U3). specialize (U3 ltac:(lia)). assert (Pp : 0 < 10 ^ p) by (apply pow_lt; lra).
  assert (Fq : 0 <= IZR m / 10 ^ q < 1). { destruct Pt as (ip & fp & ep & _ & _ & Fr & _). apply (frac_range fp); [exact Fr|lia]. }
  set (f := IZR m / 10 ^ q) in *. set (X := IZR n + f) in *. set (y := RN (IZR n + RN f)) in *.
  destruct (base_range n m q ltac:(lia) Fq) as (By1 & By2). fold f in By1, By2. fold y in By1.
  assert (Xz : IZR z * / 10 ^ p = X) by (symmetry; exact EX). rewrite Xz in Cl.
  assert (Ef : Rabs (RN f - f) <= / 2 ^ 54). { assert (G := RN_err f 0 ltac:(lia)). change (bpow radix2 0) with 1 in G. rewrite Rabs_pos_eq in G by lra. specialize (G ltac:(lra)). rewrite bpow_inv in G by lia. change (- (0 - 54))%Z with (Z.of_nat 54) in G. rewrite <- pow_IZR in G. exact G. }
  assert (Ey : forall b, (0 <= b <= 40)%Z -> (n < 2 ^ b)%Z -> Rabs (y - X) <= / 2 ^ 54 + bpow radix2 (b - 54)).
  { intros b B Nb. replace (y - X) with ((y - (IZR n + RN f)) + (RN f - f)) by (unfold X; ring). eapply Rle_trans; [apply Rabs_triang|]. rewrite Rplus_comm. apply Rplus_le_compat; [exact Ef|].
    apply RN_err; [lia|]. assert (0 <= IZR n) by (apply IZR_le; lia). rewrite Rabs_pos_eq by lra. rewrite bpow_Z by lia. apply Rle_trans with (IZR (n + 1)); [rewrite plus_IZR; lra|apply IZR_le; lia]. }
  apply Rabs_le_inv in Cl.
  assert (Nn : (n < 100000000)%Z). { apply lt_IZR. unfold X in *. lra. }
  assert (Bk : forall b, (1 <= b <= 40)%Z -> (2 ^ b <= n)%Z -> 51 / 100 * / 10 ^ p + / 2 ^ 54 < bpow radix2 (b - 53) -> y = v).
  { intros b B Nb Hb. apply (round_back v (IZR n + RN f) n b); try lia; try lra.
    - pose proof (finite_dbl d Fd) as Dd. apply abs_R in Dd. apply dbl_format in Dd. apply Dd.
    - apply Rabs_le_inv in Ef. apply Rabs_lt. unfold X in *. lra. }
  assert (P789 : (p <= 7 \/ p = 8 \/ p = 9)%nat) by lia.
  assert (Ub : (p <= 7)%nat -> / 10 ^ 7 <= / 10 ^ p). { intros P7. apply Rinv_le; [exact Pp|]. apply Rle_pow; [lra|exact P7]. }
  assert (AB : Rabs (y - X) <= 48 / 100 * / 10 ^ p \/ y = v).
  { destruct P789 as [P7|[P8|P9]].
    - left. specialize (Ub P7). eapply Rle_trans; [apply (Ey 27%Z); lia|]. change (bpow radix2 (27 - 54)) with (/ 134217728). lra.
    - rewrite P8 in *. destruct (Z_lt_le_dec n (2 ^ 26)) as [C|C].
      + left. eapply Rle_trans; [apply (Ey 26%Z); lia|]. change (bpow radix2 (26 - 54)) with (/ 268435456). lra.
      + right. apply (Bk 26%Z); [lia|lia|]. change (bpow radix2 (26 - 53)) with (/ 134217728). lra.
    - rewrite P9 in *. destruct (Z_lt_le_dec n (2 ^ 23)) as [C|C].
      + left. eapply Rle_trans; [apply (Ey 23%Z); lia|]. change (bpow radix2 (23 - 54)) with (/ 2147483648). lra.
      + right. apply (Bk 23%Z); [lia|lia|]. change (bpow radix2 (23 - 53)) with (/ 1073741824). lra. }
  assert (Yr : 101 / 10000 <= y <= 999999999 / 10). { destruct AB as [A|A]; [apply Rabs_le_inv in A; split; lra|rewrite A; split; lra]. }
  assert (Ny : y > 0) by lra. destruct (sign_sgn s y Ny) as (Sg & Ab).
  destruct (parse_number_same L F GL Hnp t s n m q 0 Pt ltac:(lia) ltac:(lia) ltac:(lia)) as (u & Nr & Ep).
  { change (powerRZ 10 0) with 1. rewrite Rmult_1_r. assert (IZR n <= 1000000000) by (apply IZR_le; lia). assert (powerRZ 10 10 <= powerRZ 10 308) by (apply p10_mono; lia). rewrite (p10_IZR 10) in H0 by lia. change (10 ^ 10)%Z with 10000000000%Z in H0. lra. }
  { intros y1 [(_ & ->)|(H & _)]; [|congruence]. fold f. fold y. lra. }
  exists t, u. split; [exact Ew|]. split; [exists n, m, q; exact Pt|]. split; [exact Ep|]. pose proof (number_value s n m q u ltac:(lia) Nr) as Nv. change (RN (IZR n + RN (IZR m / 10 ^ q))) with y in Nv.
  split; [|split].
  - destruct Nr as [(Em & _ & Eu)|(_ & d' & y' & Eu & D' & R')].
    + rewrite Eu. assert (f = 0) by (unfold f; rewrite Em; unfold Rdiv; ring). assert (Ez : z = (n * 10 ^ Z.of_nat p)%Z).
      { apply eq_IZR. rewrite mult_IZR, pow10. replace (IZR z) with (IZR z * / 10 ^ p * 10 ^ p) by (field; lra). rewrite Xz. unfold X. rewrite H. ring. }
      rewrite (plain_text mp t s z Dt), Ez, Z.div_mul, Z.mod_mul by (pose proof (Z.pow_pos_nonneg 10 (Z.of_nat p)); lia). apply integer_text.
      assert (0 < n)%Z; [|lia]. apply lt_IZR. unfold X in *. rewrite H in *. lra.
    + assert (y' = y) by (destruct R' as [(_ & ->)|(H & _)]; [reflexivity|congruence]). subst y' u. destruct (dbl_finite _ _ D') as (Fd' & Rd'). rewrite (dbl_num_nz d' _ D') by (intros Z1; rewrite Z1, Rabs_R0 in Ab; lra). cbn [ser_num]. destruct Fd' as (Fd1 & Fd2). rewrite Fd2. apply By.
      destruct AB as [A|A].
      * assert (Nz' : real_of d' <> 0) by (rewrite Rd'; intros Z1; rewrite Z1, Rabs_R0 in Ab; lra).
        destruct (gl_log L GL d' (conj Fd1 Fd2) Nz') as (k' & Lg'). assert (K' : (-3 < k' < 8)%Z) by (apply (plain_k L d' k' Lg'); rewrite Rd', Ab; exact Yr).
        destruct (plain_units mp k' K') as (De' & Un' & Pe'). destruct (text_any L utf8 mp GL d' k' (conj Fd1 Fd2) Nz' Lg' (or_introl Pe')) as (t' & z' & Ew' & Dt' & Z0' & Cl'). rewrite De', Rd', Sg in Dt'. rewrite Un', Rd', Ab in Cl'.
        assert (z' = z). { apply (same_digits z' z (/ 10 ^ p) y U0 Cl'). rewrite Xz. rewrite Rabs_minus_sym. exact A. }
        subst z'. rewrite Ew'. f_equal. rewrite (plain_text mp t s z Dt). apply plain_text. exact Dt'.
      * assert (Ed : d' = d). { apply (dbl_inj d' d (real_of d)); [rewrite Rd, <- A; exact D'|apply finite_dbl; exact Fd|exact Nz]. } rewrite Ed. exact Ew.
  - rewrite Nv, Rd. replace ((if s then -1 else 1) * y - (if s then -1 else 1) * v) with ((if s then -1 else 1) * (y - v)) by ring. rewrite Rabs_mult.
    replace (Rabs (if s then -1 else 1)) with 1 by (destruct s; [rewrite Rabs_left by lra|rewrite Rabs_pos_eq by lra]; lra). rewrite Rmult_1_l.
    assert (G := Ey 27%Z ltac:(lia) ltac:(lia)). change (bpow radix2 (27 - 54)) with (/ 134217728) in G. apply Rabs_le_inv in G. unfold Rdiv at 2. apply Rabs_le. lra.
  - intros M9 V2. rewrite Nv, Rd. f_equal. assert (P9 : p = 9%nat) by lia. rewrite P9 in *. apply (Bk 23%Z); [lia| |change (bpow radix2 (23 - 53)) with (/ 1073741824); lra].
    assert (Zb : (8388608 * 10 ^ 9 <= z)%Z).
    { apply Z.lt_pred_le. apply lt_IZR. replace (IZR z) with (IZR z * / 10 ^ 9 * 10 ^ 9) by (field; lra). rewrite Xz. unfold Z.pred. rewrite plus_IZR, mult_IZR. change (IZR (10 ^ 9)) with (IZR 1000000000). lra. }
    assert (Xb : 8388608 <= X). { rewrite <- Xz. apply IZR_le in Zb. rewrite mult_IZR in Zb. change (IZR (10 ^ 9)) with (IZR 1000000000) in Zb. lra. }
    assert (8388608 - 1 < n)%Z; [|lia]. apply lt_IZR. rewrite minus_IZR. unfold X in Xb. lra.
Qed.
End Back.
