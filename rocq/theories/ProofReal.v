(** Doubles as real numbers: the arithmetic of SpecFloat is correctly rounded
    (Flocq). *)
From Coq Require Import ZArith Reals Lia Lra Psatz.
From Coq Require Import Floats.SpecFloat.
From Flocq Require Import Core.Core IEEE754.BinarySingleNaN.
From Verif Require Import Base ModelValue SpecBin.
From Verif Require ProofFloat.
Local Open Scope Z_scope.

Notation fR := (SF2R radix2).
Notation RN := (round radix2 (FLT_exp (-1074) 53) ZnearestE).
Definition Hp : Prec_gt_0 53 := eq_refl.
Definition Hm : Prec_lt_emax 53 1024 := eq_refl.
Notation bf := (binary_float 53 1024).
Global Existing Instance Hp.
Global Existing Instance Hm.

Lemma lift : forall x, is_double x -> exists b : bf, B2SF b = x.
Proof. intros x H. exists (SF2B x H). apply B2SF_SF2B. Qed.
Lemma fR_B : forall b : bf, fR (B2SF b) = B2R b.
Proof. intros b. apply SF2R_B2SF. Qed.
Lemma B_double : forall b : bf, is_double (B2SF b).
Proof. intros b. apply BinarySingleNaN.valid_binary_B2SF. Qed.
Lemma B_finite : forall b : bf, f_isfinite (B2SF b) = is_finite b.
Proof. intros [s|s| |s m e H]; reflexivity. Qed.

Lemma nearest_equiv : forall s m l, round_nearest_even m l = choice_mode mode_NE s m l.
Proof. intros s m l. destruct l as [|c]; [reflexivity|]. destruct c; try reflexivity. cbn. unfold Round.cond_incr. destruct (Z.even m); reflexivity. Qed.
Lemma round_aux_equiv : forall sx mx ex lx, SpecFloat.binary_round_aux 53 1024 sx mx ex lx = BinarySingleNaN.binary_round_aux 53 1024 mode_NE sx mx ex lx.
Proof.
  intros. unfold SpecFloat.binary_round_aux, BinarySingleNaN.binary_round_aux. destruct (shr_fexp _ _ _ _ _) as [mrs' e']. cbn. rewrite (nearest_equiv sx). reflexivity.
Qed.
Lemma round_equiv : forall s m e, SpecFloat.binary_round 53 1024 s m e = BinarySingleNaN.binary_round 53 1024 mode_NE s m e.
Proof. intros. unfold SpecFloat.binary_round, BinarySingleNaN.binary_round, shl_align_fexp. destruct (shl_align _ _ _) as [mz ez]. apply round_aux_equiv. Qed.
Lemma normalize_equiv : forall m e s, SpecFloat.binary_normalize 53 1024 m e s = B2SF (BinarySingleNaN.binary_normalize 53 1024 Hp Hm mode_NE m e s).
Proof. intros m e s. destruct m as [|p|p]; [reflexivity| |]; cbn; rewrite B2SF_SF2B; apply round_equiv. Qed.
Lemma mul_equiv : forall a b : bf, f_mul (B2SF a) (B2SF b) = B2SF (Bmult mode_NE a b).
Proof.
  intros a b. unfold f_mul. destruct a as [sx|sx| |sx mx ex Bx], b as [sy|sy| |sy my ey By]; try reflexivity. cbn. rewrite B2SF_SF2B. apply round_aux_equiv.
Qed.
Lemma add_equiv : forall a b : bf, f_add (B2SF a) (B2SF b) = B2SF (Bplus mode_NE a b).
Proof.
  intros a b. unfold f_add. destruct a as [sx|sx| |sx mx ex Bx], b as [sy|sy| |sy my ey By]; try reflexivity; try (cbn; destruct (Bool.eqb _ _); reflexivity). apply normalize_equiv.
Qed.
Lemma sub_equiv : forall a b : bf, SFsub 53 1024 (B2SF a) (B2SF b) = B2SF (Bminus mode_NE a b).
Proof.
  intros a b. destruct a as [sx|sx| |sx mx ex Bx], b as [sy|sy| |sy my ey By]; try reflexivity; try (cbn; destruct (Bool.eqb _ _); reflexivity).
  cbn. unfold Zminus. rewrite <- cond_Zopp_negb. apply normalize_equiv.
Qed.
Lemma div_equiv : forall a b : bf, f_div (B2SF a) (B2SF b) = B2SF (Bdiv mode_NE a b).
Proof.
  intros a b. unfold f_div. destruct a as [sx|sx| |sx mx ex Bx], b as [sy|sy| |sy my ey By]; try reflexivity; try (cbn; destruct (Bool.eqb _ _); reflexivity).
  cbn. rewrite B2SF_SF2B. destruct (SFdiv_core_binary _ _ _ _ _ _) as [[mz ez] lz]. apply round_aux_equiv.
Qed.

Local Open Scope R_scope.
(** A finite double of that value. *)
Definition dbl (x : spec_float) (v : R) : Prop := is_double x /\ f_isfinite x = true /\ fR x = v.
Notation big := (bpow radix2 1024).
Lemma dbl_lift : forall x v, dbl x v -> exists b : bf, B2SF b = x /\ is_finite b = true /\ B2R b = v.
Proof. intros x v (D & F & E). destruct (lift x D) as (b & B). exists b. rewrite <- B in F, E. rewrite B_finite in F. rewrite fR_B in E. auto. Qed.
Lemma dbl_B : forall (b : bf) v, is_finite b = true -> B2R b = v -> dbl (B2SF b) v.
Proof. intros b v F E. split; [apply B_double|]. split; [rewrite B_finite; exact F|rewrite fR_B; exact E]. Qed.

Lemma mul_R : forall x y a b, dbl x a -> dbl y b -> Rabs (RN (a * b)) < big -> dbl (f_mul x y) (RN (a * b)).
Proof.
  intros x y a b X Y L. destruct (dbl_lift _ _ X) as (bx & <- & Fx & Ex). destruct (dbl_lift _ _ Y) as (by_ & <- & Fy & Ey).
  rewrite mul_equiv. pose proof (Bmult_correct 53 1024 Hp Hm mode_NE bx by_) as C. rewrite Ex, Ey in C.
  change (round radix2 (SpecFloat.fexp 53 1024) (round_mode mode_NE) (a * b)) with (RN (a * b)) in C. rewrite (Rlt_bool_true _ _ L) in C.
  destruct C as (C1 & C2 & _). apply dbl_B; [rewrite C2, Fx, Fy; reflexivity|exact C1].
Qed.
Lemma add_R : forall x y a b, dbl x a -> dbl y b -> Rabs (RN (a + b)) < big -> dbl (f_add x y) (RN (a + b)).
Proof.
  intros x y a b X Y L. destruct (dbl_lift _ _ X) as (bx & <- & Fx & Ex). destruct (dbl_lift _ _ Y) as (by_ & <- & Fy & Ey).
  rewrite add_equiv. pose proof (Bplus_correct 53 1024 Hp Hm mode_NE bx by_ Fx Fy) as C. rewrite Ex, Ey in C.
  change (round radix2 (SpecFloat.fexp 53 1024) (round_mode mode_NE) (a + b)) with (RN (a + b)) in C. rewrite (Rlt_bool_true _ _ L) in C.
  destruct C as (C1 & C2 & _). apply dbl_B; assumption.
Qed.
Lemma sub_R : forall x y a b, dbl x a -> dbl y b -> Rabs (RN (a - b)) < big -> dbl (SFsub fprec femax x y) (RN (a - b)).
Proof.
  intros x y a b X Y L. destruct (dbl_lift _ _ X) as (bx & <- & Fx & Ex). destruct (dbl_lift _ _ Y) as (by_ & <- & Fy & Ey).
  change (SFsub fprec femax) with (SFsub 53 1024). rewrite sub_equiv. pose proof (Bminus_correct 53 1024 Hp Hm mode_NE bx by_ Fx Fy) as C. rewrite Ex, Ey in C.
  change (round radix2 (SpecFloat.fexp 53 1024) (round_mode mode_NE) (a - b)) with (RN (a - b)) in C. rewrite (Rlt_bool_true _ _ L) in C.
  destruct C as (C1 & C2 & _). apply dbl_B; assumption.
Qed.
Lemma div_R : forall x y a b, dbl x a -> dbl y b -> b <> 0 -> Rabs (RN (a / b)) < big -> dbl (f_div x y) (RN (a / b)).
Proof.
  intros x y a b X Y N L. destruct (dbl_lift _ _ X) as (bx & <- & Fx & Ex). destruct (dbl_lift _ _ Y) as (by_ & <- & Fy & Ey).
  rewrite div_equiv. pose proof (Bdiv_correct 53 1024 Hp Hm mode_NE bx by_) as C. rewrite Ex, Ey in C. specialize (C N).
  change (round radix2 (SpecFloat.fexp 53 1024) (round_mode mode_NE) (a / b)) with (RN (a / b)) in C. rewrite (Rlt_bool_true _ _ L) in C.
  destruct C as (C1 & C2 & _). apply dbl_B; [rewrite C2, Fx; reflexivity|exact C1].
Qed.
Lemma norm_R : forall z s, Rabs (RN (IZR z)) < big -> dbl (SpecFloat.binary_normalize fprec femax z 0 s) (RN (IZR z)).
Proof.
  intros z s L. change (SpecFloat.binary_normalize fprec femax) with (SpecFloat.binary_normalize 53 1024). rewrite normalize_equiv.
  pose proof (binary_normalize_correct 53 1024 Hp Hm mode_NE z 0 s) as C. cbv zeta in C.
  replace (F2R (Float radix2 z 0)) with (IZR z) in C by (unfold F2R; cbn; ring).
  change (round radix2 (SpecFloat.fexp 53 1024) (round_mode mode_NE) (IZR z)) with (RN (IZR z)) in C. rewrite (Rlt_bool_true _ _ L) in C.
  destruct C as (C1 & C2 & _). apply dbl_B; assumption.
Qed.

(** Rounding. *)
Notation format := (generic_format radix2 (FLT_exp (-1074) 53)).
Lemma RN_id : forall v, format v -> RN v = v.
Proof. intros. apply round_generic; [apply valid_rnd_N|assumption]. Qed.
Lemma dbl_format : forall x v, dbl x v -> format v /\ Rabs v < big.
Proof.
  intros x v H. destruct (dbl_lift _ _ H) as (b & _ & _ & <-). split; [apply (generic_format_B2R 53 1024 b)|apply abs_B2R_lt_emax].
Qed.
Lemma format_scaled : forall m e, (Z.abs m <= 2 ^ 53)%Z -> (-1074 <= e)%Z -> format (IZR m * bpow radix2 e).
Proof.
  intros m e M E. destruct (Z.eq_dec (Z.abs m) (2 ^ 53)) as [Eq|Ne].
  - assert (B : format (bpow radix2 (53 + e))) by (apply generic_format_FLT_bpow; [exact Hp|lia]).
    destruct (Z.abs_eq_or_opp m) as [A|A]; rewrite A in Eq.
    + rewrite Eq. rewrite bpow_plus in B. exact B.
    + replace m with (- (2 ^ 53))%Z by lia. rewrite opp_IZR, Ropp_mult_distr_l_reverse. apply generic_format_opp. rewrite bpow_plus in B. exact B.
  - apply generic_format_FLT. exists (Float radix2 m e); [reflexivity| |exact E]. change (Zpower radix2 53) with (2 ^ 53)%Z. cbn [Fnum]. lia.
Qed.
Lemma format_int : forall z, (Z.abs z <= 2 ^ 53)%Z -> format (IZR z).
Proof. intros z H. replace (IZR z) with (IZR z * bpow radix2 0) by (cbn; ring). apply format_scaled; lia. Qed.
Lemma RN_le : forall a b, a <= b -> RN a <= RN b.
Proof. intros. apply round_le; [apply FLT_exp_valid; exact Hp|apply valid_rnd_N|assumption]. Qed.
Lemma RN_bounds : forall a x b, format a -> format b -> a <= x <= b -> a <= RN x <= b.
Proof. intros a x b A B (H1 & H2). rewrite <- (RN_id a A), <- (RN_id b B). split; apply RN_le; rewrite ?(RN_id a A), ?(RN_id b B); assumption. Qed.
(** Rounding error: half a unit of the last place of a power of two above it. *)
Lemma RN_err : forall x k, (-1021 <= k)%Z -> Rabs x <= bpow radix2 k -> Rabs (RN x - x) <= bpow radix2 (k - 54).
Proof.
  intros x k K H. destruct (Req_dec x 0) as [->|Nz]; [rewrite round_0, Rminus_0_r, Rabs_R0 by apply valid_rnd_N; apply bpow_ge_0|].
  destruct H as [H|H].
  - eapply Rle_trans; [apply error_le_half_ulp; apply FLT_exp_valid; exact Hp|]. rewrite ulp_neq_0 by exact Nz.
    replace (k - 54)%Z with (-1 + (k - 53))%Z by lia. rewrite bpow_plus. apply Rmult_le_compat; [lra|apply bpow_ge_0|cbn; lra|].
    apply bpow_le. unfold cexp, FLT_exp. pose proof (mag_le_bpow radix2 x k Nz H). lia.
  - assert (F : format x).
    { assert (format (Rabs x)) by (rewrite H; apply generic_format_FLT_bpow; [exact Hp|lia]). apply generic_format_abs_inv. assumption. }
    rewrite RN_id by exact F. replace (x - x) with 0 by ring. rewrite Rabs_R0. apply bpow_ge_0.
Qed.

(** *** Integers, floor, modf *)
Lemma mantissa_small : forall s m e, is_double (S754_finite s m e) -> (Z.pos m < 2 ^ 53)%Z /\ (-1074 <= e <= 971)%Z.
Proof.
  intros s m e H. unfold is_double, valid_binary, bounded, canonical_mantissa in H. apply andb_prop in H as (H1 & H2).
  apply Zeq_bool_eq in H1. apply Zle_bool_imp_le in H2. unfold fexp, SpecFloat.emin, fprec, femax in *.
  pose proof (ProofFloat.digits_bounds m) as (_ & D). split; [|lia].
  eapply Z.lt_le_trans; [exact D|]. apply Z.pow_le_mono_r; lia.
Qed.
Lemma bpow_Z : forall e, (0 <= e)%Z -> bpow radix2 e = IZR (2 ^ e).
Proof. intros e H. rewrite <- (IZR_Zpower radix2) by exact H. reflexivity. Qed.
Lemma bpow_inv : forall e, (e <= 0)%Z -> bpow radix2 e = / IZR (2 ^ (- e)).
Proof. intros e H. rewrite <- bpow_Z by lia. rewrite <- bpow_opp. f_equal. lia. Qed.
Lemma floor_div : forall a b, (0 < b)%Z -> Zfloor (IZR a * / IZR b) = (a / b)%Z.
Proof. intros a b H. apply Zfloor_div. lia. Qed.

Lemma of_Z_R : forall z, (Z.abs z <= 2 ^ 53)%Z -> forall s, dbl (SpecFloat.binary_normalize fprec femax z 0 s) (IZR z).
Proof.
  intros z H s. assert (E : RN (IZR z) = IZR z) by (apply RN_id, format_int; exact H). rewrite <- E. apply norm_R. rewrite E.
  rewrite <- abs_IZR. eapply Rle_lt_trans; [apply IZR_le; exact H|]. rewrite <- (bpow_Z 53) by lia. apply bpow_lt. reflexivity.
Qed.
Lemma floor_R : forall x v, dbl x v -> f_floor_Z x = Some (Zfloor v) /\ dbl (f_floor x) (IZR (Zfloor v)).
Proof.
  intros x v H. pose proof H as (D & F & E). destruct x as [s|s| |s m e]; try discriminate; cbn [SF2R] in E.
  - subst v. rewrite Zfloor_IZR. split; [reflexivity|]. cbn [f_floor]. split; [reflexivity|]. split; reflexivity.
  - destruct (mantissa_small _ _ _ D) as (M & Eb). set (z := if s then Z.neg m else Z.pos m).
    assert (Ez : v = IZR z * bpow radix2 e) by (rewrite <- E; unfold F2R, z; cbn; destruct s; reflexivity).
    assert (Az : (Z.abs z < 2 ^ 53)%Z) by (unfold z; destruct s; cbn [Z.abs]; lia).
    assert (Fl : f_floor_Z (S754_finite s m e) = Some (Zfloor v)).
    { cbn [f_floor_Z]. fold z. f_equal. destruct (Z.leb_spec 0 e) as [E0|E0].
      - rewrite Ez, bpow_Z by exact E0. rewrite <- mult_IZR, Zfloor_IZR. reflexivity.
      - rewrite Ez, bpow_inv by lia. rewrite floor_div; [reflexivity|]. apply Z.pow_pos_nonneg; lia. }
    split; [exact Fl|]. unfold f_floor. rewrite Fl.
    destruct (Z.leb_spec 0 e) as [E0|E0].
    + assert (Iv : IZR (Zfloor v) = v) by (rewrite Ez, bpow_Z by exact E0; rewrite <- mult_IZR, Zfloor_IZR; reflexivity).
      destruct (dbl_format _ _ H) as (Fv & Bv). assert (Rv : RN (IZR (Zfloor v)) = v) by (rewrite Iv; apply RN_id; exact Fv).
      pose proof (norm_R (Zfloor v) s) as N. rewrite Rv in N. rewrite Iv. exact (N Bv).
    + apply of_Z_R. rewrite Ez, bpow_inv by lia. rewrite floor_div by (apply Z.pow_pos_nonneg; lia).
      assert (P : (1 <= 2 ^ (- e))%Z) by (pose proof (Z.pow_pos_nonneg 2 (- e)); lia).
      apply Z.abs_le. split.
      * apply Z.div_le_lower_bound; [lia|]. nia.
      * apply Z.div_le_upper_bound; [lia|]. nia.
Qed.
Lemma trunc_R : forall x v, dbl x v -> f_trunc_Z x = Some (Ztrunc v).
Proof.
  intros x v (D & F & E). destruct x as [s|s| |s m e]; try discriminate; cbn [SF2R] in E.
  - subst v. rewrite Ztrunc_IZR. reflexivity.
  - cbn [f_trunc_Z]. f_equal.
    assert (Q : (if (0 <=? e)%Z then (Z.pos m * 2 ^ e)%Z else (Z.pos m / 2 ^ (- e))%Z) = Zfloor (Rabs v)).
    { rewrite <- E. rewrite <- F2R_Zabs. destruct s; cbn [cond_Zopp Z.abs Z.opp].
      all: unfold F2R; cbn [Fnum Fexp]; destruct (Z.leb_spec 0 e) as [E0|E0];
        [rewrite bpow_Z by exact E0; rewrite <- mult_IZR, Zfloor_IZR; reflexivity|rewrite bpow_inv by lia; rewrite floor_div by (apply Z.pow_pos_nonneg; lia); reflexivity]. }
    rewrite Q. unfold Ztrunc.
    assert (Sg : s = true -> v < 0) by (intros ->; rewrite <- E; apply F2R_lt_0; cbn; lia).
    assert (Sp : s = false -> 0 <= v) by (intros ->; rewrite <- E; apply F2R_ge_0; cbn; lia).
    destruct s.
    + rewrite Rlt_bool_true by (apply Sg; reflexivity). rewrite Rabs_left by (apply Sg; reflexivity). reflexivity.
    + rewrite Rlt_bool_false by (apply Sp; reflexivity). rewrite Rabs_pos_eq by (apply Sp; reflexivity). reflexivity.
Qed.
Lemma trunc_pos : forall x v, dbl x v -> 0 <= v -> f_trunc_Z x = Some (Zfloor v).
Proof. intros x v H P. rewrite (trunc_R _ _ H). unfold Ztrunc. rewrite Rlt_bool_false by exact P. reflexivity. Qed.
Lemma to_u64_R : forall x v, dbl x v -> 0 <= v -> (Zfloor v < 2 ^ 64)%Z -> f_to_u64 x = Some (Zfloor v).
Proof.
  intros x v H P B. unfold f_to_u64. rewrite (trunc_pos _ _ H P).
  assert (0 <= Zfloor v)%Z by (apply Zfloor_lub; exact P).
  destruct (Z.leb_spec 0 (Zfloor v)); [|lia]. destruct (Z.ltb_spec (Zfloor v) (2 ^ 64)); [reflexivity|lia].
Qed.

(** The fraction of a double is exact. *)
Lemma frac_format : forall x v, dbl x v -> 0 <= v -> format (v - IZR (Zfloor v)).
Proof.
  intros x v H P. pose proof H as (D & F & E). destruct x as [s|s| |s m e]; try discriminate; cbn [SF2R] in E.
  - subst v. rewrite Zfloor_IZR. replace (0 - 0) with (IZR 0) by (cbn; ring). apply format_int. cbn. lia.
  - destruct (mantissa_small _ _ _ D) as (M & Eb). destruct s; [exfalso; assert (v < 0) by (rewrite <- E; apply F2R_lt_0; cbn; lia); lra|].
    cbn [cond_Zopp] in E. unfold F2R in E. cbn [Fnum Fexp] in E.
    destruct (Z.leb_spec 0 e) as [E0|E0].
    + rewrite <- E, bpow_Z by exact E0. rewrite <- mult_IZR, Zfloor_IZR. replace (_ - _) with (IZR 0) by (cbn; ring). apply format_int. cbn. lia.
    + rewrite <- E. rewrite bpow_inv by lia. rewrite floor_div by (apply Z.pow_pos_nonneg; lia).
      set (q := (2 ^ (- e))%Z). assert (Pq : (0 < q)%Z) by (apply Z.pow_pos_nonneg; lia).
      replace (IZR (Z.pos m) * / IZR q - IZR (Z.pos m / q)) with (IZR (Z.pos m mod q) * bpow radix2 e).
      * apply format_scaled; [|lia]. pose proof (Z.mod_pos_bound (Z.pos m) q Pq). pose proof (Z.mod_le (Z.pos m) q ltac:(lia) Pq). lia.
      * rewrite bpow_inv by lia. fold q. rewrite (Z.div_mod (Z.pos m) q) at 2 by lia. rewrite plus_IZR, mult_IZR. field.
        apply not_0_IZR. lia.
Qed.
Lemma modf_R : forall x v, dbl x v -> 0 <= v -> Rabs (IZR (Zfloor v)) <= bpow radix2 53 ->
  dbl (fst (f_modf x)) (v - IZR (Zfloor v)) /\ dbl (snd (f_modf x)) (IZR (Zfloor v)).
Proof.
  intros x v H P B. unfold f_modf. rewrite (trunc_pos _ _ H P). cbn [fst snd].
  assert (I : dbl (SpecFloat.binary_normalize fprec femax (Zfloor v) 0 false) (IZR (Zfloor v))).
  { apply of_Z_R. rewrite <- abs_IZR, bpow_Z in B by lia. apply le_IZR in B. exact B. }
  split; [|exact I]. pose proof (frac_format x v H P) as Ff. pose proof (RN_id _ Ff) as Er. rewrite <- Er. apply sub_R; [exact H|exact I|].
  rewrite Er. pose proof (Zfloor_lb v). pose proof (Zfloor_ub v). rewrite Rabs_pos_eq by lra. eapply Rlt_le_trans with 1; [lra|]. change 1 with (bpow radix2 0). apply bpow_le. lia.
Qed.
Lemma abs_R : forall x v, dbl x v -> dbl (f_abs x) (Rabs v).
Proof.
  intros x v (D & F & E). destruct x as [s|s| |s m e]; try discriminate; cbn [SF2R] in E; subst v; (split; [exact D|]); (split; [reflexivity|]); cbn.
  - rewrite Rabs_R0. reflexivity.
  - rewrite <- F2R_Zabs. destruct s; reflexivity.
Qed.
Lemma opp_R : forall x v, dbl x v -> dbl (f_opp x) (- v).
Proof.
  intros x v (D & F & E). destruct x as [s|s| |s m e]; try discriminate; cbn [SF2R] in E; subst v; (split; [exact D|]); (split; [reflexivity|]); cbn.
  - ring.
  - rewrite <- F2R_Zopp. destruct s; reflexivity.
Qed.
Lemma sign_R : forall x v, dbl x v -> f_lt x (S754_zero false) = Rlt_bool v 0.
Proof.
  intros x v (D & F & E). destruct x as [s|s| |s m e]; try discriminate; cbn [SF2R] in E; subst v.
  - rewrite Rlt_bool_false by lra. destruct s; reflexivity.
  - destruct s.
    + rewrite Rlt_bool_true by (apply F2R_lt_0; cbn; lia). reflexivity.
    + rewrite Rlt_bool_false by (apply F2R_ge_0; cbn; lia). reflexivity.
Qed.
