(** A C library that meets [good_libm], and numbers written with it. *)
From Coq Require Import ZArith Reals Lia Lra Psatz Floats.SpecFloat ZifyBool.
From Flocq Require Import Core.Core IEEE754.BinarySingleNaN.
From Verif Require Import Base ModelValue SpecKeyed SpecText SpecBin ModelText SpecDouble ProofReal ProofDouble ProofDouble2 ProofDouble3 ProofDouble4.
Local Open Scope Z_scope.

(** The number of decimal digits, less one. *)
Fixpoint ilog10 (fuel : nat) (n k p : Z) : Z :=
  match fuel with
  | O => k
  | S f => if n <? p * 10 then k else ilog10 f n (k + 1) (p * 10)
  end.
Definition scaled_int (m : positive) (e : Z) : Z := Z.pos m * 10 ^ 400 * 2 ^ Z.max e 0 / 2 ^ Z.max (- e) 0.
Definition ref_log10 (v : spec_float) : spec_float :=
  match v with
  | S754_zero _ => S754_infinity true
  | S754_finite false m e => f_of_Z (ilog10 800 (scaled_int m e) 0 1 - 400)
  | S754_infinity false => v
  | _ => S754_nan
  end.
(** Ten or a tenth to an integral power. *)
Definition ref_pow (b x : spec_float) : spec_float :=
  match f_floor_Z x with
  | None => S754_nan
  | Some k =>
    let k := if SFeqb b f_tenth then - k else k in
    if 0 <=? k then f_of_Z (10 ^ k) else f_div (f_of_Z 1) (f_of_Z (10 ^ - k))
  end.
Definition ref_libm : libm := mkLibm ref_pow ref_log10 (fun _ => S754_nan).

Lemma ilog10_spec : forall f n k p, 0 < p -> p <= n -> n < p * 10 ^ (Z.of_nat f + 1) ->
  exists j, ilog10 f n k p = k + j /\ 0 <= j /\ p * 10 ^ j <= n < p * 10 ^ (j + 1).
Proof.
  induction f as [|f IH]; intros n k p P L U; cbn [ilog10].
  - exists 0. change (Z.of_nat 0 + 1) with (0 + 1) in U. rewrite Z.add_0_r, Z.pow_0_r. lia.
  - destruct (Z.ltb_spec n (p * 10)) as [C|C].
    + exists 0. rewrite Z.add_0_r, Z.pow_0_r. change (10 ^ (0 + 1)) with 10. lia.
    + destruct (IH n (k + 1) (p * 10)) as (j & E & J & A & B); [lia|lia| |].
      { rewrite Nat2Z.inj_succ in U. replace (Z.succ (Z.of_nat f) + 1) with (Z.succ (Z.of_nat f + 1)) in U by lia. rewrite Z.pow_succ_r in U by lia. lia. }
      exists (j + 1). rewrite E. replace (j + 1 + 1) with (Z.succ (j + 1)) by lia. replace (j + 1) with (Z.succ j) in * by lia.
      rewrite (Z.pow_succ_r 10 (Z.succ j)) by lia. rewrite Z.pow_succ_r in * by lia. lia.
Qed.
Lemma ref_log : forall d, finite d -> real_of d <> 0%R -> exists k, log10_near ref_libm d k.
Proof.
  intros [s|s| |s m e] (Hd & Hf) Nz; try discriminate Hf; [exfalso; apply Nz; reflexivity|]. clear Nz.
  destruct (mantissa_small s m e Hd) as (M & Ee).
  set (N := scaled_int m e). set (D := 2 ^ Z.max (- e) 0).
  assert (D0 : 0 < D) by (apply Z.pow_pos_nonneg; lia).
  set (A := Z.pos m * 10 ^ 400 * 2 ^ Z.max e 0). assert (EN : N = A / D) by reflexivity.
  assert (L1 : 1 <= N).
  { rewrite EN. apply Z.div_le_lower_bound; [exact D0|]. rewrite Z.mul_1_r. unfold D, A. apply Z.le_trans with (2 ^ 1074); [apply Z.pow_le_mono_r; lia|].
    apply Z.le_trans with (1 * 10 ^ 400 * 1); [vm_compute; discriminate|]. apply Z.mul_le_mono_nonneg; [apply Z.mul_nonneg_nonneg; [lia|apply Z.pow_nonneg; lia]| |lia|].
    - apply Z.mul_le_mono_nonneg_r; [apply Z.pow_nonneg; lia|lia].
    - pose proof (Z.pow_pos_nonneg 2 (Z.max e 0)). lia. }
  assert (U1 : N < 1 * 10 ^ (Z.of_nat 800 + 1)).
  { rewrite EN, Z.mul_1_l. change (Z.of_nat 800 + 1) with 801. apply Z.le_lt_trans with A; [apply Z.div_le_upper_bound; [exact D0|]|].
    - assert (0 <= A) by (unfold A; apply Z.mul_nonneg_nonneg; [apply Z.mul_nonneg_nonneg; [lia|apply Z.pow_nonneg; lia]|apply Z.pow_nonneg; lia]). clearbody A D. rewrite <- (Z.mul_1_l A) at 1. apply Z.mul_le_mono_nonneg_r; lia.
    - apply Z.le_lt_trans with (2 ^ 53 * 10 ^ 400 * 2 ^ 971); [|vm_compute; reflexivity]. unfold A. apply Z.mul_le_mono_nonneg; [apply Z.mul_nonneg_nonneg; [lia|apply Z.pow_nonneg; lia]| |apply Z.pow_nonneg; lia|apply Z.pow_le_mono_r; lia].
      apply Z.mul_le_mono_nonneg_r; [apply Z.pow_nonneg; lia|lia]. }
  destruct (ilog10_spec 800 N 0 1 ltac:(lia) L1 U1) as (j & Ej & J0 & J1 & J2). rewrite Z.mul_1_l in J1, J2. rewrite Z.add_0_l in Ej.
  assert (J3 : j < 801). { apply (Z.pow_lt_mono_r_iff 10); [lia|lia|]. rewrite Z.mul_1_l in U1. change (Z.of_nat 800 + 1) with 801 in U1. lia. }
  set (k := j - 400). exists k. unfold log10_near.
  assert (El : lm_log10 ref_libm (f_abs (S754_finite s m e)) = f_of_Z k) by (cbn [lm_log10 ref_libm f_abs SFabs ref_log10]; fold N; rewrite Ej; reflexivity).
  rewrite El. destruct (dbl_finite _ _ (of_Z_R k ltac:(lia) false)) as (Fk & Rk). fold (f_of_Z k) in Fk, Rk. rewrite Rk.
  split; [exact Fk|]. split; [lra|].
  assert (V : Rabs (real_of (S754_finite s m e)) = (IZR A / IZR D / powerRZ 10 400)%R).
  { cbn [real_of]. rewrite Rabs_mult, (Rabs_pos_eq (powerRZ 2 e)) by (apply powerRZ_le; lra).
    replace (Rabs (IZR (if s then Z.neg m else Z.pos m))) with (IZR (Z.pos m)) by (rewrite <- abs_IZR; destruct s; reflexivity).
    unfold A, D. rewrite !mult_IZR. rewrite (p10_IZR 400) by lia. assert (NZ : IZR (10 ^ 400) <> 0%R) by (apply not_0_IZR; vm_compute; discriminate).
    destruct (Z_le_gt_dec 0 e) as [C|C].
    - rewrite Z.max_l, Z.max_r by lia. rewrite Z.pow_0_r. rewrite <- (bpow_Z e C). rewrite bpow_powerRZ. change (IZR radix2) with 2%R. field. exact NZ.
    - rewrite Z.max_r, Z.max_l by lia. rewrite Z.pow_0_r. assert (NZ2 : IZR (2 ^ - e) <> 0%R) by (apply not_0_IZR; pose proof (Z.pow_pos_nonneg 2 (- e)); lia).
      replace (powerRZ 2 e) with (/ IZR (2 ^ - e))%R; [field; auto|]. rewrite <- bpow_inv by lia. rewrite bpow_powerRZ. reflexivity. }
  rewrite V. pose proof (p10_pos 400) as P4. assert (Dr : (0 < IZR D)%R) by (apply IZR_lt; exact D0).
  assert (Q1 : (IZR (10 ^ j) <= IZR A / IZR D)%R).
  { apply Rmult_le_reg_r with (IZR D); [exact Dr|]. unfold Rdiv. rewrite Rmult_assoc, Rinv_l, Rmult_1_r by lra. rewrite <- mult_IZR. apply IZR_le.
    rewrite EN in J1. apply Z.le_trans with (A / D * D); [apply Z.mul_le_mono_nonneg_r; lia|]. rewrite Z.mul_comm. apply Z.mul_div_le. exact D0. }
  assert (Q2 : (IZR A / IZR D < IZR (10 ^ (j + 1)))%R).
  { apply Rmult_lt_reg_r with (IZR D); [exact Dr|]. unfold Rdiv. rewrite Rmult_assoc, Rinv_l, Rmult_1_r by lra. rewrite <- mult_IZR. apply IZR_lt.
    rewrite EN in J2. pose proof (Z.mul_succ_div_gt A D D0). apply Z.lt_le_trans with (D * Z.succ (A / D)); [lia|]. rewrite (Z.mul_comm (10 ^ (j + 1))). apply Z.mul_le_mono_nonneg_l; lia. }
  assert (Ek : forall i, (0 <= i) -> (IZR (10 ^ i) / powerRZ 10 400 = powerRZ 10 (i - 400))%R).
  { intros i Hi. rewrite <- p10_IZR by exact Hi. unfold Z.sub. rewrite powerRZ_add by lra. rewrite p10_opp. reflexivity. }
  assert (R1 : (powerRZ 10 k <= IZR A / IZR D / powerRZ 10 400)%R).
  { unfold k. rewrite <- Ek by lia. unfold Rdiv at 1 2. apply Rmult_le_compat_r; [apply Rlt_le, Rinv_0_lt_compat; exact P4|exact Q1]. }
  assert (R2 : (IZR A / IZR D / powerRZ 10 400 < powerRZ 10 (k + 1))%R).
  { replace (k + 1) with (j + 1 - 400) by (unfold k; lia). rewrite <- Ek by lia. apply Rmult_lt_compat_r; [apply Rinv_0_lt_compat; exact P4|exact Q2]. }
  pose proof (p10_pos k). pose proof (p10_pos (k + 1)). split; [|]; nra.
Qed.

(** The powers. *)
Lemma near_dbl : forall f v k, dbl f v -> (Rabs (v - powerRZ 10 k) <= / 10 ^ 13 * powerRZ 10 k)%R -> near_power f k.
Proof. intros f v k D H. destruct (dbl_finite _ _ D) as (A & B). split; [exact A|]. rewrite B. exact H. Qed.
Lemma whole_power : forall k, 0 <= k <= 308 -> dbl (f_of_Z (10 ^ k)) (RN (IZR (10 ^ k))) /\ (Rabs (RN (IZR (10 ^ k)) - IZR (10 ^ k)) <= / 2 ^ 53 * IZR (10 ^ k))%R.
Proof.
  intros k K. assert (P : (1 <= IZR (10 ^ k))%R) by (apply IZR_le; pose proof (Z.pow_pos_nonneg 10 k); lia).
  assert (G : (Rabs (RN (IZR (10 ^ k)) - IZR (10 ^ k)) <= / 2 ^ 53 * IZR (10 ^ k))%R).
  { rewrite <- (Rabs_pos_eq (IZR (10 ^ k))) at 3 by lra. apply RN_rel. rewrite Rabs_pos_eq by lra. apply Rle_trans with (bpow radix2 0); [apply bpow_le; lia|exact P]. }
  split; [|exact G]. apply norm_R. apply Rabs_le_inv in G.
  assert (U : (IZR (10 ^ k) <= IZR (10 ^ 308))%R) by (apply IZR_le; apply Z.pow_le_mono_r; lia).
  apply Rle_lt_trans with (3 / 2 * IZR (10 ^ 308))%R; [rewrite Rabs_pos_eq by lra; lra|].
  assert (Q : (IZR (3 * 10 ^ 308) < IZR (2 * 2 ^ 1024))%R) by (apply IZR_lt; vm_compute; reflexivity). rewrite !mult_IZR in Q. rewrite (bpow_Z 1024) by lia. lra.
Qed.
Lemma part_power : forall k, 0 < k <= 308 -> near_power (f_div (f_of_Z 1) (f_of_Z (10 ^ k))) (- k).
Proof.
  intros k K. destruct (whole_power k ltac:(lia)) as (D & G).
  assert (P : (1 <= IZR (10 ^ k))%R) by (apply IZR_le; pose proof (Z.pow_pos_nonneg 10 k); lia).
  assert (U : (IZR (10 ^ k) <= IZR (10 ^ 308))%R) by (apply IZR_le; apply Z.pow_le_mono_r; lia).
  set (b := IZR (10 ^ k)) in *. set (r := RN b) in *. apply Rabs_le_inv in G. assert (Rp : (9 / 10 * b <= r <= 11 / 10 * b)%R) by lra.
  assert (D1 : dbl (f_of_Z 1) 1) by (apply (of_Z_R 1); lia).
  set (x := (1 / r)%R). assert (Xr : (x * r = 1)%R) by (unfold x; field; lra). assert (Xp : (0 < x)%R) by (unfold x; apply Rdiv_lt_0_compat; lra).
  assert (Eb : powerRZ 10 (- k) = (/ b)%R) by (rewrite p10_opp, p10_IZR by lia; reflexivity).
  set (y := (/ b)%R) in *. assert (Yb : (y * b = 1)%R) by (unfold y; field; lra). assert (Yp : (0 < y)%R) by (unfold y; apply Rinv_0_lt_compat; lra).
  assert (C1 : (Rabs (x - y) <= 2 / 2 ^ 53 * y)%R).
  { assert (Ex : (x - y = x * y * (b - r))%R) by (replace (x * y * (b - r))%R with (x * (y * b) - y * (x * r))%R by ring; rewrite Yb, Xr; ring).
    assert (Xy : (x <= 12 / 10 * y)%R). { apply Rmult_le_reg_r with r; [lra|]. rewrite Xr. apply Rle_trans with (12 / 10 * (y * (9 / 10 * b)))%R; [replace (y * (9 / 10 * b))%R with (9 / 10 * (y * b))%R by ring; rewrite Yb; lra|]. rewrite Rmult_assoc. apply Rmult_le_compat_l; [lra|]. apply Rmult_le_compat_l; lra. }
    rewrite Ex, Rabs_mult, (Rabs_pos_eq (x * y)) by nra. apply Rle_trans with (x * y * (/ 2 ^ 53 * b))%R; [apply Rmult_le_compat_l; [nra|apply Rabs_le; lra]|].
    replace (x * y * (/ 2 ^ 53 * b))%R with (/ 2 ^ 53 * x * (y * b))%R by ring. rewrite Yb. lra. }
  assert (Yt : (powerRZ 10 (-308) <= y <= 1)%R).
  { rewrite <- Eb. change 1%R with (powerRZ 10 0). split; apply p10_mono; lia. }
  assert (C2 : (Rabs (RN x - x) <= / 2 ^ 50 * y)%R).
  { apply Rabs_le_inv in C1. destruct (Rle_or_lt (bpow radix2 (-1022)) x) as [Q|Q].
    - eapply Rle_trans; [apply RN_rel; rewrite Rabs_pos_eq by lra; exact Q|]. rewrite Rabs_pos_eq by lra. lra.
    - eapply Rle_trans; [apply (RN_err x (-1021)); [lia|rewrite Rabs_pos_eq by lra; apply Rle_trans with (bpow radix2 (-1022)); [lra|apply bpow_le; lia]]|].
      change (-1021 - 54) with (-1075). apply Rle_trans with (/ 2 ^ 50 * powerRZ 10 (-308))%R; [|apply Rmult_le_compat_l; lra].
      rewrite bpow_inv by lia. change (powerRZ 10 (-308)) with (powerRZ 10 (- (308))). rewrite p10_opp, p10_IZR by lia. change (- -1075) with 1075.
      rewrite <- Rinv_mult. apply Rinv_le; [assert (0 < IZR (10 ^ 308))%R by (apply IZR_lt; reflexivity); lra|]. rewrite (pow_IZR 2 50), <- mult_IZR. apply IZR_le. vm_compute. discriminate. }
  assert (Dd : dbl (f_div (f_of_Z 1) (f_of_Z (10 ^ k))) (RN x)).
  { apply div_R; [exact D1|exact D|lra|]. fold x. apply Rabs_le_inv in C1. apply Rabs_le_inv in C2.
    apply Rle_lt_trans with 4%R; [apply Rabs_le; lra|]. apply Rlt_trans with (bpow radix2 3); [cbn; lra|apply bpow_lt; reflexivity]. }
  apply (near_dbl _ _ _ Dd). rewrite Eb. fold y. apply Rabs_le_inv in C1. apply Rabs_le_inv in C2. apply Rabs_le. lra.
Qed.
Lemma power_near : forall k, -308 <= k <= 308 -> near_power (if 0 <=? k then f_of_Z (10 ^ k) else f_div (f_of_Z 1) (f_of_Z (10 ^ - k))) k.
Proof.
  intros k K. destruct (Z.leb_spec 0 k) as [C|C].
  - destruct (whole_power k ltac:(lia)) as (D & G). apply (near_dbl _ _ _ D). rewrite p10_IZR by lia. eapply Rle_trans; [exact G|].
    apply Rmult_le_compat_r; [apply IZR_le; pose proof (Z.pow_pos_nonneg 10 k); lia|lra].
  - replace k with (- - k) at 2 by lia. apply part_power. lia.
Qed.
Lemma pow_arg : forall b k, -308 <= k <= 308 -> ref_pow b (f_of_Z k) =
  let k := if SFeqb b f_tenth then - k else k in if 0 <=? k then f_of_Z (10 ^ k) else f_div (f_of_Z 1) (f_of_Z (10 ^ - k)).
Proof.
  intros b k K. unfold ref_pow. destruct (floor_R _ _ (of_Z_R k ltac:(lia) false)) as (H & _). unfold f_of_Z at 1. rewrite H, Zfloor_IZR. reflexivity.
Qed.
Lemma ref_good : good_libm ref_libm.
Proof.
  split.
  - reflexivity.
  - exact ref_log.
  - intros k K. cbn [lm_pow ref_libm]. rewrite pow_arg by exact K. change (SFeqb dbl_tenth f_tenth) with true. cbv zeta iota. apply power_near. lia.
  - intros n K. cbn [lm_pow ref_libm]. rewrite pow_arg by lia. change (SFeqb dbl_ten f_tenth) with false. cbv zeta iota. apply power_near. lia.
  - intros n K. cbn [lm_pow ref_libm]. rewrite pow_arg by lia. change (SFeqb dbl_ten f_tenth) with false. cbv zeta iota. replace (0 <=? n) with true by lia.
    destruct (whole_power n ltac:(lia)) as (D & _). destruct (dbl_finite _ _ D) as (_ & E). rewrite E. apply RN_id.
    replace (10 ^ n) with (5 ^ n * 2 ^ n) by (rewrite <- Z.pow_mul_l; reflexivity). rewrite mult_IZR, <- bpow_Z by lia. apply format_scaled; [|lia].
    rewrite Z.abs_eq by (apply Z.pow_nonneg; lia). apply Z.le_trans with (5 ^ 22); [apply Z.pow_le_mono_r; lia|vm_compute; discriminate].
Qed.
