(** Relative distance of reals, and how it grows in floating point operations. *)
From Coq Require Import ZArith Reals Lia Lra Psatz Floats.SpecFloat ZifyBool.
From Flocq Require Import Core.Core Relative IEEE754.BinarySingleNaN.
From Verif Require Import Base ModelValue ModelText SpecDouble ProofReal ProofDouble ProofDouble2.
Local Open Scope R_scope.

(** [v] is [x] up to a factor of at most [exp e]. *)
Definition near (e v x : R) : Prop := x * exp (- e) <= v <= x * exp e.

Lemma exp_ge1 : forall e, 1 + e <= exp e.
Proof. intros e. destruct (Req_dec e 0) as [->|N]; [rewrite exp_0; lra|]. left. apply exp_ineq1. exact N. Qed.
Lemma exp_inv : forall e, exp e * exp (- e) = 1.
Proof. intros e. rewrite <- exp_plus. replace (e + - e) with 0 by ring. apply exp_0. Qed.
Lemma exp_2 : forall e, 0 <= e <= / 2 -> exp e <= 2.
Proof. intros e H. pose proof (exp_ge1 (- e)). pose proof (exp_inv e). pose proof (exp_pos e). nra. Qed.
Lemma exp_mono : forall a b, a <= b -> exp a <= exp b.
Proof. intros a b [H| ->]; [left; apply exp_increasing; exact H|lra]. Qed.

Lemma near_refl : forall e x, 0 <= e -> 0 <= x -> near e x x.
Proof. intros e x E X. unfold near. pose proof (exp_ge1 e). pose proof (exp_mono (- e) 0 ltac:(lra)) as Q. rewrite exp_0 in Q. split; nra. Qed.
Lemma near_nonneg : forall e v x, near e v x -> 0 <= x -> 0 <= v.
Proof. intros e v x (H & _) X. pose proof (exp_pos (- e)). nra. Qed.
Lemma near_mono : forall e e' v x, near e v x -> 0 <= x -> e <= e' -> near e' v x.
Proof. intros e e' v x (A & B) X E. pose proof (exp_mono _ _ E). pose proof (exp_mono (- e') (- e) ltac:(lra)). split; nra. Qed.
Lemma near_trans : forall e e' a b c, near e a b -> near e' b c -> near (e + e') a c.
Proof.
  intros e e' a b c (A1 & A2) (B1 & B2). unfold near. rewrite Ropp_plus_distr, !exp_plus. pose proof (exp_pos e). pose proof (exp_pos (- e)). split.
  - apply Rle_trans with (b * exp (- e)); [|exact A1]. replace (c * (exp (- e) * exp (- e'))) with (c * exp (- e') * exp (- e)) by ring. apply Rmult_le_compat_r; lra.
  - apply Rle_trans with (b * exp e); [exact A2|]. replace (c * (exp e * exp e')) with (c * exp e' * exp e) by ring. apply Rmult_le_compat_r; lra.
Qed.
Lemma near_sum : forall e a b x y, near e a x -> near e b y -> near e (a + b) (x + y).
Proof. intros e a b x y (A1 & A2) (B1 & B2). unfold near. rewrite !Rmult_plus_distr_r. split; lra. Qed.
Lemma near_mul : forall e e' a b x y, 0 <= x -> 0 <= y -> near e a x -> near e' b y -> near (e + e') (a * b) (x * y).
Proof.
  intros e e' a b x y X Y A B. pose proof (near_nonneg _ _ _ A X) as A0. pose proof (near_nonneg _ _ _ B Y) as B0. destruct A as (A1 & A2), B as (B1 & B2).
  unfold near. rewrite Ropp_plus_distr, !exp_plus. pose proof (exp_pos e). pose proof (exp_pos (- e)). pose proof (exp_pos e'). pose proof (exp_pos (- e')). split.
  - replace (x * y * (exp (- e) * exp (- e'))) with ((x * exp (- e)) * (y * exp (- e'))) by ring. apply Rmult_le_compat; auto; apply Rmult_le_pos; lra.
  - replace (x * y * (exp e * exp e')) with ((x * exp e) * (y * exp e')) by ring. apply Rmult_le_compat; auto.
Qed.
Lemma near_inv : forall e a x, 0 < x -> near e a x -> near e (/ a) (/ x).
Proof.
  intros e a x X (A1 & A2). pose proof (exp_pos e). pose proof (exp_pos (- e)).
  assert (P : 0 < x * exp (- e)) by (apply Rmult_lt_0_compat; lra). assert (Pa : 0 < a) by lra.
  assert (E1 : / x * exp (- e) = / (x * exp e)) by (rewrite exp_Ropp; field; split; lra).
  assert (E2 : / x * exp e = / (x * exp (- e))) by (rewrite exp_Ropp; field; split; lra).
  unfold near. rewrite E1, E2. split; apply Rinv_le; auto.
Qed.
Lemma near_div : forall e e' a b x y, 0 <= x -> 0 < y -> near e a x -> near e' b y -> near (e + e') (a / b) (x / y).
Proof. intros. unfold Rdiv. apply near_mul; auto; [left; apply Rinv_0_lt_compat; assumption|apply near_inv; assumption]. Qed.
(** From and to the usual relative error. *)
Lemma near_rel : forall d v x, 0 <= x -> 0 <= d <= / 2 -> Rabs (v - x) <= d * x -> near (2 * d) v x.
Proof.
  intros d v x X D H. apply Rabs_le_inv in H. unfold near. pose proof (exp_ge1 (2 * d)). pose proof (exp_inv (2 * d)) as I. pose proof (exp_pos (- (2 * d))).
  split; [|nra]. apply Rle_trans with (x * (1 - d)); [|lra]. apply Rmult_le_compat_l; [exact X|].
  apply Rmult_le_reg_l with (exp (2 * d)); [lra|]. rewrite I. apply Rle_trans with ((1 + 2 * d) * (1 - d)); [nra|]. apply Rmult_le_compat_r; lra.
Qed.
Lemma rel_near : forall e v x, 0 <= x -> 0 <= e <= / 2 -> near e v x -> Rabs (v - x) <= e / (1 - e) * x.
Proof.
  intros e v x X E (A & B). pose proof (exp_ge1 (- e)). pose proof (exp_inv e). pose proof (exp_pos e).
  assert (U : exp e <= 1 + e / (1 - e)).
  { replace (1 + e / (1 - e)) with (/ (1 - e)) by (field; lra). apply Rmult_le_reg_r with (1 - e); [lra|]. rewrite Rinv_l by lra. nra. }
  assert (V : e <= e / (1 - e)) by (apply Rmult_le_reg_r with (1 - e); [lra|]; unfold Rdiv; rewrite Rmult_assoc, Rinv_l by lra; nra).
  apply Rabs_le. split; nra.
Qed.
Lemma near_zero : forall e v, near e v 0 -> v = 0.
Proof. intros e v (A & B). lra. Qed.
Lemma near_le : forall e v x, near e v x -> 0 <= x -> 0 <= e <= / 2 -> x / 2 <= v <= 2 * x.
Proof.
  intros e v x (A & B) X E. pose proof (exp_2 e E). pose proof (exp_inv e). pose proof (exp_pos (- e)). assert (/ 2 <= exp (- e)) by nra. split; nra.
Qed.

(** *** Floating point *)
Notation ulp1 := (/ 4503599627370496).
Lemma near_RN : forall v, v = 0 \/ bpow radix2 (-1022) <= v -> near ulp1 (RN v) v.
Proof.
  intros v [->|H]; [rewrite round_0 by apply valid_rnd_N; apply near_refl; lra|].
  assert (V : 0 <= v) by (eapply Rle_trans; [apply bpow_ge_0|exact H]).
  replace ulp1 with (2 * (/ 2 * ulp1)) by field. apply near_rel; [exact V|lra|].
  pose proof (relative_error_N_FLT radix2 (-1074) 53 eq_refl (fun x => negb (Z.even x)) v) as Q. rewrite (Rabs_pos_eq v V) in Q. specialize (Q H).
  change (bpow radix2 (-53 + 1)) with ulp1 in Q. exact Q.
Qed.
Lemma near_floor : forall v, 4503599627370496 <= v -> near (2 * ulp1) (IZR (Zfloor v)) v.
Proof.
  intros v H. apply near_rel; [lra|lra|]. pose proof (Zfloor_lb v). pose proof (Zfloor_ub v). apply Rabs_le. split; lra.
Qed.
Notation top := (bpow radix2 1000).
Lemma top_10 : 2 * powerRZ 10 300 + 40 <= top.
Proof. rewrite p10_IZR, bpow_Z by lia. rewrite <- mult_IZR, <- plus_IZR. apply IZR_le. vm_compute. discriminate. Qed.
Lemma RN_top : forall v, 0 <= v <= top -> 0 <= RN v <= top.
Proof. intros v H. apply RN_bounds; [apply (format_int 0); lia|apply generic_format_FLT_bpow; [exact Hp|lia]|exact H]. Qed.
Lemma top_big : forall v, 0 <= v <= top -> Rabs v < big.
Proof. intros v H. rewrite Rabs_pos_eq by lra. eapply Rle_lt_trans; [apply H|]. apply bpow_lt. reflexivity. Qed.
Lemma tiny_10 : bpow radix2 (-1022) <= / (8 * powerRZ 10 300).
Proof.
  rewrite bpow_inv by lia. rewrite p10_IZR by lia. change (- -1022)%Z with 1022%Z. apply Rinv_le; [apply Rmult_lt_0_compat; [lra|apply IZR_lt; reflexivity]|].
  rewrite <- mult_IZR. apply IZR_le. vm_compute. discriminate.
Qed.
Lemma near_pow : forall f k, near_power f k -> dbl f (real_of f) /\ near (2 * / 10 ^ 13) (real_of f) (powerRZ 10 k).
Proof.
  intros f k (F & H). split; [apply finite_dbl; exact F|]. apply near_rel; [apply Rlt_le, p10_pos| |exact H]. lra.
Qed.
