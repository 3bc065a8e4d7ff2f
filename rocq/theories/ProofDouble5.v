(** Numbers written with an exponent, and what follows for all of them. *)
From Coq Require Import ZArith Reals Lia Lra Psatz Floats.SpecFloat ZifyBool.
From Flocq Require Import Core.Core IEEE754.BinarySingleNaN.
From Verif Require Import Base ModelValue SpecText SpecBin ModelText ProofText1 ProofText2 ProofText3 ProofText5 SpecDouble ProofReal ProofDouble ProofDouble2 ProofDouble3 ProofDouble4.
Local Open Scope R_scope.

Section Scaled.
Variables (L : libm) (F : pflags) (utf8 : bool) (mp : nat).
Hypotheses (GL : good_libm L) (Hnp : precise F = false) (Hp3 : (3 <= mp)%nat).
Notation p := (Nat.min mp 9).

Lemma scaled_units : forall k, plain_exp k = false -> dexp k = k /\ unit_of mp k = powerRZ 10 k / 10 ^ p.
Proof. intros k K. unfold unit_of, dexp. rewrite K. auto. Qed.
(** The digits of a number in exponent form: from ten to the [p] to ten times that. *)
Lemma scaled_range : forall d k z, log10_near L d k -> Rabs (IZR z * (powerRZ 10 k / 10 ^ p) - Rabs (real_of d)) <= 51 / 100 * (powerRZ 10 k / 10 ^ p) ->
  (10 ^ Z.of_nat p <= z <= 10 * 10 ^ Z.of_nat p)%Z.
Proof.
  intros d k z (_ & _ & A & B) C. rewrite powerRZ_add in B by lra. change (powerRZ 10 1) with (10 * 1) in B. set (T := powerRZ 10 k) in *. assert (Tp : 0 < T) by apply p10_pos.
  assert (Pp : 0 < 10 ^ p) by (apply pow_lt; lra). assert (Pb : 10 ^ p <= 10 ^ 9) by (apply Rle_pow; [lra|lia]).
  set (u := T / 10 ^ p) in *. assert (Up : 0 < u) by (apply Rdiv_lt_0_compat; assumption). assert (Et : T = 10 ^ p * u) by (unfold u; field; lra).
  rewrite Et in A, B. set (v := Rabs (real_of d)) in *. apply Rabs_le_inv in C. split.
  - apply Z.lt_pred_le. apply lt_IZR. unfold Z.pred. rewrite plus_IZR, pow10. apply Rmult_lt_reg_r with u; [exact Up|].
    assert (/ 10 ^ 12 * (10 ^ p * u) <= / 10 ^ 12 * (10 ^ 9 * u)) by (apply Rmult_le_compat_l; [lra|apply Rmult_le_compat_r; lra]). nra.
  - apply Z.lt_succ_r. apply lt_IZR. unfold Z.succ. rewrite plus_IZR, mult_IZR, pow10. apply Rmult_lt_reg_r with u; [exact Up|].
    assert (/ 10 ^ 12 * (10 ^ p * u) <= / 10 ^ 12 * (10 ^ 9 * u)) by (apply Rmult_le_compat_l; [lra|apply Rmult_le_compat_r; lra]). nra.
Qed.
(** A number next to that many units of another power of ten has the same value. *)
Lemma same_value : forall d k z z' k', log10_near L d k' -> (10 ^ Z.of_nat p <= z <= 10 * 10 ^ Z.of_nat p)%Z ->
  Rabs (Rabs (real_of d) - IZR z * (powerRZ 10 k / 10 ^ p)) <= 2 / 10 ^ 13 * (IZR z * (powerRZ 10 k / 10 ^ p)) ->
  Rabs (IZR z' * (powerRZ 10 k' / 10 ^ p) - Rabs (real_of d)) <= 51 / 100 * (powerRZ 10 k' / 10 ^ p) ->
  IZR z' * (powerRZ 10 k' / 10 ^ p) = IZR z * (powerRZ 10 k / 10 ^ p).
Proof.
  intros d k z z' k' (_ & _ & A & B) (Z1 & Z2) Y C. set (y := Rabs (real_of d)) in *. set (X := IZR z * (powerRZ 10 k / 10 ^ p)) in *.
  assert (Pp : 0 < 10 ^ p) by (apply pow_lt; lra). assert (Pb : 10 ^ p <= 10 ^ 9) by (apply Rle_pow; [lra|lia]).
  apply IZR_le in Z1. apply IZR_le in Z2. rewrite mult_IZR in Z2. rewrite pow10 in *.
  pose proof (p10_pos k) as Tk. pose proof (p10_pos k') as Tk'. rewrite powerRZ_add in B by lra. change (powerRZ 10 1) with (10 * 1) in B.
  assert (Ip : 0 < / 10 ^ p) by (apply Rinv_0_lt_compat; exact Pp). 
  assert (X0 : 0 < X). { unfold X. apply Rmult_lt_0_compat; [lra|apply Rdiv_lt_0_compat; assumption]. }
  assert (Xe : X * 10 ^ p = IZR z * powerRZ 10 k) by (unfold X; field; lra).
  assert (Xu : X <= 10 * powerRZ 10 k). { apply Rmult_le_reg_r with (10 ^ p); [exact Pp|]. rewrite Xe. apply Rle_trans with (10 * 10 ^ p * powerRZ 10 k); [apply Rmult_le_compat_r; lra|apply Req_le; ring]. }
  apply Rabs_le_inv in Y. set (u := powerRZ 10 k' / 10 ^ p) in *. assert (Up : 0 < u) by (apply Rdiv_lt_0_compat; assumption). assert (Et : powerRZ 10 k' = 10 ^ p * u) by (unfold u; field; lra).
  assert (Xc : Rabs (X - y) <= 48 / 100 * u).
  { assert (X <= 11 * powerRZ 10 k') by lra. assert (2 / 10 ^ 13 * X <= 22 / 10 ^ 13 * (10 ^ 9 * u)).
    { apply Rle_trans with (2 / 10 ^ 13 * (11 * powerRZ 10 k')); [apply Rmult_le_compat_l; lra|]. rewrite Et. assert (10 ^ p * u <= 10 ^ 9 * u) by (apply Rmult_le_compat_r; lra). lra. }
    apply Rabs_le. lra. }
  assert (Mu : exists z0, X = IZR z0 * u).
  { destruct (Z_le_gt_dec k' k) as [K|K].
    - exists (z * 10 ^ (k - k'))%Z. unfold X, u. rewrite mult_IZR, <- p10_IZR by lia. replace k with (k' + (k - k'))%Z at 1 by lia. rewrite powerRZ_add by lra. field. lra.
    - assert (K1 : (k' <= k + 1)%Z).
      { destruct (Z_le_gt_dec k' (k + 1)) as [|C2]; [assumption|exfalso]. assert (G : powerRZ 10 (k + 2) <= powerRZ 10 k') by (apply p10_mono; lia). rewrite powerRZ_add in G by lra. change (powerRZ 10 2) with (10 * (10 * 1)) in G. lra. }
      assert (k' = k + 1)%Z by lia. subst k'. rewrite powerRZ_add in A, Et by lra. change (powerRZ 10 1) with (10 * 1) in A, Et.
      assert (Ez : z = (10 * 10 ^ Z.of_nat p)%Z).
      { assert (10 * 10 ^ Z.of_nat p - 1 < z)%Z; [|assert (z <= 10 * 10 ^ Z.of_nat p)%Z by (apply le_IZR; rewrite mult_IZR, pow10; exact Z2); lia].
        apply lt_IZR. rewrite minus_IZR, mult_IZR, pow10. apply Rmult_lt_reg_r with (powerRZ 10 k); [exact Tk|]. rewrite <- Xe.
        assert (H : 10 * powerRZ 10 k * (1 - 12 / 10 ^ 13) <= X) by lra. assert (H2 : 10 * powerRZ 10 k * (1 - 12 / 10 ^ 13) * 10 ^ p <= X * 10 ^ p) by (apply Rmult_le_compat_r; lra).
        assert (H3 : powerRZ 10 k * 10 ^ p <= powerRZ 10 k * 10 ^ 9) by (apply Rmult_le_compat_l; lra). nra. }
      exists (10 ^ Z.of_nat p)%Z. unfold X, u. rewrite Ez, mult_IZR, pow10, powerRZ_add by lra. change (powerRZ 10 1) with (10 * 1). field. lra. }
  destruct Mu as (z0 & Ez). rewrite Ez. f_equal. f_equal. apply (same_digits z' z0 u y Up C). rewrite <- Ez. exact Xc.
Qed.

(** The size of what is read. *)
Lemma scaled_read : forall n m q x y, (1 <= n <= 10)%Z -> 0 <= IZR m / 10 ^ q < 1 -> x <> 0%Z -> read_as L n m q x y -> 99 / 100 * powerRZ 10 (-307) <= (IZR n + IZR m / 10 ^ q) * powerRZ 10 x ->
  Rabs (y - (IZR n + IZR m / 10 ^ q) * powerRZ 10 x) <= 2 / 10 ^ 13 * ((IZR n + IZR m / 10 ^ q) * powerRZ 10 x).
Proof.
  intros n m q x y N Fq Nx [(X0 & _)|(_ & w & W & _ & Ey)] Lo; [congruence|]. destruct (base_range n m q ltac:(lia) Fq) as (B1 & B2).
  set (f := IZR m / 10 ^ q) in *. set (M := IZR n + f) in *. set (b := RN (IZR n + RN f)) in *. set (T := powerRZ 10 x) in *. assert (Tp : 0 < T) by apply p10_pos.
  assert (N1 : 1 <= IZR n) by (apply IZR_le; lia). assert (N2 : IZR n <= 10) by (apply IZR_le; lia).
  assert (Ef : Rabs (RN f - f) <= / 2 ^ 54). { assert (G := RN_err f 0 ltac:(lia)). change (bpow radix2 0) with 1 in G. rewrite Rabs_pos_eq in G by lra. specialize (G ltac:(lra)). rewrite bpow_inv in G by lia. change (- (0 - 54))%Z with (Z.of_nat 54) in G. rewrite <- pow_IZR in G. exact G. }
  assert (Eb : Rabs (b - (IZR n + RN f)) <= / 2 ^ 50).
  { assert (G := RN_err (IZR n + RN f) 4 ltac:(lia)). rewrite Rabs_pos_eq in G by lra. change (bpow radix2 4) with 16 in G. specialize (G ltac:(lra)). rewrite bpow_inv in G by lia. change (- (4 - 54))%Z with (Z.of_nat 50) in G. rewrite <- pow_IZR in G. exact G. }
  assert (Eb2 : Rabs (b - M) <= / 10 ^ 14 * M).
  { apply Rabs_le_inv in Ef. apply Rabs_le_inv in Eb. unfold M. apply Rabs_le. lra. }
  assert (M1 : 1 <= M) by (unfold M; lra). assert (Ebw : Rabs (b * w - M * T) <= 12 / 10 ^ 14 * (M * T)).
  { replace (b * w - M * T) with ((b - M) * w + M * (w - T)) by ring. eapply Rle_trans; [apply Rabs_triang|]. rewrite !Rabs_mult, (Rabs_pos_eq M) by lra.
    assert (Wp : Rabs w <= (1 + / 10 ^ 13) * T) by (apply Rabs_le_inv in W; apply Rabs_le; lra).
    assert (G1 : Rabs (b - M) * Rabs w <= / 10 ^ 14 * M * ((1 + / 10 ^ 13) * T)) by (apply Rmult_le_compat; try apply Rabs_pos; assumption).
    assert (G2 : M * Rabs (w - T) <= M * (/ 10 ^ 13 * T)) by (apply Rmult_le_compat_l; [lra|exact W]). assert (0 < M * T) by (apply Rmult_lt_0_compat; lra). nra. }
  assert (MT : 0 < M * T) by (apply Rmult_lt_0_compat; lra). apply Rabs_le_inv in Ebw.
  assert (Nm : bpow radix2 (-1022) <= Rabs (b * w)).
  { rewrite Rabs_pos_eq by lra. apply Rle_trans with (98 / 100 * powerRZ 10 (-307)); [|lra]. rewrite bpow_inv by lia. change (-307)%Z with (- (307))%Z. rewrite p10_opp, (p10_IZR 307) by lia.
    apply Rmult_le_reg_r with (IZR (2 ^ - -1022)); [apply IZR_lt; reflexivity|]. apply Rmult_le_reg_r with (IZR (10 ^ 307)); [apply IZR_lt; reflexivity|].
    rewrite Rinv_l, Rmult_1_l by (apply not_0_IZR; discriminate).
    replace (98 / 100 * / IZR (10 ^ 307) * IZR (2 ^ - -1022) * IZR (10 ^ 307)) with (98 / 100 * IZR (2 ^ - -1022)) by (field; apply not_0_IZR; discriminate).
    apply Rmult_le_reg_r with 100; [lra|]. replace (98 / 100 * IZR (2 ^ - -1022) * 100) with (98 * IZR (2 ^ - -1022)) by field. rewrite <- !mult_IZR. apply IZR_le. vm_compute. discriminate. }
  pose proof (RN_rel _ Nm) as Rr. rewrite (Rabs_pos_eq (b * w)) in Rr by lra. rewrite Ey. apply Rabs_le_inv in Rr. apply Rabs_le.
  assert (/ 2 ^ 53 * (b * w) <= 2 / 10 ^ 16 * (2 * (M * T))) by (apply Rmult_le_compat; lra). lra.
Qed.

Lemma scaled_back : forall d, finite d -> exp_range (Rabs (real_of d)) ->
  exists t X, write_double L utf8 mp d = Some t /\ json_number t X /\ Rabs (X - real_of d) <= 52 / 100 / 10 ^ p * Rabs (real_of d) /\
    (exists n m q x, parts_of t (Rlt_bool (real_of d) 0) n m q x) /\
    exists d' t', (forall r rest, num_end rest -> at_pos r (t ++ rest) -> parse_number L F r = Ok (VNum (NDbl d'), mkR (tl rest) (Some (hd_eof rest)))) /\ finite d' /\
      Rabs (real_of d' - real_of d) <= 53 / 100 / 10 ^ p * Rabs (real_of d) /\ write_double L utf8 mp d' = Some t' /\ json_number t' X.
Proof.
  intros d Fd V. assert (P307 : 0 < powerRZ 10 (-307)) by apply p10_pos. assert (Q307 : powerRZ 10 9 <= powerRZ 10 307) by (apply p10_mono; lia). rewrite (p10_IZR 9) in Q307 by lia. change (10 ^ 9)%Z with 1000000000%Z in Q307.
  assert (Q308 : powerRZ 10 (-307) <= powerRZ 10 (-10)) by (apply p10_mono; lia). change (powerRZ 10 (-10)) with (powerRZ 10 (- (10))) in Q308. rewrite (p10_opp 10) in Q308. rewrite (p10_IZR 10) in Q308 by lia. change (10 ^ 10)%Z with 10000000000%Z in Q308.
  assert (Nz : real_of d <> 0) by (intros Z0; rewrite Z0, Rabs_R0 in V; unfold exp_range in V; lra).
  destruct (gl_log L GL d Fd Nz) as (k & Lg). assert (Np : plain_exp k = false) by (apply (scaled_k L d k Lg); unfold exp_range in V; lra).
  assert (Kl : (-308 <= k)%Z) by (apply (low_k L d k Lg); unfold exp_range in V; lra). assert (Kh : (k <= 307)%Z) by (apply (high_k L d k Lg); unfold exp_range in V; lra).
  destruct (scaled_units k Np) as (De & Un). destruct (text_any L utf8 mp GL d k Fd Nz Lg (or_intror Kl)) as (t & z & Ew & Dt & Z0 & Cl). rewrite De in Dt. rewrite Un in Cl.
  pose proof (scaled_range d k z Lg Cl) as Zr. set (s := Rlt_bool (real_of d) 0) in *. set (v := Rabs (real_of d)) in *.
  assert (Rd : real_of d = (if s then -1 else 1) * v) by apply sgn_value.
  assert (Pp : 0 < 10 ^ p) by (apply pow_lt; lra). assert (Pz : (0 < 10 ^ Z.of_nat p)%Z) by (apply Z.pow_pos_nonneg; lia).
  destruct (digits_value mp t s z k ltac:(lia) Dt) as (n & m & q & x & Pt & N & M & Q & EX & Cs).
  set (X := (IZR n + IZR m / 10 ^ q) * powerRZ 10 x) in *. set (u := powerRZ 10 k / 10 ^ p) in *. assert (Up : 0 < u) by (apply Rdiv_lt_0_compat; [apply p10_pos|exact Pp]).
  assert (Vu : u <= 101 / 100 / 10 ^ p * v). { unfold u, Rdiv. destruct Lg as (_ & _ & A & _). fold v in A. pose proof (p10_pos k). replace (101 * / 100 * / 10 ^ p * v) with (101 * / 100 * v * / 10 ^ p) by ring. apply Rmult_le_compat_r; [apply Rlt_le, Rinv_0_lt_compat; exact Pp|lra]. }
  assert (Sd : forall a b, Rabs ((if s then -1 else 1) * a - (if s then -1 else 1) * b) = Rabs (a - b)).
  { intros a b. replace ((if s then -1 else 1) * a - (if s then -1 else 1) * b) with ((if s then -1 else 1) * (a - b)) by ring. rewrite Rabs_mult. replace (Rabs (if s then -1 else 1)) with 1; [ring|]. destruct s; [rewrite Rabs_left by lra|rewrite Rabs_pos_eq by lra]; lra. }
  exists t, ((if s then -1 else 1) * X). split; [exact Ew|]. split; [unfold X; rewrite <- Rmult_assoc; apply parts_number; exact Pt|]. split.
  { rewrite Rd, Sd, EX. eapply Rle_trans; [exact Cl|]. unfold Rdiv in *. lra. }
  split; [exists n, m, q, x; exact Pt|].
  assert (Fq : 0 <= IZR m / 10 ^ q < 1). { destruct Pt as (ip & fp & ep & _ & _ & Fr & _). apply (frac_range fp); [exact Fr|lia]. }
  assert (Nn : (1 <= n <= 10)%Z).
  { destruct Cs as [(-> & Cz)|(_ & _ & -> & _)]; [|lia]. destruct Zr as (Z1 & Z2). apply IZR_le in Z1. apply IZR_le in Z2. rewrite mult_IZR in Z2. rewrite pow10 in *.
    assert (Y1 : 1 <= IZR z / 10 ^ p) by (apply Rmult_le_reg_r with (10 ^ p); [exact Pp|]; unfold Rdiv; rewrite Rmult_assoc, Rinv_l by lra; lra).
    assert (Y2 : IZR z / 10 ^ p <= 10) by (apply Rmult_le_reg_r with (10 ^ p); [exact Pp|]; unfold Rdiv; rewrite Rmult_assoc, Rinv_l by lra; lra).
    rewrite <- Cz in Y1, Y2. split; [assert (0 < n)%Z; [|lia]; apply lt_IZR; lra|]. apply le_IZR. lra. }
  assert (Nx : x <> 0%Z) by (unfold plain_exp in Np; destruct Cs as [(-> & _)|(-> & _)]; lia).
  assert (Xr : (-308 <= x <= 308)%Z) by (destruct Cs as [(-> & _)|(-> & _)]; lia).
  assert (Cx : Rabs (X - v) <= 52 / 100 / 10 ^ p * v) by (rewrite EX; eapply Rle_trans; [exact Cl|]; unfold Rdiv in *; lra).
  assert (U3 : / 10 ^ p <= / 1000) by (apply (unit_small mp); lia). assert (V0 : 0 < v) by (unfold v; apply Rabs_pos_lt; exact Nz).
  assert (Cx1 : Rabs (X - v) <= / 1000 * v). { eapply Rle_trans; [exact Cx|]. unfold Rdiv. apply Rmult_le_compat_r; lra. } apply Rabs_le_inv in Cx1.
  pose proof (p10_pos x) as Tx. assert (N1 : 1 <= IZR n) by (apply IZR_le; lia).
  assert (Xup : X <= 1001 / 1000 * powerRZ 10 307) by (unfold exp_range in V; lra).
  assert (Xlo : 99 / 100 * powerRZ 10 (-307) <= X) by (unfold exp_range in V; lra).
  destruct (parse_number_same L F GL Hnp t s n m q x Pt ltac:(lia) ltac:(lia) Xr) as (o & [(_ & Hx & _)|(_ & d' & y & -> & D' & R')] & Ep); [| |congruence|].
  { apply Rle_trans with (2 * X); [unfold X; replace (2 * ((IZR n + IZR m / 10 ^ q) * powerRZ 10 x)) with (2 * (IZR n + IZR m / 10 ^ q) * powerRZ 10 x) by ring; apply Rmult_le_compat_r; lra|].
    replace 308%Z with (307 + 1)%Z by lia. rewrite powerRZ_add by lra. change (powerRZ 10 1) with (10 * 1). lra. }
  { intros y1 R1. pose proof (scaled_read n m q x y1 Nn Fq Nx R1 Xlo) as Cy. fold X in Cy. apply Rabs_le_inv in Cy. assert (0 < X) by lra. lra. }
  pose proof (scaled_read n m q x y Nn Fq Nx R' Xlo) as Cy. fold X in Cy. assert (X0 : 0 < X) by lra. pose proof Cy as Cy'. apply Rabs_le_inv in Cy'.
  assert (Y0 : 0 < y) by lra. destruct (sign_sgn s y Y0) as (Sg & Ab). destruct (dbl_finite _ _ D') as (Fd' & Rd').
  rewrite (dbl_num_nz d' _ D') in Ep by (intros Z1; rewrite Z1, Rabs_R0 in Ab; lra).
  assert (Nz' : real_of d' <> 0) by (rewrite Rd'; intros Z1; rewrite Z1, Rabs_R0 in Ab; lra).
  destruct (gl_log L GL d' Fd' Nz') as (k' & Lg').
  assert (Np' : plain_exp k' = false) by (apply (scaled_k L d' k' Lg'); rewrite Rd', Ab; unfold exp_range in V; lra).
  assert (Kl' : (-308 <= k')%Z) by (apply (low_k L d' k' Lg'); rewrite Rd', Ab; unfold exp_range in V; lra).
  destruct (scaled_units k' Np') as (De' & Un'). destruct (text_any L utf8 mp GL d' k' Fd' Nz' Lg' (or_intror Kl')) as (t' & z' & Ew' & Dt' & Z0' & Cl'). rewrite De', Rd', Sg in Dt'. rewrite Un' in Cl'.
  pose proof (log_range L d' k' Fd' Nz' Lg') as Kr.
  destruct (digits_value mp t' s z' k' ltac:(lia) Dt') as (n2 & m2 & q2 & x2 & Pt' & _ & _ & _ & EX' & _).
  exists d', t'. split; [exact Ep|]. split; [exact Fd'|]. split; [|split; [exact Ew'|]].
  - rewrite Rd', Rd, Sd. replace (y - v) with ((y - X) + (X - v)) by ring. eapply Rle_trans; [apply Rabs_triang|]. assert (Ip : / 10 ^ 9 <= / 10 ^ p) by (apply Rinv_le; [exact Pp|apply Rle_pow; [lra|lia]]).
    assert (2 / 10 ^ 13 * X <= / 100 * / 10 ^ p * v). { apply Rle_trans with (/ 100 * / 10 ^ 9 * v); [lra|]. apply Rmult_le_compat_r; lra. } unfold Rdiv in *. lra.
  - replace ((if s then -1 else 1) * X) with ((if s then -1 else 1) * (IZR n2 + IZR m2 / 10 ^ q2) * powerRZ 10 x2); [apply parts_number; exact Pt'|].
    rewrite Rmult_assoc, EX'. f_equal. rewrite EX. apply (same_value d' k z z' k' Lg' Zr); [|exact Cl']. rewrite Rd', Ab. fold u. rewrite <- EX. exact Cy.
Qed.
End Scaled.
