(** Texts of doubles: accuracy, decimal fractions, special values; documents. *)
From Coq Require Import ZArith Reals Lia Lra Psatz Floats.SpecFloat ZifyBool.
From Flocq Require Import Core.Core IEEE754.BinarySingleNaN.
From Verif Require Import Base ModelValue SpecKeyed ModelKeyed SpecText SpecBin ModelText ProofKeyed ProofText1 ProofText2 ProofText3 ProofText4 ProofText5 SpecDouble ProofReal ProofDouble ProofDouble2 ProofDouble3 ProofDouble4 ProofDouble5.
Local Open Scope R_scope.

Lemma parts_plain : forall t s n m q, parts_of t s n m q 0 -> ~ In 69%Z t /\ ~ In 101%Z t.
Proof.
  intros t s n m q (ip & fp & ep & -> & (Di & _) & Fr & _ & _ & [->|H]); [|congruence]. rewrite app_nil_r.
  assert (G : forall c, (c = 69 \/ c = 101)%Z -> forall ds, Forall digit_char ds -> ~ In c ds).
  { intros c Hc ds D I. rewrite Forall_forall in D. specialize (D c I). unfold digit_char in D. lia. }
  assert (K : forall c, (c = 69 \/ c = 101)%Z -> ~ In c ((if s then [45%Z] else []) ++ ip ++ fp)).
  { intros c Hc I. apply in_app_or in I as [I|I]; [destruct s; [destruct I as [I|[]]; lia|destruct I]|].
    apply in_app_or in I as [I|I]; [exact (G c Hc ip Di I)|].
    destruct Fr as [(-> & _)|(ds & -> & _ & D & _)]; [destruct I|]. destruct I as [I|I]; [lia|exact (G c Hc ds D I)]. }
  split; apply K; auto.
Qed.

Section Accuracy.
Variables (L : libm) (utf8 : bool) (mp : nat).
Hypothesis (GL : good_libm L).
Notation p := (Nat.min mp 9).

Lemma zero_text : forall s, write_double L utf8 mp (S754_zero s) = Some [48%Z].
Proof.
  intros s. unfold write_double. cbn [f_isfinite negb]. change (f_abs (S754_zero s)) with (S754_zero false). rewrite (gl_zero L GL). reflexivity.
Qed.
(** Every number from 10^-307 up. *)
Lemma any_text : forall d, finite d -> powerRZ 10 (-307) <= Rabs (real_of d) ->
  exists t x, write_double L utf8 mp d = Some t /\ json_number t x /\
    (Rabs (x - real_of d) <= 51 / 100 / 10 ^ p /\ ~ In 69%Z t /\ ~ In 101%Z t /\ 99 / 10000 < Rabs (real_of d) < 101 * 10 ^ 6 \/
     Rabs (x - real_of d) <= 52 / 100 / 10 ^ p * Rabs (real_of d) /\ (Rabs (real_of d) < 101 / 10000 \/ 99 * 10 ^ 6 < Rabs (real_of d))).
Proof.
  intros d Fd V. pose proof (p10_pos (-307)) as P7. assert (Nz : real_of d <> 0) by (intros Z0; rewrite Z0, Rabs_R0 in V; lra).
  destruct (gl_log L GL d Fd Nz) as (k & Lg). assert (Kl : (-308 <= k)%Z) by (apply (low_k L d k Lg); lra).
  pose proof (log_range _ _ _ Fd Nz Lg) as Kr.
  destruct (text_any L utf8 mp GL d k Fd Nz Lg (or_intror Kl)) as (t & z & Ew & Dt & Z0 & Cl).
  set (s := Rlt_bool (real_of d) 0) in *.
  assert (De : (-400 <= dexp k <= 400)%Z) by (unfold dexp; destruct (plain_exp k); lia).
  destruct (digits_value mp t s z (dexp k) De Dt) as (n & m & q & x & Pt & _ & _ & _ & Ev & Cs).
  exists t, ((if s then -1 else 1) * (IZR n + IZR m / 10 ^ q) * powerRZ 10 x). split; [exact Ew|]. split; [apply parts_number; exact Pt|].
  rewrite Rmult_assoc, Ev. change (powerRZ 10 (dexp k) / 10 ^ p) with (unit_of mp k).
  assert (Sc : Rabs ((if s then -1 else 1) * (IZR z * unit_of mp k) - real_of d) <= 51 / 100 * unit_of mp k) by (eapply sign_close; eauto).
  destruct Lg as (_ & _ & A & B). destruct (plain_exp k) eqn:Pe.
  - left. unfold unit_of, dexp in Sc. rewrite Pe in Sc. cbn [powerRZ] in Sc. split; [|split; [|split]].
    + eapply Rle_trans; [unfold unit_of, dexp; rewrite Pe; exact Sc|]. apply Req_le. field. apply pow_nonzero. lra.
    + unfold dexp in Cs. rewrite Pe in Cs. destruct Cs as [(-> & _)|(_ & H & _)]; [|congruence]. apply (parts_plain t s n m q Pt).
    + unfold dexp in Cs. rewrite Pe in Cs. destruct Cs as [(-> & _)|(_ & H & _)]; [|congruence]. apply (parts_plain t s n m q Pt).
    + unfold plain_exp in Pe. assert (K1 : powerRZ 10 (-2) <= powerRZ 10 k) by (apply p10_mono; lia). assert (K2 : powerRZ 10 (k + 1) <= powerRZ 10 8) by (apply p10_mono; lia).
      change (powerRZ 10 (-2)) with (/ (10 * (10 * 1))) in K1. rewrite (p10_IZR 8) in K2 by lia. change (10 ^ 8)%Z with 100000000%Z in K2. lra.
  - right. unfold unit_of, dexp in Sc. rewrite Pe in Sc. assert (Pp : 0 < / 10 ^ p) by (apply Rinv_0_lt_compat, pow_lt; lra). split.
    + unfold unit_of, dexp. rewrite Pe. eapply Rle_trans; [exact Sc|]. unfold Rdiv.
      replace (51 * / 100 * (powerRZ 10 k * / 10 ^ p)) with (51 * / 100 * powerRZ 10 k * / 10 ^ p) by ring.
      replace (52 * / 100 * / 10 ^ p * Rabs (real_of d)) with (52 * / 100 * Rabs (real_of d) * / 10 ^ p) by ring. apply Rmult_le_compat_r; [lra|]. pose proof (p10_pos k). lra.
    + unfold plain_exp in Pe. assert (K : (k <= -3 \/ 8 <= k)%Z) by lia. destruct K as [K|K].
      * left. assert (K2 : powerRZ 10 (k + 1) <= powerRZ 10 (-2)) by (apply p10_mono; lia). change (powerRZ 10 (-2)) with (/ (10 * (10 * 1))) in K2. lra.
      * right. assert (K1 : powerRZ 10 8 <= powerRZ 10 k) by (apply p10_mono; lia). rewrite (p10_IZR 8) in K1 by lia. change (10 ^ 8)%Z with 100000000%Z in K1. lra.
Qed.
(** A decimal fraction with that many digits is written exactly. *)
Lemma decimal_text : forall d z, finite d -> 101 / 10000 <= Rabs (real_of d) <= 999999999 / 10 ->
  Rabs (real_of d - IZR z / 10 ^ p) <= 48 / 100 / 10 ^ p ->
  exists t, write_double L utf8 mp d = Some t /\ json_number t (IZR z / 10 ^ p) /\ ~ In 69%Z t /\ ~ In 101%Z t.
Proof.
  intros d z Fd V C. assert (Nz : real_of d <> 0) by (intros Z0; rewrite Z0, Rabs_R0 in V; lra).
  destruct (gl_log L GL d Fd Nz) as (k & Lg). assert (K : (-3 < k < 8)%Z) by (apply (plain_k L d k Lg); lra).
  destruct (plain_units mp k K) as (De & Un & Pe). destruct (text_any L utf8 mp GL d k Fd Nz Lg (or_introl Pe)) as (t & z1 & Ew & Dt & Z0 & Cl).
  rewrite De in Dt. rewrite Un in Cl. set (s := Rlt_bool (real_of d) 0) in *.
  destruct (digits_value mp t s z1 0 ltac:(lia) Dt) as (n & m & q & x & Pt & _ & _ & _ & Ev & [(-> & _)|(_ & H & _)]); [|congruence].
  exists t. split; [exact Ew|]. destruct (parts_plain t s n m q Pt) as (E1 & E2). split; [|auto].
  assert (Ip : 0 < / 10 ^ p) by (apply Rinv_0_lt_compat, pow_lt; lra).
  assert (Eq : (if s then - z1 else z1)%Z = z).
  { assert (Rd : real_of d = (if s then -1 else 1) * Rabs (real_of d)) by apply sgn_value. set (v := Rabs (real_of d)) in *.
    apply (multiple_eq _ _ (/ 10 ^ p) Ip). unfold Rdiv in C. apply Rabs_le_inv in Cl. apply Rabs_le_inv in C. apply Rabs_lt.
    destruct s; rewrite ?opp_IZR; lra. }
  replace (IZR z / 10 ^ p) with ((if s then -1 else 1) * (IZR n + IZR m / 10 ^ q) * powerRZ 10 0); [apply parts_number; exact Pt|].
  rewrite Rmult_assoc, Ev, <- Eq. change (powerRZ 10 0) with 1. destruct s; rewrite ?opp_IZR; unfold Rdiv; ring.
Qed.
End Accuracy.
