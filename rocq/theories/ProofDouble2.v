(** The text of a double: defined, of the right form, and close. *)
From Coq Require Import ZArith Reals Lia Lra Psatz Floats.SpecFloat ZifyBool.
From Flocq Require Import Core.Core IEEE754.BinarySingleNaN.
From Verif Require Import Base ModelValue SpecText SpecBin ModelText ProofText1 SpecDouble ProofReal ProofDouble.
Local Open Scope R_scope.

Lemma real_fR : forall x, real_of x = fR x.
Proof. intros [s|s| |s m e]; try reflexivity. cbn. unfold F2R. cbn [Fnum Fexp]. rewrite bpow_powerRZ. destruct s; reflexivity. Qed.
Lemma finite_dbl : forall x, finite x -> dbl x (real_of x).
Proof. intros x (D & F). split; [exact D|]. split; [exact F|symmetry; apply real_fR]. Qed.
Lemma dbl_finite : forall x v, dbl x v -> finite x /\ real_of x = v.
Proof. intros x v (D & F & E). rewrite real_fR. repeat split; assumption. Qed.

Lemma p10_pos : forall k, 0 < powerRZ 10 k.
Proof. intros k. apply powerRZ_lt. lra. Qed.
Lemma p10_nat : forall k, powerRZ 10 (Z.of_nat k) = 10 ^ k.
Proof. intros k. symmetry. apply pow_powerRZ. Qed.
Lemma p10_IZR : forall k, (0 <= k)%Z -> powerRZ 10 k = IZR (10 ^ k).
Proof. intros k H. rewrite <- (Z2Nat.id k) by exact H. rewrite p10_nat, pow10. reflexivity. Qed.
Lemma p10_mono : forall a b, (a <= b)%Z -> powerRZ 10 a <= powerRZ 10 b.
Proof.
  intros a b H. replace b with (a + (b - a))%Z by lia. rewrite powerRZ_add by lra. rewrite <- (Rmult_1_r (powerRZ 10 a)) at 1.
  apply Rmult_le_compat_l; [apply Rlt_le, p10_pos|]. rewrite p10_IZR by lia. apply IZR_le. pose proof (Z.pow_pos_nonneg 10 (b - a)). lia.
Qed.
Lemma p10_opp : forall k, powerRZ 10 (- k) = / powerRZ 10 k.
Proof. intros k. apply powerRZ_neg'. Qed.

Lemma log_range : forall L d k, finite d -> real_of d <> 0 -> log10_near L d k -> (-325 <= k <= 308)%Z.
Proof.
  intros L d k H Nz (_ & _ & A0 & B0). pose proof (p10_pos k) as Tk. pose proof (p10_pos (k + 1)) as Tk1.
  assert (A : 99 / 100 * powerRZ 10 k <= Rabs (real_of d)) by nra. assert (B : Rabs (real_of d) < 101 / 100 * powerRZ 10 (k + 1)) by nra. clear A0 B0.
  destruct (finite_dbl d H) as (D & F & E). rewrite <- E in *. clear E.
  assert (Lo : bpow radix2 (-1074) <= Rabs (fR d)).
  { destruct d as [s|s| |s m e]; try discriminate; cbn [SF2R] in *; [destruct Nz; reflexivity|]. destruct (mantissa_small _ _ _ D) as (_ & Em).
    rewrite <- F2R_Zabs. replace (Z.abs (cond_Zopp s (Z.pos m))) with (Z.pos m) by (destruct s; reflexivity). unfold F2R. cbn [Fnum Fexp].
    rewrite <- (Rmult_1_l (bpow radix2 (-1074))). apply Rmult_le_compat; [lra|apply bpow_ge_0|apply IZR_le; lia|apply bpow_le; lia]. }
  assert (Up : Rabs (fR d) < bpow radix2 1024). { apply (dbl_format d). split; [exact D|]. split; [exact F|reflexivity]. }
  split.
  - destruct (Z.le_gt_cases (-325) k) as [C|C]; [exact C|exfalso]. assert (P : powerRZ 10 (k + 1) <= powerRZ 10 (-325)) by (apply p10_mono; lia).
    change (-325)%Z with (- (325))%Z in P. rewrite (p10_opp 325) in P. rewrite (p10_IZR 325) in P by lia. rewrite bpow_inv in Lo by lia.
    assert (Q : / IZR (10 ^ 325) * (101 / 100) < / IZR (2 ^ - -1074)).
    { apply Rmult_lt_reg_r with (IZR (10 ^ 325)); [apply IZR_lt; reflexivity|]. apply Rmult_lt_reg_r with (IZR (2 ^ - -1074)); [apply IZR_lt; reflexivity|].
      rewrite (Rmult_assoc (/ IZR (2 ^ - -1074))), (Rmult_comm (/ IZR (2 ^ - -1074))), !Rmult_assoc. rewrite Rinv_r by (apply not_0_IZR; discriminate). rewrite Rmult_1_r.
      replace (/ IZR (10 ^ 325) * (101 / 100 * (IZR (10 ^ 325) * IZR (2 ^ - -1074)))) with (101 / 100 * IZR (2 ^ - -1074)) by (field; apply not_0_IZR; discriminate).
      apply Rmult_lt_reg_r with 100; [lra|]. replace (101 / 100 * IZR (2 ^ - -1074) * 100) with (101 * IZR (2 ^ - -1074)) by field. rewrite <- !mult_IZR. apply IZR_lt. reflexivity. }
    lra.
  - destruct (Z.le_gt_cases k 308) as [C|C]; [exact C|exfalso]. assert (P : powerRZ 10 309 <= powerRZ 10 k) by (apply p10_mono; lia).
    rewrite p10_IZR in P by lia. rewrite bpow_Z in Up by lia.
    assert (Q : IZR (2 ^ 1024) <= 99 / 100 * IZR (10 ^ 309)).
    { apply Rmult_le_reg_r with 100; [lra|]. replace (99 / 100 * IZR (10 ^ 309) * 100) with (99 * IZR (10 ^ 309)) by field. rewrite <- !mult_IZR. apply IZR_le. vm_compute. discriminate. }
    lra.
Qed.

(** The digits of a non-negative number of moderate size. *)
Lemma parts : forall y v p, dbl y v -> 0 <= v < 1000000000 -> (p <= 9)%nat ->
  exists i N, f_to_u64 (snd (f_modf y)) = Some i /\
    f_to_u64 (f_floor (f_add (f_mul (fst (f_modf y)) (f_of_Z (10 ^ Z.of_nat p))) f_half)) = Some N /\
    (0 <= i)%Z /\ IZR i <= v < IZR i + 1 /\ (0 <= N <= 10 ^ Z.of_nat p)%Z /\ Rabs (IZR N - (v - IZR i) * 10 ^ p) <= / 2 + / 2 ^ 22.
Proof.
  intros y v p H (V0 & V1) P. assert (Lb := Zfloor_lb v). assert (Ub := Zfloor_ub v).
  assert (I0 : (0 <= Zfloor v)%Z) by (apply Zfloor_lub; exact V0).
  assert (I1 : (Zfloor v < 1000000000)%Z) by (apply lt_IZR; lra).
  destruct (modf_R y v H V0) as (A & B). { rewrite Rabs_pos_eq by (apply IZR_le; exact I0). rewrite bpow_Z by lia. apply IZR_le. lia. }
  assert (M : (1 <= 10 ^ Z.of_nat p <= 10 ^ 9)%Z). { split; [pose proof (Z.pow_pos_nonneg 10 (Z.of_nat p)); lia|]. apply Z.pow_le_mono_r; lia. }
  assert (Fr : 0 <= v - IZR (Zfloor v) < 1) by (split; lra). destruct (frac_digits _ _ _ A Fr M) as (N & N1 & N2 & N3). exists (Zfloor v), N.
  split; [|rewrite pow10 in N3; repeat split; auto; try lia; lra].
  pose proof (to_u64_R _ _ B) as T. rewrite Zfloor_IZR in T. apply T; [apply IZR_le; exact I0|lia].
Qed.

Section Write.
Variables (L : libm) (utf8 : bool) (mp : nat) (d : spec_float) (k : Z).
Hypotheses (Fd : finite d) (Nz : real_of d <> 0) (Lg : log10_near L d k).
Notation p := (Nat.min mp 9).
Notation v := (Rabs (real_of d)).
Definition plain_exp : bool := ((-3 <? k) && (k <? 8))%Z.

(** What is written once the number is scaled. *)
Definition finish (sign : bool) (y : spec_float) (iexp : Z) : option bytes :=
  match f_to_u64 (snd (f_modf y)), f_to_u64 (f_floor (f_add (f_mul (fst (f_modf y)) (f_of_Z (10 ^ Z.of_nat p))) f_half)) with
  | Some intp0, Some m0 =>
    let mult := (10 ^ Z.of_nat p)%Z in
    let carry := (mult <=? m0)%Z in
    let intp1 := if carry then u64 (intp0 + 1) else intp0 in
    let m := if carry then (m0 - mult)%Z else m0 in
    let wrap := carry && (10 <=? intp1)%Z && negb (iexp =? 0)%Z in
    Some (dbl_text sign (if wrap then 1%Z else intp1) m p (if wrap then iexp + 1 else iexp)%Z)
  | _, _ => None
  end.
Lemma write_finish :
  write_double L utf8 mp d = finish (Rlt_bool (real_of d) 0) (if plain_exp then f_abs d else f_mul (f_abs d) (lm_pow L f_tenth (f_of_Z k))) (if plain_exp then 0%Z else k).
Proof.
  pose proof (finite_dbl d Fd) as D. destruct Fd as (Dd & Ff). pose proof (log_range _ _ _ Fd Nz Lg) as R. destruct Lg as (Fl & (K0 & K1) & _).
  unfold write_double. rewrite Ff. cbn [negb]. rewrite (sign_R _ _ D).
  destruct (floor_R _ _ (finite_dbl _ Fl)) as (_ & Dk). rewrite (Zfloor_imp k) in Dk by (rewrite plus_IZR; lra).
  pose proof Dk as (_ & Fk & _). rewrite Fk. cbn [negb]. rewrite (trunc_R _ _ Dk), Ztrunc_IZR.
  replace (negb ((- 2 ^ 63 <=? k) && (k <? 2 ^ 63))%Z) with false by lia.
  cbv zeta. unfold finish, dbl_text. fold plain_exp.
  destruct (f_modf _) as [frac fint]. cbn [fst snd].
  destruct (f_to_u64 fint); [|reflexivity]. destruct (f_to_u64 _); [|reflexivity].
  destruct (strip_zeros _ _ _). reflexivity.
Qed.
(** The text has the digits of a whole number of units of the last place. *)
Definition digits_text (t : bytes) (sign : bool) (z e : Z) : Prop :=
  exists n m x, t = dbl_text sign n m p x /\ (0 <= n <= 1000000000)%Z /\ (0 <= m < 10 ^ Z.of_nat p)%Z /\
    ((x = e /\ z = n * 10 ^ Z.of_nat p + m) \/ (x = e + 1 /\ e <> 0 /\ n = 1 /\ m = 0 /\ z = 10 * 10 ^ Z.of_nat p))%Z.
Lemma finish_close : forall sign y w iexp, dbl y w -> 0 <= w < 1000000000 -> (iexp = 0%Z \/ w < 101 / 10 + / 10) ->
  exists t z, finish sign y iexp = Some t /\ digits_text t sign z iexp /\ (0 <= z)%Z /\ Rabs (IZR z - w * 10 ^ p) <= / 2 + / 2 ^ 22.
Proof.
  intros sign y w iexp H W Wr. destruct (parts y w p H W ltac:(lia)) as (i & N & E1 & E2 & I0 & I1 & N0 & Err).
  unfold finish. rewrite E1, E2. cbv zeta.
  assert (Pp : 0 < 10 ^ p) by (apply pow_lt; lra). assert (Pp1 : 1 <= 10 ^ p) by (apply pow_R1_Rle; lra).
  assert (Pz : (0 < 10 ^ Z.of_nat p)%Z) by (apply Z.pow_pos_nonneg; lia).
  assert (I2 : (i < 1000000000)%Z) by (apply lt_IZR; lra).
  set (z := (i * 10 ^ Z.of_nat p + N)%Z). assert (Z0 : (0 <= z)%Z) by (unfold z; nia).
  assert (Cl : Rabs (IZR z - w * 10 ^ p) <= / 2 + / 2 ^ 22).
  { unfold z. rewrite plus_IZR, mult_IZR, pow10. eapply Rle_trans; [|exact Err]. apply Req_le. f_equal. ring. }
  destruct (Z.leb_spec (10 ^ Z.of_nat p) N) as [C|C].
  - assert (En : N = (10 ^ Z.of_nat p)%Z) by lia. cbn [andb]. replace (N - 10 ^ Z.of_nat p)%Z with 0%Z by lia.
    assert (Eu : u64 (i + 1) = (i + 1)%Z) by (unfold u64; apply Z.mod_small; lia). rewrite Eu.
    destruct ((10 <=? i + 1)%Z && negb (iexp =? 0)%Z) eqn:Wp.
    + apply andb_prop in Wp as (W1 & W2). destruct Wr as [Wr|Wr]; [exfalso; lia|].
      assert (Ei : i = 9%Z).
      { assert (i < 10)%Z; [|lia]. apply lt_IZR. rewrite En, pow10 in Err. apply Rabs_le_inv in Err.
        assert (IZR i + 1 - w <= (/ 2 + / 2 ^ 22)); [|lra]. assert ((IZR i + 1 - w) * 10 ^ p <= / 2 + / 2 ^ 22) by lra.
        destruct (Rle_or_lt (IZR i + 1 - w) 0); [lra|]. nra. }
      exists (dbl_text sign 1 0 p (iexp + 1)), z. split; [reflexivity|]. split; [|auto]. exists 1%Z, 0%Z, (iexp + 1)%Z. split; [reflexivity|]. split; [lia|]. split; [lia|]. right. unfold z. rewrite Ei, En. lia.
    + exists (dbl_text sign (i + 1) 0 p iexp), z. split; [reflexivity|]. split; [|auto]. exists (i + 1)%Z, 0%Z, iexp. split; [reflexivity|]. split; [lia|]. split; [lia|]. left. unfold z. rewrite En. lia.
  - cbn [andb]. exists (dbl_text sign i N p iexp), z. split; [reflexivity|]. split; [|auto]. exists i, N, iexp. split; [reflexivity|]. split; [lia|]. split; [lia|]. left. auto.
Qed.

Definition dexp : Z := if plain_exp then 0%Z else k.
Definition unit_of : R := powerRZ 10 dexp / 10 ^ p.
Lemma unit_pos : 0 < unit_of.
Proof. unfold unit_of. apply Rdiv_lt_0_compat; [apply p10_pos|apply pow_lt; lra]. Qed.
Lemma near_bounds : 99 / 100 * powerRZ 10 k <= v < 101 / 100 * powerRZ 10 (k + 1).
Proof. destruct Lg as (_ & _ & A & B). pose proof (p10_pos k) as Tk. pose proof (p10_pos (k + 1)) as Tk1. split; nra. Qed.
Lemma write_plain : (-3 < k < 8)%Z -> exists t z, write_double L utf8 mp d = Some t /\ digits_text t (Rlt_bool (real_of d) 0) z dexp /\ (0 <= z)%Z /\ Rabs (IZR z * unit_of - v) <= 51 / 100 * unit_of.
Proof.
  intros K. rewrite write_finish. unfold unit_of, dexp. assert (Ep : plain_exp = true) by (unfold plain_exp; lia). rewrite Ep.
  assert (V : 0 <= v < 1000000000).
  { split; [apply Rabs_pos|]. destruct near_bounds as (_ & B). assert (P : powerRZ 10 (k + 1) <= powerRZ 10 8) by (apply p10_mono; lia). rewrite (p10_IZR 8) in P by lia. change (10 ^ 8)%Z with 100000000%Z in P. lra. }
  destruct (finish_close (Rlt_bool (real_of d) 0) (f_abs d) v 0 (abs_R _ _ (finite_dbl d Fd)) V (or_introl eq_refl)) as (t & z & E & J & Z0 & C).
  exists t, z. split; [exact E|]. split; [exact J|]. split; [exact Z0|]. change (powerRZ 10 0) with 1. assert (Pp : 0 < 10 ^ p) by (apply pow_lt; lra).
  replace (IZR z * (1 / 10 ^ p) - v) with ((IZR z - v * 10 ^ p) / 10 ^ p) by (field; lra). unfold Rdiv. rewrite Rmult_1_l, Rabs_mult, (Rabs_pos_eq (/ 10 ^ p)) by (apply Rlt_le, Rinv_0_lt_compat; exact Pp).
  apply Rmult_le_compat_r; [apply Rlt_le, Rinv_0_lt_compat; exact Pp|]. lra.
Qed.
Lemma write_scaled : near_power (lm_pow L f_tenth (f_of_Z k)) (- k) -> (k <= -3 \/ 8 <= k)%Z ->
  exists t z, write_double L utf8 mp d = Some t /\ digits_text t (Rlt_bool (real_of d) 0) z dexp /\ (0 <= z)%Z /\ Rabs (IZR z * unit_of - v) <= 51 / 100 * unit_of.
Proof.
  intros (Fw & Ew) K. pose proof (log_range _ _ _ Fd Nz Lg) as R. rewrite write_finish. unfold unit_of, dexp. assert (Ep : plain_exp = false) by (unfold plain_exp; lia). rewrite Ep.
  destruct near_bounds as (A & B). set (T := powerRZ 10 k) in *. assert (Tp : 0 < T) by apply p10_pos.
  rewrite powerRZ_add in B by lra. fold T in B. change (powerRZ 10 1) with (10 * 1) in B. rewrite p10_opp in Ew. fold T in Ew.
  set (w := real_of (lm_pow L f_tenth (f_of_Z k))) in *. assert (Iv : 0 < / T) by (apply Rinv_0_lt_compat; exact Tp).
  set (u := v / T). assert (Eu : v = u * T) by (unfold u; field; lra). assert (U : 99 / 100 <= u < 101 / 10).
  { split; [apply Rmult_le_reg_r with T|apply Rmult_lt_reg_r with T]; try exact Tp; rewrite <- Eu; lra. }
  assert (W : Rabs (v * w - u) <= / 10 ^ 13 * u).
  { replace (v * w - u) with (v * (w - / T)) by (unfold u; field; lra). rewrite Rabs_mult, Rabs_Rabsolu. unfold u, Rdiv.
    replace (/ 10 ^ 13 * (v * / T)) with (v * (/ 10 ^ 13 * / T)) by ring. apply Rmult_le_compat_l; [apply Rabs_pos|exact Ew]. }
  assert (Ve : Rabs (v * w - u) <= 2 / 10 ^ 12) by (eapply Rle_trans; [exact W|]; lra). apply Rabs_le_inv in Ve.
  assert (Rr : Rabs (RN (v * w) - v * w) <= bpow radix2 (-50)). { apply (RN_err _ 4); [lia|]. rewrite Rabs_pos_eq by lra. change (bpow radix2 4) with 16. lra. }
  assert (Eb : bpow radix2 (-50) = / 1125899906842624) by reflexivity. rewrite Eb in Rr. apply Rabs_le_inv in Rr.
  assert (Dy : dbl (f_mul (f_abs d) (lm_pow L f_tenth (f_of_Z k))) (RN (v * w))).
  { apply mul_R; [apply abs_R, finite_dbl; exact Fd|apply finite_dbl; exact Fw|]. fold w. rewrite Rabs_pos_eq by lra. eapply Rlt_trans with (bpow radix2 10); [change (bpow radix2 10) with 1024; lra|apply bpow_lt; reflexivity]. }
  assert (Y : 0 <= RN (v * w) < 1000000000) by (split; lra). assert (Y' : RN (v * w) < 101 / 10 + / 10) by lra.
  destruct (finish_close (Rlt_bool (real_of d) 0) _ _ k Dy Y (or_intror Y')) as (t & z & E & J & Z0 & C).
  exists t, z. split; [exact E|]. split; [exact J|]. split; [exact Z0|].
  assert (Pp : 0 < 10 ^ p) by (apply pow_lt; lra). assert (Pb : 10 ^ p <= 10 ^ 9) by (apply Rle_pow; [lra|apply Nat.le_min_r]).
  assert (Ie : 0 < / 10 ^ p) by (apply Rinv_0_lt_compat; exact Pp).
  replace (IZR z * (T / 10 ^ p) - v) with ((IZR z - u * 10 ^ p) * (T / 10 ^ p)) by (rewrite Eu; field; lra). rewrite Rabs_mult, (Rabs_pos_eq (T / _)) by (unfold Rdiv; nra).
  apply Rmult_le_compat_r; [unfold Rdiv; nra|]. apply Rabs_le_inv in C. apply Rabs_le.
  assert (D : Rabs ((RN (v * w) - u) * 10 ^ p) <= 4 / 1000).
  { rewrite Rabs_mult, (Rabs_pos_eq (10 ^ p)) by lra. apply Rle_trans with (4 / 10 ^ 12 * 10 ^ 9); [|lra]. apply Rmult_le_compat; [apply Rabs_pos|lra| |exact Pb]. apply Rabs_le. lra. }
  apply Rabs_le_inv in D. assert (Q : RN (v * w) * 10 ^ p = u * 10 ^ p + (RN (v * w) - u) * 10 ^ p) by ring. lra.
Qed.
Lemma write_any : (plain_exp = false -> near_power (lm_pow L f_tenth (f_of_Z k)) (- k)) ->
  exists t z, write_double L utf8 mp d = Some t /\ digits_text t (Rlt_bool (real_of d) 0) z dexp /\ (0 <= z)%Z /\ Rabs (IZR z * unit_of - v) <= 51 / 100 * unit_of.
Proof.
  intros H. unfold plain_exp in H. destruct (Z_lt_le_dec (-3) k), (Z_lt_le_dec k 8); [apply write_plain; lia|apply write_scaled; [apply H|]; lia|apply write_scaled; [apply H|]; lia|lia].
Qed.
Lemma digits_value : forall t sign z e, (-400 <= e <= 400)%Z -> digits_text t sign z e ->
  exists n m q x, parts_of t sign n m q x /\ (0 <= n <= 1000000000)%Z /\ (0 <= m)%Z /\ (q <= 9)%nat /\ (IZR n + IZR m / 10 ^ q) * powerRZ 10 x = IZR z * (powerRZ 10 e / 10 ^ p) /\
    ((x = e /\ (IZR n + IZR m / 10 ^ q = IZR z / 10 ^ p)%R) \/ (x = e + 1 /\ e <> 0 /\ n = 1 /\ m = 0 /\ z = 10 * 10 ^ Z.of_nat p))%Z.
Proof.
  intros t sign z e R (n & m & x & E & N & M & C). destruct (dbl_text_parts sign n m p x ltac:(lia) M ltac:(lia)) as (m' & q & Q & Em & P). assert (Pp : 0 < 10 ^ p) by (apply pow_lt; lra). assert (Pq : 0 < 10 ^ q) by (apply pow_lt; lra).
  assert (M0 : (0 <= m')%Z). { apply le_IZR. assert (0 <= IZR m / 10 ^ p) by (apply Rmult_le_pos; [apply IZR_le; lia|apply Rlt_le, Rinv_0_lt_compat; exact Pp]). replace (IZR m') with (IZR m' / 10 ^ q * 10 ^ q) by (field; lra). rewrite Em. nra. }
  exists n, m', q, x. rewrite <- E in P. split; [exact P|]. split; [lia|]. split; [exact M0|]. split; [lia|]. rewrite Em.
  destruct C as [(-> & ->)|(-> & E0 & -> & -> & ->)].
  - split; [|left; split; [reflexivity|]]; rewrite plus_IZR, mult_IZR, pow10; field; lra.
  - split.
    + rewrite mult_IZR, pow10, powerRZ_add by lra. change (powerRZ 10 1) with (10 * 1). field. lra.
    + right. repeat split; auto. assert (H : IZR m' / 10 ^ q * 10 ^ q = 0) by (rewrite Em; field; lra). apply eq_IZR. rewrite <- H. field. lra.
Qed.
Lemma sign_value : real_of d = (if Rlt_bool (real_of d) 0 then -1 else 1) * v.
Proof. destruct (Rlt_bool_spec (real_of d) 0); [rewrite Rabs_left by lra|rewrite Rabs_pos_eq by lra]; ring. Qed.
Lemma sign_close : forall x e, Rabs (x - v) <= e -> Rabs ((if Rlt_bool (real_of d) 0 then -1 else 1) * x - real_of d) <= e.
Proof.
  intros x e H. pose proof sign_value as E. destruct (Rlt_bool (real_of d) 0); [rewrite <- Rabs_Ropp|]; (eapply Rle_trans; [|exact H]); apply Req_le; f_equal; lra.
Qed.
End Write.
