(** Doubles: digits, rounding of integers, bit patterns. *)
From Coq Require Import Zpower ZifyBool.
From Verif Require Import Base ModelValue ModelBin SpecBin.
Local Open Scope Z_scope.

Lemma digits_bounds : forall p, 2 ^ (Z.pos (digits2_pos p) - 1) <= Z.pos p < 2 ^ Z.pos (digits2_pos p).
Proof.
  induction p as [p IH|p IH|]; cbn [digits2_pos]; [| |cbn; lia].
  - rewrite Pos2Z.inj_succ. set (d := Z.pos (digits2_pos p)) in *. assert (1 <= d) by (unfold d; lia).
    replace (Z.succ d - 1) with (Z.succ (d - 1)) by lia. rewrite !Z.pow_succ_r by lia. lia.
  - rewrite Pos2Z.inj_succ. set (d := Z.pos (digits2_pos p)) in *. assert (1 <= d) by (unfold d; lia).
    replace (Z.succ d - 1) with (Z.succ (d - 1)) by lia. rewrite !Z.pow_succ_r by lia. lia.
Qed.

Lemma digits_unique : forall p d, 1 <= d -> 2 ^ (d - 1) <= Z.pos p < 2 ^ d -> Z.pos (digits2_pos p) = d.
Proof.
  intros p d Hd H. pose proof (digits_bounds p) as B. set (e := Z.pos (digits2_pos p)) in *. assert (1 <= e) by (unfold e; lia).
  destruct (Z.lt_trichotomy e d) as [L|[E|L]]; auto; exfalso.
  - assert (2 ^ e <= 2 ^ (d - 1)) by (apply Z.pow_le_mono_r; lia). lia.
  - assert (2 ^ d <= 2 ^ (e - 1)) by (apply Z.pow_le_mono_r; lia). lia.
Qed.

Lemma Zdigits_unique : forall m d, 1 <= d -> 2 ^ (d - 1) <= m < 2 ^ d -> Zdigits2 m = d.
Proof.
  intros m d Hd H. assert (0 < m) by (pose proof (Z.pow_pos_nonneg 2 (d - 1)); lia).
  destruct m as [|p|p]; try lia. cbn [Zdigits2]. apply digits_unique; auto.
Qed.

Lemma fexp_big : forall d, -1021 <= d -> fexp fprec femax d = d - 53.
Proof. intros d H. unfold fexp, emin, fprec, femax. lia. Qed.

Lemma shr_1_m : forall r, 0 <= shr_m r -> shr_m (shr_1 r) = shr_m r / 2.
Proof.
  intros [m r s] H. cbn [shr_m] in *. destruct m as [|p|p]; try lia; [reflexivity|].
  destruct p as [p|p|]; cbn [shr_1 shr_m]; try reflexivity.
  - rewrite (Pos2Z.inj_xI p). apply Z.div_unique with 1; lia.
  - rewrite (Pos2Z.inj_xO p). apply Z.div_unique with 0; lia.
Qed.

Lemma iter_shr : forall n r, 0 <= shr_m r -> shr_m (iter_pos shr_1 n r) = shr_m r / 2 ^ Z.pos n.
Proof.
  induction n as [n IH|n IH|]; intros r H; cbn [iter_pos].
  - assert (H1 : 0 <= shr_m (shr_1 r)) by (rewrite shr_1_m by auto; apply Z.div_pos; lia).
    rewrite !IH, shr_1_m; auto. 2:{ rewrite IH by auto. apply Z.div_pos; [auto|apply Z.pow_pos_nonneg; lia]. }
    rewrite !Z.div_div by (try apply Z.pow_nonzero; try apply Z.pow_pos_nonneg; lia).
    f_equal. rewrite (Pos2Z.inj_xI n). replace (2 * Z.pos n + 1) with (1 + (Z.pos n + Z.pos n)) by lia.
    rewrite !Z.pow_add_r by lia. lia.
  - rewrite !IH; auto. 2:{ rewrite IH by auto. apply Z.div_pos; [auto|apply Z.pow_pos_nonneg; lia]. }
    rewrite !Z.div_div by (try apply Z.pow_nonzero; try apply Z.pow_pos_nonneg; lia).
    f_equal. rewrite (Pos2Z.inj_xO n). replace (2 * Z.pos n) with (Z.pos n + Z.pos n) by lia.
    rewrite !Z.pow_add_r by lia. lia.
  - rewrite shr_1_m by auto. reflexivity.
Qed.

(** A mantissa of 53 bits is left alone. *)
Lemma shr_fexp_53 : forall m e, 2 ^ 52 <= m < 2 ^ 53 -> -1074 <= e ->
  shr_fexp fprec femax m e loc_Exact = (Build_shr_record m false false, e).
Proof.
  intros m e Hm He. unfold shr_fexp. rewrite (Zdigits_unique m 53) by (auto; lia).
  rewrite fexp_big by lia. replace (53 + e - 53 - e) with 0 by lia. reflexivity.
Qed.

Lemma finite_valid : forall s m e, 2 ^ 52 <= Z.pos m < 2 ^ 53 -> -1074 <= e <= 971 -> is_double (S754_finite s m e).
Proof.
  intros s m e Hm He. unfold is_double, valid_binary, bounded, canonical_mantissa.
  rewrite (digits_unique m 53) by (auto; lia). rewrite fexp_big by lia.
  replace (53 + e - 53) with e by lia.
  assert (Zeq_bool e e = true) as -> by (apply Zeq_is_eq_bool; reflexivity).
  unfold femax, fprec. cbn [andb]. apply Zle_imp_le_bool. lia.
Qed.

(** The shifted mantissa with its round and sticky bits. *)
Lemma iter_nat_pos : forall (A : Type) (f : A -> A) n x, iter_pos f n x = Nat.iter (Pos.to_nat n) f x.
Proof.
  intros A f. assert (C : forall k x, Nat.iter k f (f x) = f (Nat.iter k f x)) by (induction k; intros; cbn; [reflexivity|f_equal; apply IHk]).
  assert (D : forall a b x, Nat.iter (a + b) f x = Nat.iter a f (Nat.iter b f x)) by (induction a; intros; cbn; [reflexivity|f_equal; apply IHa]).
  induction n as [n IH|n IH|]; intros x; cbn [iter_pos].
  - rewrite !IH, <- D, Pos2Nat.inj_xI. cbn [Nat.iter]. rewrite C.
    replace (2 * Pos.to_nat n)%nat with (Pos.to_nat n + Pos.to_nat n)%nat by lia. reflexivity.
  - rewrite !IH, <- D, Pos2Nat.inj_xO. replace (2 * Pos.to_nat n)%nat with (Pos.to_nat n + Pos.to_nat n)%nat by lia. reflexivity.
  - reflexivity.
Qed.

Lemma shr_1_eq : forall m r s, 0 <= m -> shr_1 (Build_shr_record m r s) = Build_shr_record (m / 2) (Z.odd m) (r || s).
Proof.
  intros m r s H. destruct m as [|[p|p|]|p]; try lia; cbn [shr_1]; try reflexivity.
  - f_equal. rewrite (Pos2Z.inj_xI p). apply Z.div_unique with 1; lia.
  - f_equal. rewrite (Pos2Z.inj_xO p). apply Z.div_unique with 0; lia.
Qed.

Lemma shr_loc : forall k m, 0 <= m -> let r := Nat.iter (S k) shr_1 (Build_shr_record m false false) in
  let h := 2 ^ Z.of_nat k in
  exists q rr t, r = Build_shr_record q rr t /\ 0 <= q /\ m = q * (2 * h) + (if rr then h else 0) + (m mod h) /\
    (t = true <-> m mod h <> 0).
Proof.
  induction k as [|k IH]; intros m Hm r h.
  - unfold r, h. change (Nat.iter 1 shr_1 ?x) with (shr_1 x). rewrite shr_1_eq by auto.
    exists (m / 2), (Z.odd m), false. split; [reflexivity|]. change (2 ^ Z.of_nat 0) with 1. rewrite Z.mod_1_r.
    split; [apply Z.div_pos; lia|]. split; [|split; [discriminate|lia]].
    rewrite Zodd_mod. pose proof (Z.div_mod m 2 ltac:(lia)) as D. pose proof (Z.mod_pos_bound m 2 ltac:(lia)).
    destruct (Zeq_bool (m mod 2) 1) eqn:E; [apply Zeq_bool_eq in E|apply Zeq_bool_neq in E]; lia.
  - destruct (IH m Hm) as (q & rr & t & E & Hq & Em & Et). set (h0 := 2 ^ Z.of_nat k) in *.
    assert (Hh : h = 2 * h0) by (unfold h, h0; rewrite Nat2Z.inj_succ, Z.pow_succ_r by lia; reflexivity).
    assert (Hh0 : 0 < h0) by (unfold h0; apply Z.pow_pos_nonneg; lia).
    assert (Hr : r = shr_1 (Build_shr_record q rr t)) by (unfold r; rewrite <- E; reflexivity).
    rewrite shr_1_eq in Hr by auto. exists (q / 2), (Z.odd q), (rr || t)%bool. split; [exact Hr|].
    split; [apply Z.div_pos; lia|].
    pose proof (Z.mod_pos_bound m h0 Hh0) as B.
    assert (Emod : m mod h = (if rr then h0 else 0) + m mod h0).
    { symmetry. apply Z.mod_unique with q; [|rewrite Hh; rewrite Em at 1; ring].
      left. rewrite Hh. destruct rr; lia. }
    split.
    + rewrite Emod, Hh. rewrite Em at 1. rewrite Zodd_mod.
      pose proof (Z.div_mod q 2 ltac:(lia)) as D. pose proof (Z.mod_pos_bound q 2 ltac:(lia)).
      destruct (Zeq_bool (q mod 2) 1) eqn:E2; [apply Zeq_bool_eq in E2|apply Zeq_bool_neq in E2].
      * replace q with (2 * (q / 2) + 1) at 1 by lia. ring.
      * replace q with (2 * (q / 2)) at 1 by lia. ring.
    + rewrite Emod. destruct rr; cbn [orb]; [split; intros; [lia|reflexivity]|]. rewrite Z.add_0_l. exact Et.
Qed.

(** Rounding a mantissa of 53 bits or more. *)
Lemma round_aux_valid : forall s m e k, 0 <= k -> 2 ^ 52 <= m / 2 ^ k < 2 ^ 53 -> 0 <= m -> -1074 <= e -> e + k <= 970 ->
  exists m' e', binary_round_aux fprec femax s m e loc_Exact = S754_finite s m' e' /\
    2 ^ 52 <= Z.pos m' < 2 ^ 53 /\ e + k <= e' <= e + k + 1 /\
    2 * Z.abs (m - Z.pos m' * 2 ^ (e' - e)) <= 2 ^ k /\
    (k = 0 -> e' = e /\ m = Z.pos m').
Proof.
  intros s m e k Hk Hq Hm He Hek. unfold binary_round_aux.
  assert (Hp : 0 < 2 ^ k) by (apply Z.pow_pos_nonneg; lia).
  assert (Hd : Zdigits2 m = 53 + k).
  { apply Zdigits_unique; [lia|]. pose proof (Z.div_mod m (2 ^ k)) as D. pose proof (Z.mod_pos_bound m (2 ^ k) Hp) as B.
    assert (2 ^ (53 + k - 1) = 2 ^ 52 * 2 ^ k) as -> by (replace (53 + k - 1) with (52 + k) by lia; apply Z.pow_add_r; lia).
    assert (2 ^ (53 + k) = 2 ^ 53 * 2 ^ k) as -> by (apply Z.pow_add_r; lia). nia. }
  assert (Hs : exists r, shr_fexp fprec femax m e loc_Exact = (r, e + k) /\
    let mm := round_nearest_even (shr_m r) (loc_of_shr_record r) in
    m / 2 ^ k <= mm <= m / 2 ^ k + 1 /\ 2 * Z.abs (m - mm * 2 ^ k) <= 2 ^ k /\ (k = 0 -> mm = m)).
  { unfold shr_fexp. rewrite Hd, fexp_big by lia. replace (53 + k + e - 53 - e) with k by lia.
    cbn [shr_record_of_loc]. destruct k as [|n|n]; [| |lia].
    - eexists. split; [unfold shr; rewrite Z.add_0_r; reflexivity|]. cbv zeta.
      cbn [shr_m loc_of_shr_record round_nearest_even]. rewrite Z.div_1_r. change (2 ^ 0) with 1. lia.
    - eexists. split; [reflexivity|]. cbv zeta. rewrite iter_nat_pos.
      destruct (Pos2Nat.is_succ n) as [j Ej]. rewrite Ej.
      destruct (shr_loc j m Hm) as (q & rr & t & -> & Hq0 & Em & Et).
      assert (E2 : 2 ^ Z.pos n = 2 * 2 ^ Z.of_nat j).
      { replace (Z.pos n) with (Z.succ (Z.of_nat j)) by lia. apply Z.pow_succ_r. lia. }
      set (h := 2 ^ Z.of_nat j) in *. assert (Hh : 0 < h) by (unfold h; apply Z.pow_pos_nonneg; lia).
      pose proof (Z.mod_pos_bound m h Hh) as B.
      assert (Eq : m / 2 ^ Z.pos n = q).
      { symmetry. apply Z.div_unique with ((if rr then h else 0) + m mod h); rewrite E2; [left; destruct rr; lia|]. rewrite Em at 1. ring. }
      rewrite Eq, E2. cbn [shr_m]. split; [|split; [|discriminate]].
      + destruct rr, t; cbn [loc_of_shr_record round_nearest_even]; try lia. destruct (Z.even q); lia.
      + assert (Hn : forall x, m - x * (2 * h) = (q - x) * (2 * h) + (if rr then h else 0) + m mod h) by (intros x; rewrite Em at 1; ring).
        rewrite Hn. clear Hn. assert (Ht : t = false -> m mod h = 0) by (intros ->; destruct (Z.eq_dec (m mod h) 0); auto; apply Et in n0; discriminate).
        destruct rr, t; cbn [loc_of_shr_record round_nearest_even].
        * replace (q - (q + 1)) with (-1) by lia. lia.
        * rewrite Ht by reflexivity. destruct (Z.even q); [rewrite Z.sub_diag; lia|]. replace (q - (q + 1)) with (-1) by lia. lia.
        * rewrite Z.sub_diag. lia.
        * rewrite Z.sub_diag, Ht by reflexivity. lia. }
  destruct Hs as (r & -> & Hmm & Herr & H0). set (mm := round_nearest_even (shr_m r) (loc_of_shr_record r)) in *.
  destruct (Z_lt_le_dec mm (2 ^ 53)) as [Hlt|Hge].
  - rewrite shr_fexp_53 by lia. cbn [shr_m]. destruct mm as [|p|p] eqn:Ep; try lia.
    replace (Zle_bool (e + k) (femax - fprec)) with true by (symmetry; apply Zle_imp_le_bool; unfold femax, fprec; lia).
    exists p, (e + k). split; [reflexivity|]. replace (e + k - e) with k by lia. lia.
  - assert (mm = 2 ^ 53) as -> by lia. unfold shr_fexp. rewrite (Zdigits_unique (2 ^ 53) 54) by (cbn; lia).
    rewrite fexp_big by lia. replace (54 + (e + k) - 53 - (e + k)) with 1 by lia. cbn [shr iter_pos shr_record_of_loc].
    change (shr_m (shr_1 (Build_shr_record (2 ^ 53) false false))) with (Z.pos 4503599627370496).
    replace (Zle_bool (e + k + 1) (femax - fprec)) with true by (symmetry; apply Zle_imp_le_bool; unfold femax, fprec; lia).
    exists 4503599627370496%positive, (e + k + 1). split; [reflexivity|]. split; [lia|]. split; [lia|].
    replace (e + k + 1 - e) with (Z.succ k) by lia. rewrite Z.pow_succ_r by lia.
    change (Z.pos 4503599627370496) with (2 ^ 52). split; [lia|].
    intros ->. rewrite Z.div_1_r in Hq. specialize (H0 eq_refl). lia.
Qed.

(** The nearest double of a positive 64-bit integer. *)
Lemma round_int : forall s p, Z.pos p < 2 ^ 64 -> exists m e,
  binary_round fprec femax s p 0 = S754_finite s m e /\ -52 <= e <= 12 /\ nearest_double (Z.pos p) m e.
Proof.
  intros s p Hp. pose proof (digits_bounds p) as B. unfold binary_round. set (d := Z.pos (digits2_pos p)) in *.
  assert (1 <= d) by (unfold d; lia).
  assert (d <= 64). { destruct (Z_lt_le_dec 64 d) as [L|]; auto. assert (2 ^ 64 <= 2 ^ (d - 1)) by (apply Z.pow_le_mono_r; lia). lia. }
  rewrite Z.add_0_r, fexp_big by lia. unfold shl_align. rewrite Z.sub_0_r. unfold nearest_double.
  destruct (d - 53) as [|k|k] eqn:Ek.
  - assert (d = 53) as E by lia. rewrite E in B.
    destruct (round_aux_valid s (Z.pos p) 0 0) as (m & e & -> & Hm & He & Herr & Hx); [lia|rewrite Z.div_1_r; exact B|lia|lia|lia|].
    exists m, e. split; [reflexivity|]. destruct Hx as [-> <-]; [reflexivity|]. change (0 + 52) with 52. lia.
  - destruct (round_aux_valid s (Z.pos p) 0 (Z.pos k)) as (m & e & -> & Hm & He & Herr & _); try lia.
    2:{ exists m, e. split; [reflexivity|]. split; [lia|]. split; [lia|]. split; [lia|].
        rewrite Z.sub_0_r in Herr. rewrite !Z.pow_add_r by lia.
        assert (E : Z.pos p * 2 ^ 52 - Z.pos m * (2 ^ e * 2 ^ 52) = (Z.pos p - Z.pos m * 2 ^ e) * 2 ^ 52) by ring.
        assert (2 ^ Z.pos k <= 2 ^ e) by (apply Z.pow_le_mono_r; lia).
        split. { rewrite E, Z.abs_mul. change (Z.abs (2 ^ 52)) with (2 ^ 52). nia. }
        intros Hle. assert (2 ^ 53 <= 2 ^ (d - 1)) by (apply Z.pow_le_mono_r; lia).
        assert (Z.pos p = 2 ^ 53) as -> by lia.
        assert (Hd' : d = 54).
        { assert (d - 1 <= 53); [|lia]. destruct (Z_lt_le_dec 53 (d - 1)) as [L|]; auto.
          assert (2 ^ 54 <= 2 ^ (d - 1)) by (apply Z.pow_le_mono_r; lia). change (2 ^ 54) with (2 * 2 ^ 53) in *. lia. }
        assert (k = 1%positive) as -> by lia. change (2 ^ Z.pos 1) with 2 in Herr.
        assert (He' : e = 1 \/ e = 2) by lia. destruct He' as [-> | ->].
        - change (2 ^ 1) with 2 in *. lia.
        - change (2 ^ 2) with 4 in *. lia. }
    rewrite <- Ek. split.
    + apply Z.div_le_lower_bound; [apply Z.pow_pos_nonneg; lia|]. rewrite <- Z.pow_add_r by lia. replace (d - 53 + 52) with (d - 1) by lia. lia.
    + apply Z.div_lt_upper_bound; [apply Z.pow_pos_nonneg; lia|]. rewrite <- Z.pow_add_r by lia. replace (d - 53 + 53) with d by lia. lia.
  - assert (Es : Z.pos (shift_pos k p) = Z.pos p * 2 ^ (53 - d)).
    { rewrite shift_pos_correct, Z.mul_comm. f_equal. rewrite Z.pow_pos_fold. f_equal. lia. }
    destruct (round_aux_valid s (Z.pos (shift_pos k p)) (Z.neg k) 0) as (m & e & -> & Hm & He & _ & Hx); try lia.
    2:{ exists m, e. split; [reflexivity|]. split; [lia|]. split; [lia|]. split; [lia|].
        destruct Hx as [-> <-]; [reflexivity|]. rewrite Es, <- Z.mul_assoc, <- Z.pow_add_r by lia.
        replace (53 - d + (Z.neg k + 52)) with 52 by lia. rewrite Z.sub_diag. split; [|reflexivity].
        pose proof (Z.pow_nonneg 2 (Z.neg k + 52)). lia. }
    rewrite Z.div_1_r, Es.
    assert (2 ^ 52 = 2 ^ (d - 1) * 2 ^ (53 - d)) as -> by (rewrite <- Z.pow_add_r by lia; f_equal; lia).
    assert (2 ^ 53 = 2 ^ d * 2 ^ (53 - d)) as -> by (rewrite <- Z.pow_add_r by lia; f_equal; lia).
    assert (0 < 2 ^ (53 - d)) by (apply Z.pow_pos_nonneg; lia). nia.
Qed.

Lemma f_of_Z_nearest : forall n, 0 < n < 2 ^ 64 -> exists m e, f_of_Z n = S754_finite false m e /\ nearest_double n m e /\ e <= 12.
Proof.
  intros n H. destruct n as [|p|p]; try lia. unfold f_of_Z, binary_normalize.
  destruct (round_int false p) as (m & e & -> & He & Hn); [lia|]. exists m, e. split; [reflexivity|]. split; [exact Hn|lia].
Qed.
Lemma f_of_Z_double : forall n, 0 < n < 2 ^ 64 -> is_double (f_of_Z n) /\ exists m e, f_of_Z n = S754_finite false m e.
Proof.
  intros n H. destruct (f_of_Z_nearest n H) as (m & e & -> & [Hm [He _]] & He'). split; [|eauto]. apply finite_valid; lia.
Qed.

(** *** Bit patterns *)
Lemma bits_parts : forall (s : bool) ex mt, 0 <= ex < 2048 -> 0 <= mt < 2 ^ 52 ->
  let b := sign_bit s + (ex * 2 ^ 52 + mt) in
  (2 ^ 63 <=? b) = s /\ b / 2 ^ 52 mod 2048 = ex /\ b mod 2 ^ 52 = mt /\ 0 <= b < 2 ^ 64.
Proof.
  intros s ex mt He Hm b. unfold b. destruct s; unfold sign_bit.
  - split; [lia|]. replace (2 ^ 63 + (ex * 2 ^ 52 + mt)) with (mt + (2048 + ex) * 2 ^ 52) by lia.
    rewrite Z.div_add, Z.mod_add by lia. rewrite (Z.div_small mt), (Z.mod_small mt) by lia.
    split; [|split; [reflexivity|lia]]. rewrite Z.add_0_l. symmetry. apply Z.mod_unique with 1; lia.
  - split; [lia|]. rewrite Z.add_0_l. replace (ex * 2 ^ 52 + mt) with (mt + ex * 2 ^ 52) by lia.
    rewrite Z.div_add, Z.mod_add by lia. rewrite (Z.div_small mt), (Z.mod_small mt) by lia.
    split; [|split; [reflexivity|lia]]. rewrite Z.add_0_l. apply Z.mod_small; lia.
Qed.

Lemma bits_round_trip : forall f, is_double f -> bits_dbl (dbl_bits f) = f /\ 0 <= dbl_bits f < 2 ^ 64.
Proof.
  intros f Hf. unfold bits_dbl. destruct f as [s|s| |s m e]; cbn [dbl_bits].
  - destruct s; split; try reflexivity; unfold sign_bit; lia.
  - destruct s; split; try reflexivity; unfold sign_bit; lia.
  - split; [reflexivity|lia].
  - unfold is_double, valid_binary, bounded, canonical_mantissa in Hf. apply andb_true_iff in Hf as [H1 H2].
    apply Zeq_is_eq_bool in H1. apply Zle_bool_imp_le in H2. unfold femax, fprec in H2.
    pose proof (digits_bounds m) as B. set (d := Z.pos (digits2_pos m)) in *. assert (1 <= d) by (unfold d; lia).
    unfold fexp, emin, fprec, femax in H1.
    assert (Hd : d <= 53) by lia.
    assert (Hm53 : Z.pos m < 2 ^ 53). { assert (2 ^ d <= 2 ^ 53) by (apply Z.pow_le_mono_r; lia). lia. }
    destruct (Z.pos m <? 2 ^ 52) eqn:Em.
    + assert (Hlt : Z.pos m < 2 ^ 52) by lia.
      assert (d <= 52). { destruct (Z_lt_le_dec 52 d) as [L|]; auto. assert (2 ^ 52 <= 2 ^ (d - 1)) by (apply Z.pow_le_mono_r; lia). lia. }
      assert (e = -1074) by lia. subst e.
      destruct (bits_parts s 0 (Z.pos m)) as (P1 & P2 & P3 & P4); [lia|lia|].
      rewrite Z.mul_0_l, Z.add_0_l in *. rewrite P1, P2, P3. split; [reflexivity|lia].
    + assert (Hge : 2 ^ 52 <= Z.pos m) by lia.
      assert (He : -1074 <= e) by lia.
      destruct (bits_parts s (e + 1075) (Z.pos m - 2 ^ 52)) as (P1 & P2 & P3 & P4); [lia|lia|].
      rewrite P1, P2, P3. split; [|lia].
      replace (e + 1075 =? 0) with false by lia. replace (e + 1075 =? 2047) with false by lia.
      replace (Z.pos m - 2 ^ 52 + 2 ^ 52) with (Z.pos m) by lia. f_equal. lia.
Qed.

(** *** Little-endian numbers *)
Lemma le_length : forall n v, length (le_bytes n v) = n.
Proof. induction n; intros; cbn [le_bytes length]; auto. Qed.
Lemma le_is_bytes : forall n v, is_bytes (le_bytes n v).
Proof.
  induction n as [|n IH]; intros v; [constructor|]. cbn [le_bytes]. constructor; [|apply IH].
  unfold is_byte. apply Z.mod_pos_bound. lia.
Qed.
Lemma le_round_trip : forall n v, 0 <= v < 256 ^ Z.of_nat n -> le_value (le_bytes n v) = v.
Proof.
  induction n as [|n IH]; intros v H; cbn [le_bytes le_value]; [cbn in H; lia|].
  rewrite IH. { pose proof (Z.div_mod v 256). lia. }
  rewrite Nat2Z.inj_succ, Z.pow_succ_r in H by lia. split; [apply Z.div_pos; lia|].
  apply Z.div_lt_upper_bound; lia.
Qed.
