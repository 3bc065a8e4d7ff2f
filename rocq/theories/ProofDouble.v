(** The text of a double: digits. *)
From Coq Require Import ZArith Reals Lia Lra Psatz Floats.SpecFloat ZifyBool.
From Flocq Require Import Core.Core IEEE754.BinarySingleNaN.
From Verif Require Import Base ModelValue SpecText SpecBin ModelText ProofText1 SpecDouble ProofReal.
Local Open Scope Z_scope.
Ltac Zify.zify_post_hook ::= Z.div_mod_to_equations.

(** *** Decimal texts *)
Lemma digits_app : forall a b, Forall digit_char b -> dec_value (a ++ b) = dec_value a * 10 ^ Z.of_nat (length b) + dec_value b.
Proof.
  intros a b. induction b as [|c b IH] using rev_ind; intros F.
  - rewrite app_nil_r. change (dec_value []) with 0. cbn. lia.
  - apply Forall_app in F as (F & _). rewrite app_assoc, !dec_value_app1, (IH F), app_length. cbn [length].
    replace (Z.of_nat (length b + 1)) with (Z.succ (Z.of_nat (length b))) by lia. rewrite Z.pow_succ_r by lia. lia.
Qed.
Lemma write_digits_spec : forall d v, (1 <= d)%nat -> 0 <= v < 10 ^ Z.of_nat d ->
  Forall digit_char (write_digits v d) /\ dec_value (write_digits v d) = v /\ length (write_digits v d) = d.
Proof.
  induction d as [|d IH]; intros v D V; [lia|]. destruct d as [|d].
  - change (10 ^ Z.of_nat 1) with 10 in V. cbn [write_digits]. split; [repeat constructor; unfold digit_char; lia|]. split; [|reflexivity]. unfold dec_value. cbn [fold_left]. lia.
  - cbn [write_digits]. rewrite Nat2Z.inj_succ, Z.pow_succ_r in V by lia.
    destruct (IH (v / 10) ltac:(lia)) as (A & B & C). { lia. }
    change (match d with O => [48 + v / 10 mod 10] | S _ => write_digits (v / 10 / 10) d ++ [48 + v / 10 mod 10] end) with (write_digits (v / 10) (S d)).
    split; [apply Forall_app; split; [exact A|repeat constructor; unfold digit_char; lia]|]. split.
    + rewrite dec_value_app1, B. lia.
    + rewrite app_length, C. cbn. lia.
Qed.
Lemma strip_spec : forall f m d, 0 < m < 10 ^ Z.of_nat d -> exists k, strip_zeros f m d = (m / 10 ^ Z.of_nat k, (d - k)%nat) /\ (k < d)%nat /\ m mod 10 ^ Z.of_nat k = 0 /\
  (((d <= f)%nat) -> (m / 10 ^ Z.of_nat k) mod 10 <> 0).
Proof.
  induction f as [|f IH]; intros m d M.
  - exists 0%nat. cbn [strip_zeros]. change (10 ^ Z.of_nat 0) with 1. rewrite Z.div_1_r, Nat.sub_0_r, Z.mod_1_r.
    assert (d <> 0)%nat by (intros ->; change (10 ^ Z.of_nat 0) with 1 in M; lia). repeat split; lia.
  - cbn [strip_zeros]. destruct (Z.eqb_spec m 0) as [|Nz]; [lia|]. cbn [negb andb]. destruct (Z.eqb_spec (m mod 10) 0) as [E|E].
    + destruct d as [|d]; [change (10 ^ Z.of_nat 0) with 1 in M; lia|]. rewrite Nat2Z.inj_succ, Z.pow_succ_r in M by lia.
      destruct (IH (m / 10) d) as (k & S & K & D & T); [lia|]. exists (Datatypes.S k). cbn [Nat.pred Nat.sub]. rewrite S.
      rewrite Nat2Z.inj_succ, Z.pow_succ_r by lia. assert (P : 0 < 10 ^ Z.of_nat k) by (apply Z.pow_pos_nonneg; lia).
      rewrite Z.div_div in * by lia. split; [reflexivity|]. split; [lia|]. split.
      * apply Z.mod_divide in E; [|lia]. destruct E as (q & ->). rewrite (Z.mul_comm q 10), Z.mul_mod_distr_l by lia.
        rewrite Z.div_mul in D by lia. lia.
      * intros G. apply T. lia.
    + exists 0%nat. change (10 ^ Z.of_nat 0) with 1. rewrite Z.div_1_r, Nat.sub_0_r, Z.mod_1_r.
      assert (d <> 0)%nat by (intros ->; change (10 ^ Z.of_nat 0) with 1 in M; lia). repeat split; auto; lia.
Qed.

Local Open Scope R_scope.
Lemma pow10 : forall k, IZR (10 ^ Z.of_nat k) = 10 ^ k.
Proof. intros k. rewrite <- pow_IZR. reflexivity. Qed.

(** The text written from its parts. *)
Definition dbl_text (sign : bool) (intp m : Z) (p : nat) (x : Z) : bytes :=
  let '(m', digits) := strip_zeros 20 m p in
  (if sign then [45%Z] else []) ++ write_unsigned intp ++
  (if (m =? 0)%Z then [] else 46%Z :: write_digits m' digits) ++
  (if (x =? 0)%Z then [] else 101%Z :: (if (0 <? x)%Z then [43%Z] else []) ++ write_signed x).
(** A number text by its parts: a fraction is left out when it is zero, and so is the exponent. *)
Definition parts_of (t : bytes) (sign : bool) (n m : Z) (q : nat) (x : Z) : Prop :=
  exists ip fp ep, t = (if sign then [45%Z] else []) ++ ip ++ fp ++ ep /\ int_text ip n /\ frac_text fp m q /\ exp_text ep x /\
    (fp = [] \/ m <> 0%Z) /\ (ep = [] \/ x <> 0%Z).
Lemma dbl_text_parts : forall sign intp m p x, (0 <= intp < 2 ^ 64)%Z -> (0 <= m < 10 ^ Z.of_nat p)%Z -> (- 2 ^ 63 < x < 2 ^ 63)%Z ->
  exists m' q, (q <= p)%nat /\ IZR m' / 10 ^ q = IZR m / 10 ^ p /\ parts_of (dbl_text sign intp m p x) sign intp m' q x.
Proof.
  intros sign intp m p x I M X. unfold dbl_text.
  destruct (write_unsigned_spec intp I) as (U1 & U2 & U3 & U4).
  assert (Ex : exp_text (if (x =? 0)%Z then [] else 101%Z :: (if (0 <? x)%Z then [43%Z] else []) ++ write_signed x) x).
  { destruct (Z.eqb_spec x 0) as [->|Nx]; [left; auto|right]. unfold write_signed.
    destruct (Z.ltb_spec 0 x) as [P|P].
    - destruct (Z.ltb_spec x 0); [lia|]. destruct (write_unsigned_spec x ltac:(lia)) as (V1 & V2 & V3 & V4).
      exists 101%Z, [43%Z], (write_unsigned x). split; [reflexivity|]. split; [auto|]. split; [exact V1|]. split; [exact V2|]. left. auto.
    - destruct (Z.ltb_spec x 0); [|lia]. assert (E : u64 (- x) = (- x)%Z) by (unfold u64; apply Z.mod_small; lia). rewrite E.
      destruct (write_unsigned_spec (- x) ltac:(lia)) as (V1 & V2 & V3 & V4).
      exists 101%Z, [45%Z], (write_unsigned (- x)). split; [reflexivity|]. split; [auto|]. split; [exact V1|]. split; [exact V2|]. right. split; [reflexivity|]. rewrite V3. lia. }
  assert (It : int_text (write_unsigned intp) intp).
  { split; [exact U2|]. split; [auto|exact U4]. }
  assert (Ee : (if (x =? 0)%Z then [] else 101%Z :: (if (0 <? x)%Z then [43%Z] else []) ++ write_signed x) = [] \/ x <> 0%Z) by (destruct (Z.eqb_spec x 0); auto).
  destruct (Z.eqb_spec m 0) as [->|Nm].
  - destruct (strip_zeros 20 0 p) as [m' d] eqn:Es. exists 0%Z, 0%nat. split; [lia|]. split; [unfold Rdiv; rewrite !Rmult_0_l; reflexivity|].
    exists (write_unsigned intp), [], (if (x =? 0)%Z then [] else 101%Z :: (if (0 <? x)%Z then [43%Z] else []) ++ write_signed x).
    split; [reflexivity|]. split; [exact It|]. split; [left; auto|]. split; [exact Ex|]. auto.
  - destruct (strip_spec 20 m p ltac:(lia)) as (k & Es & K & D & _). rewrite Es.
    set (q := (10 ^ Z.of_nat k)%Z) in *. assert (Pq : (0 < q)%Z) by (apply Z.pow_pos_nonneg; lia).
    assert (Hp10 : (10 ^ Z.of_nat p = 10 ^ Z.of_nat (p - k) * q)%Z) by (unfold q; rewrite <- Z.pow_add_r by lia; f_equal; lia).
    assert (Hm : (m = m / q * q)%Z) by (pose proof (Z.div_mod m q ltac:(lia)); lia).
    destruct (write_digits_spec (p - k) (m / q)) as (W1 & W2 & W3); [lia| |].
    { split; [apply Z.div_pos; lia|]. apply Z.div_lt_upper_bound; [lia|]. rewrite Hp10 in M. lia. }
    exists (m / q)%Z, (p - k)%nat. split; [lia|]. split.
    { rewrite <- !pow10. rewrite Hp10, mult_IZR. rewrite Hm at 2. rewrite mult_IZR. field. split; apply not_0_IZR; [lia|]. pose proof (Z.pow_pos_nonneg 10 (Z.of_nat (p - k))). lia. }
    exists (write_unsigned intp), (46%Z :: write_digits (m / q) (p - k)), (if (x =? 0)%Z then [] else 101%Z :: (if (0 <? x)%Z then [43%Z] else []) ++ write_signed x).
    split; [reflexivity|]. split; [exact It|]. split.
    { right. exists (write_digits (m / q) (p - k)). split; [reflexivity|]. split; [intros Z0; rewrite Z0 in W3; cbn in W3; lia|]. auto. }
    split; [exact Ex|]. split; [right|exact Ee]. intros Z0. rewrite Z0 in Hm. lia.
Qed.
Lemma parts_number : forall t sign n m q x, parts_of t sign n m q x -> json_number t ((if sign then -1 else 1) * (IZR n + IZR m / 10 ^ q) * powerRZ 10 x).
Proof.
  intros t sign n m q x (ip & fp & ep & E & I & Fr & X & _). exists (if sign then [45%Z] else []), ip, fp, ep, n, m, q, x.
  split; [exact E|]. split; [destruct sign; auto|]. repeat (split; [assumption|]). destruct sign; reflexivity.
Qed.

(** *** Digits after the point *)
Lemma half_R : dbl f_half (/ 2).
Proof. split; [reflexivity|]. split; [reflexivity|]. unfold f_half. cbn [SF2R]. unfold F2R. cbn [Fnum Fexp cond_Zopp]. rewrite bpow_inv by lia. change (2 ^ - -53)%Z with 9007199254740992%Z. lra. Qed.
Lemma frac_digits : forall frac fr mult, dbl frac fr -> 0 <= fr < 1 -> (1 <= mult <= 10 ^ 9)%Z ->
  exists N, f_to_u64 (f_floor (f_add (f_mul frac (f_of_Z mult)) f_half)) = Some N /\ (0 <= N <= mult)%Z /\ Rabs (IZR N - fr * IZR mult) <= / 2 + / 2 ^ 22.
Proof.
  intros frac fr mult H (F0 & F1) M.
  assert (Dm : dbl (f_of_Z mult) (IZR mult)) by (apply of_Z_R; lia).
  assert (M1 : 1 <= IZR mult) by (apply IZR_le; lia). assert (M2 : IZR mult <= 10 ^ 9) by (replace (10 ^ 9) with (IZR (10 ^ 9)) by (cbn; lra); apply IZR_le; lia).
  assert (P30 : bpow radix2 30 = 1073741824) by reflexivity.
  assert (Big : 2000000000 < bpow radix2 1024) by (eapply Rlt_trans with (bpow radix2 31); [cbn; lra|apply bpow_lt; reflexivity]).
  set (a0 := fr * IZR mult). assert (A0 : 0 <= a0 <= IZR mult) by (unfold a0; nra).
  assert (A : 0 <= RN a0 <= IZR mult). { apply RN_bounds; [change 0 with (IZR 0); apply format_int; cbn; lia|apply format_int; lia|exact A0]. }
  assert (Ea : Rabs (RN a0 - a0) <= bpow radix2 (-24)). { apply (RN_err a0 30); [lia|]. rewrite Rabs_pos_eq by lra. rewrite P30. lra. }
  assert (Da : dbl (f_mul frac (f_of_Z mult)) (RN a0)). { apply mul_R; [exact H|exact Dm|]. fold a0. rewrite Rabs_pos_eq by lra. lra. }
  set (a := RN a0) in *. set (b0 := a + / 2).
  assert (Fh : format (IZR mult + / 2)).
  { replace (IZR mult + / 2) with (IZR (2 * mult + 1) * bpow radix2 (-1)) by (rewrite plus_IZR, mult_IZR; cbn; lra). apply format_scaled; lia. }
  assert (Fz : format (/ 2)). { replace (/ 2) with (IZR 1 * bpow radix2 (-1)) by (cbn; lra). apply format_scaled; cbn; lia. }
  assert (B : / 2 <= RN b0 <= IZR mult + / 2). { apply RN_bounds; [exact Fz|exact Fh|unfold b0; lra]. }
  assert (Eb : Rabs (RN b0 - b0) <= bpow radix2 (-23)). { apply (RN_err b0 31); [lia|]. unfold b0. rewrite Rabs_pos_eq by lra. cbn. lra. }
  assert (Db : dbl (f_add (f_mul frac (f_of_Z mult)) f_half) (RN b0)). { apply add_R; [exact Da|exact half_R|]. fold b0. rewrite Rabs_pos_eq by lra. lra. }
  set (b := RN b0) in *. destruct (floor_R _ _ Db) as (_ & Df). exists (Zfloor b).
  assert (Lb := Zfloor_lb b). assert (Ub := Zfloor_ub b).
  assert (N0 : (0 <= Zfloor b)%Z) by (apply Zfloor_lub; lra).
  assert (N1 : (Zfloor b <= mult)%Z). { apply le_IZR. destruct (Z.le_gt_cases (Zfloor b) mult) as [C|C]; [apply IZR_le; exact C|]. assert (IZR (mult + 1) <= IZR (Zfloor b)) by (apply IZR_le; lia). rewrite plus_IZR in H0. lra. }
  split.
  - pose proof (to_u64_R _ _ Df) as T. rewrite Zfloor_IZR in T. apply T; [apply IZR_le; exact N0|]. lia.
  - split; [lia|]. fold a0. assert (E1 : bpow radix2 (-24) = / 16777216) by reflexivity. assert (E2 : bpow radix2 (-23) = / 8388608) by reflexivity.
    rewrite E1 in Ea. rewrite E2 in Eb. apply Rabs_le_inv in Ea. apply Rabs_le_inv in Eb. apply Rabs_le. unfold b0 in *. split; lra.
Qed.
