(** Reading number texts of any length: the number read. *)
From Coq Require Import ZArith Reals Lia Lra Psatz Floats.SpecFloat ZifyBool.
From Flocq Require Import Core.Core IEEE754.BinarySingleNaN.
From Verif Require Import Base ModelValue SpecText SpecBin ModelText SpecAccept SpecDouble SpecNumRead ProofText1 ProofText2 ProofText5 ProofAccept3 ProofReal ProofDouble ProofDouble2 ProofDouble3 ProofNear ProofNumRead.
Local Open Scope R_scope.

Lemma exponent_of_eq : forall e s ds, sign s -> ds <> [] -> digits ds ->
  exponent_of (e :: s ++ ds) = (if match s with [45%Z] => true | _ => false end then - dec_value ds else dec_value ds)%Z.
Proof.
  intros e s ds [->|[->| ->]] Ne H; [|reflexivity|reflexivity]. destruct ds as [|c ds]; [congruence|]. pose proof (Forall_inv H) as C. unfold digit_char in C.
  cbn [app]. assert (c = 48 \/ c = 49 \/ c = 50 \/ c = 51 \/ c = 52 \/ c = 53 \/ c = 54 \/ c = 55 \/ c = 56 \/ c = 57)%Z as K by lia.
  repeat (destruct K as [->|K]; [reflexivity|]). subst c. reflexivity.
Qed.
Lemma fraction_range : forall fp, (fp = [] \/ exists ds, fp = 46%Z :: ds /\ ds <> [] /\ digits ds) -> 0 <= fraction fp <= 1.
Proof.
  intros fp H. unfold fraction. assert (D : digits (tl fp)) by (destruct H as [->|(ds & -> & _ & D)]; [constructor|exact D]).
  pose proof (dec_bound _ D) as B. assert (P : 0 < 10 ^ length (tl fp)) by (apply pow_lt; lra).
  split; [apply Rmult_le_pos; [apply IZR_le; lia|left; apply Rinv_0_lt_compat; exact P]|]. apply Rmult_le_reg_r with (10 ^ length (tl fp)); [exact P|]. unfold Rdiv. rewrite Rmult_assoc, Rinv_l, Rmult_1_l, Rmult_1_r by lra. rewrite <- pow10. apply IZR_le. lia.
Qed.
Lemma at_pos_len : forall r (a s : list Z), at_pos r (a ++ s) -> (length a < large_fuel r)%nat.
Proof.
  intros [sr [c|]] a s H; unfold at_pos in H; cbn in H; unfold large_fuel; cbn [src].
  - destruct H as [H|(H & _)]; apply (f_equal (@length Z)) in H; rewrite app_length in H; cbn in H; lia.
  - rewrite H, app_length. lia.
Qed.
Lemma int_num_real : forall z, num_real (int_num z) = IZR z.
Proof. intros z. unfold int_num. destruct (z =? 0)%Z eqn:E; [|reflexivity]. apply Z.eqb_eq in E. subst z. reflexivity. Qed.
Lemma dbl_num_fin : forall d v, dbl d v -> finite_num (dbl_num d) /\ num_real (dbl_num d) = v.
Proof.
  intros d v D. rewrite dbl_num_real. destruct (dbl_finite _ _ D) as (Fd & E). split; [|exact E]. destruct d; cbn; auto.
Qed.
Notation sgn b := (if b then -1 else 1).
Lemma signed_close : forall (b : bool) y X, 0 <= X -> near (/ 10 ^ 11 - 2 * / 10 ^ 12) y X -> Rabs (sgn b * y - sgn b * X) <= / 10 ^ 11 * Rabs (sgn b * X).
Proof.
  intros b y X H N. apply rel_near in N; [|exact H|lra].
  assert (Rabs (y - X) <= / 10 ^ 11 * X).
  { eapply Rle_trans; [exact N|]. apply Rmult_le_compat_r; [exact H|]. apply Rmult_le_reg_r with (1 - (/ 10 ^ 11 - 2 * / 10 ^ 12)); [lra|]. unfold Rdiv. rewrite Rmult_assoc, Rinv_l by lra. lra. }
  replace (sgn b * y - sgn b * X) with (sgn b * (y - X)) by ring. rewrite !Rabs_mult, (Rabs_pos_eq X H).
  replace (Rabs (sgn b)) with 1; [lra|]. destruct b; [rewrite Rabs_left; lra|rewrite Rabs_R1; reflexivity].
Qed.

Section Read.
Variable L : libm.
Hypothesis GL : good_libm L.
Notation ec := (3 * / 10 ^ 13).
Notation pw := (2 * / 10 ^ 13).

Lemma large_start : forall d1 d2, digits d1 -> digits d2 -> (dec_value d1 < 2 ^ 64)%Z -> (d2 = [] \/ 2 ^ 60 <= dec_value d1)%Z -> (dec_value (d1 ++ d2) < 10 ^ 300)%Z ->
  exists d v, dbl d v /\ near (16 * ec) v (IZR (dec_value (d1 ++ d2))) /\
    forall r s, isdigit (hd_eof s) = false -> at_pos r (d2 ++ s) -> exists r', parse_large L (large_fuel r) (f_of_Z (dec_value d1)) r = Ok (d, r') /\ at_pos r' s.
Proof.
  intros d1 d2 H1 H2 P K B. pose proof (dec_bound d1 H1) as Pb.
  assert (Pr : 0 <= IZR (dec_value d1) <= 18446744073709551616) by (split; apply IZR_le; lia).
  assert (Tiny : bpow radix2 (-1022) <= 1) by (change 1 with (bpow radix2 0); apply bpow_le; lia).
  assert (Tp : 18446744073709551616 <= bpow radix2 1000) by (rewrite bpow_Z by lia; apply IZR_le; vm_compute; discriminate).
  assert (D : dbl (f_of_Z (dec_value d1)) (RN (IZR (dec_value d1)))) by (apply norm_R, top_big, RN_top; lra).
  assert (N : near ulp1 (RN (IZR (dec_value d1))) (IZR (dec_value d1))).
  { apply near_RN. destruct (Z.eq_dec (dec_value d1) 0) as [->|Nz]; [left; reflexivity|right]. assert (1 <= IZR (dec_value d1)) by (apply IZR_le; lia). lra. }
  assert (E : dec_value (d1 ++ d2) = fold10 d2 (dec_value d1)) by (unfold dec_value; rewrite fold_left_app; reflexivity). rewrite E in *.
  destruct (large_near L GL (length d2) d2 _ _ (dec_value d1) 0 (le_n _) H2 D) as (d & v & Dv & Nv & R).
  { eapply near_mono; [exact N|lra|]. cbn [INR]. lra. }
  { destruct K as [->|K]; [left; split; [reflexivity|]; lia|right]. change (18 + 19 * Z.of_nat 0)%Z with 18%Z. change (10 ^ 18)%Z with 1000000000000000000%Z. change (2 ^ 60)%Z with 1152921504606846976%Z in K. lia. }
  { exact B. }
  exists d, v. split; [exact Dv|]. split; [exact Nv|]. intros r s Hs Hr. apply R; auto. eapply at_pos_len. exact Hr.
Qed.

Lemma parse_double_near : forall (neg : bool) d1 d2 fp ex, digits d1 -> digits d2 -> (dec_value d1 < 2 ^ 64)%Z -> (d2 = [] \/ 2 ^ 60 <= dec_value d1)%Z -> (dec_value (d1 ++ d2) < 10 ^ 300)%Z ->
  frac_part fp -> exponent ex -> (length (tl fp) <= 300)%nat -> (-300 <= exponent_of ex <= 300)%Z ->
  (let X := (IZR (dec_value (d1 ++ d2)) + fraction fp) * powerRZ 10 (exponent_of ex) in
   (X = 0 \/ powerRZ 10 (-300) <= X <= powerRZ 10 300) ->
   exists d y, dbl d (sgn neg * y) /\ near (/ 10 ^ 11 - 2 * / 10 ^ 12) y X /\
    forall r rest, num_end rest -> at_pos r (d2 ++ fp ++ ex ++ rest) -> exists r', parse_double L (dec_value d1) neg r = Ok (VNum (dbl_num d), r') /\ at_pos r' rest).
Proof.
  intros neg d1 d2 fp ex H1 H2 P K B Hf He Lf Lx X HX.
  destruct (large_start d1 d2 H1 H2 P K B) as (d0 & v0 & D0 & N0 & R0).
  set (I := dec_value (d1 ++ d2)) in *. pose proof (fraction_range fp Hf) as Fr.
  assert (I0 : (0 <= I)%Z) by (unfold I; apply dec_bound; apply Forall_app; auto).
  assert (Ir : 0 <= IZR I <= powerRZ 10 300) by (rewrite p10_IZR by lia; split; apply IZR_le; lia).
  pose proof top_10 as Tp. pose proof tiny_10 as Ty. pose proof (p10_pos 300) as P3. pose proof (p10_pos (exponent_of ex)) as Px.
  assert (V0 : v0 = 0 \/ / 2 <= v0).
  { destruct (Z.eq_dec I 0) as [Z0|Nz]; [left; rewrite Z0 in N0; apply near_zero in N0; exact N0|right]. assert (1 <= IZR I) by (apply IZR_le; lia).
    edestruct near_le as (Q & _); [exact N0|lra|lra|]. lra. }
  edestruct near_le as (_ & Q0); [exact N0|lra|lra|].
  assert (P1 : 1 <= powerRZ 10 300) by (rewrite p10_IZR by lia; apply IZR_le; vm_compute; discriminate).
  assert (Tn : / (4 * powerRZ 10 300) <= / 2) by (apply Rinv_le; lra).
  assert (T84 : / (8 * powerRZ 10 300) <= / (4 * powerRZ 10 300)) by (apply Rinv_le; lra).
  assert (Q48 : 0 < / (4 * powerRZ 10 300)) by (apply Rinv_0_lt_compat; lra).
  (* with the fraction *)
  assert (HF : exists db b, dbl db b /\ near (16 * ec + ulp1) b (IZR I + fraction fp) /\ forall ex' rest, isdigit (hd_eof (ex' ++ rest)) = false -> (hd_eof (ex' ++ rest) =? 46)%Z = false -> forall r1, at_pos r1 (fp ++ ex' ++ rest) ->
    exists r2, (let '(c, r1') := next r1 in if (c =? 46)%Z
     then let '(c1, r1'') := next (commit r1') in
          if isdigit c1 then let '(fr, r1x) := parse_decimal L r1'' in Ok (f_add d0 fr, r1x) else Err
     else Ok (d0, r1')) = Ok (db, r2) /\ at_pos r2 (ex' ++ rest)).
  { destruct Hf as [->|(fds & -> & Hne & Hfd)].
    - exists d0, v0. split; [exact D0|]. split.
      + assert (E : IZR I + fraction [] = IZR I) by (unfold fraction; cbn; field). rewrite E. eapply near_mono; [exact N0|lra|lra].
      + intros ex' rest Es1 Es2 r1 Hr. cbn [app] in Hr. rewrite (next_at _ _ Hr), Es2. eexists. split; [reflexivity|apply at_next].
    - cbn [tl] in Lf. destruct (parse_decimal_near L GL fds Hfd Lf) as (fr & vf & Df & Nf & Vf & Rf).
      assert (Ef : fraction (46%Z :: fds) = IZR (dec_value fds) / 10 ^ length fds) by reflexivity. rewrite <- Ef in Nf. set (f := fraction (46%Z :: fds)) in *.
      edestruct near_le as (_ & Qf); [exact Nf|lra|lra|]. pose proof (near_nonneg _ _ _ Nf ltac:(lra)) as Vf0. pose proof (near_nonneg _ _ _ N0 ltac:(lra)) as V00.
      assert (Sn : near (16 * ec) (v0 + vf) (IZR I + f)) by (apply near_sum; [exact N0|eapply near_mono; [exact Nf|lra|lra]]).
      assert (Sz : v0 + vf = 0 \/ / (4 * powerRZ 10 300) <= v0 + vf).
      { destruct V0 as [->|V0], Vf as [->|Vf]; [left; ring|right; lra|right; lra|right; lra]. }
      exists (f_add d0 fr), (RN (v0 + vf)). split; [apply add_R; [exact D0|exact Df|apply top_big, RN_top; lra]|]. split.
      + rewrite Rplus_comm. eapply near_trans; [apply near_RN|exact Sn]. destruct Sz as [Sz|Sz]; [left; exact Sz|right; lra].
      + intros ex' rest Es1 Es2 r1 Hr. rewrite (next_at _ _ Hr). change (hd_eof ((46%Z :: fds) ++ ex' ++ rest)) with 46%Z. change (46 =? 46)%Z with true. cbv iota.
        cbn [app tl]. unfold commit. cbn [src]. rewrite (next_at (mkR (fds ++ ex' ++ rest) None) _ (at_none _)). rewrite (hd_app_digit fds _ Hfd Hne).
        rewrite (Rf _ (ex' ++ rest) Es1 (at_next _)). eexists. split; [reflexivity|apply at_next]. }
  destruct HF as (db & b & Db & Nb & Rb).
  assert (S0 : 0 <= IZR I + fraction fp) by lra.
  (* with the exponent *)
  assert (HE : exists dy y, dbl dy y /\ near (/ 10 ^ 11 - 2 * / 10 ^ 12) y X /\ forall rest, num_end rest -> forall r1, at_pos r1 (ex ++ rest) ->
    exists r2, (let '(c2, r3) := next r1 in
      if is_e c2 then
       let '(negexp, r5) := read_sign (commit r3) in
       let '(c3, r6) := next r5 in
       if isdigit c3 then
         let '(ok, expn, _, r7) := parse_unsigned r6 in
         if ok then
           Ok (f_mul db (lm_pow L (if negexp then f_tenth else f_ten) (f_of_Z expn)), r7)
         else Err
       else Err
     else Ok (db, r3)) = Ok (dy, r2) /\ at_pos r2 rest).
  { destruct He as [->|(e & s & eds & -> & He & Hs & Hne & Hed)].
    - exists db, b. split; [exact Db|]. split.
      + assert (E : X = IZR I + fraction fp) by (unfold X; change (exponent_of []) with 0%Z; cbn [powerRZ]; ring). rewrite E. eapply near_mono; [exact Nb|lra|lra].
      + intros rest Hr r1 Ha. cbn [app] in Ha. rewrite (next_at _ _ Ha). destruct (num_stop flags0 rest Hr) as (_ & _ & ->). eexists. split; [reflexivity|apply at_next].
    - set (ng := match s with [45%Z] => true | _ => false end).
      pose proof (exponent_of_eq e s eds Hs Hne Hed) as Ex. fold ng in Ex. pose proof (dec_bound eds Hed) as Eb.
      assert (W : exists w, dbl (lm_pow L (if ng then f_tenth else f_ten) (f_of_Z (dec_value eds))) w /\ near pw w (powerRZ 10 (exponent_of (e :: s ++ eds)))).
      { rewrite Ex in *. destruct ng; [apply (tenth_near L GL); lia|apply (ten_near L GL); lia]. }
      destruct W as (w & Dw & Nw).
      assert (Nm : near (16 * ec + ulp1 + pw) (b * w) X) by (apply near_mul; auto; lra).
      assert (Bw : b * w = 0 \/ / (2 * powerRZ 10 300) <= b * w).
      { destruct HX as [HX|HX]; [left; rewrite HX in Nm; apply near_zero in Nm; exact Nm|right]. edestruct near_le as (Q & _); [exact Nm|pose proof (p10_pos (-300)); lra|lra|].
        change (powerRZ 10 (-300)) with (powerRZ 10 (- (300))) in HX. pose proof (p10_opp 300) as Po. rewrite Po in HX. replace (/ (2 * powerRZ 10 300)) with (/ powerRZ 10 300 / 2) by (field; lra). lra. }
      assert (X0 : 0 <= X <= powerRZ 10 300) by (destruct HX as [->|HX]; [lra|pose proof (p10_pos (-300)); lra]).
      edestruct near_le as (_ & Qm); [exact Nm|lra|lra|]. pose proof (near_nonneg _ _ _ Nm ltac:(lra)) as M0.
      assert (T82 : / (8 * powerRZ 10 300) <= / (2 * powerRZ 10 300)) by (apply Rinv_le; lra).
      exists (f_mul db (lm_pow L (if ng then f_tenth else f_ten) (f_of_Z (dec_value eds)))), (RN (b * w)).
      split; [apply mul_R; [exact Db|exact Dw|apply top_big, RN_top; lra]|]. split.
      + eapply near_mono; [eapply near_trans; [apply near_RN|exact Nm]|lra|lra]. destruct Bw as [Bw|Bw]; [left; exact Bw|right; lra].
      + intros rest Hr r1 Ha. rewrite (next_at _ _ Ha). change (hd_eof ((e :: s ++ eds) ++ rest)) with e. assert (is_e e = true) as -> by (unfold is_e; lia).
        cbn [app tl]. unfold commit. cbn [src]. rewrite <- app_assoc.
        destruct (read_sign_at s (eds ++ rest) Hs) with (r := mkR (s ++ eds ++ rest) None) as (r5 & E5 & H5); [intros _; pose proof (digits_head eds rest Hne Hed) as Hh; unfold digit_char in Hh; lia|apply at_none|].
        rewrite E5. fold ng. rewrite (next_at _ _ H5), (hd_app_digit eds rest Hed Hne).
        destruct (parse_unsigned_exact (mkR (tl (eds ++ rest)) (Some (hd_eof (eds ++ rest)))) eds rest) as (cn & ->); auto; [apply num_end_stop; auto|rewrite Ex in Lx; destruct ng; lia|apply at_next|].
        eexists. split; [reflexivity|apply at_next]. }
  destruct HE as (dy & y & Dy & Ny & Ry).
  exists (if neg then f_opp dy else dy), y. split; [destruct neg; [replace (-1 * y) with (- y) by ring; apply opp_R; exact Dy|rewrite Rmult_1_l; exact Dy]|]. split; [exact Ny|].
  intros r rest Hr Ha. unfold parse_double.
  assert (Ep : exp_part ex) by exact He.
  destruct (exp_stop ex rest Ep Hr) as (Es1 & Es2).
  destruct (R0 r (fp ++ ex ++ rest) (frac_stop fp ex rest Hf Ep Hr) Ha) as (r0 & -> & Hr0). cbn [bind].
  destruct (Rb ex rest Es1 Es2 r0 Hr0) as (r2 & E2 & Hr2). destruct (next r0) as (c & r1). rewrite E2. cbn [bind].
  destruct (Ry rest Hr r2 Hr2) as (r3 & E3 & Hr3). destruct (next r2) as (c2 & r2'). rewrite E3. cbn [bind]. eexists. split; [reflexivity|exact Hr3].
Qed.

Lemma fair_read : forall F t x, precise F = false -> fair_number t x -> exists n, num_read L F n t /\ close_value n t /\ num_starts t.
Proof.
  intros F t x Hnp Hfair. pose proof Hfair as (sg & ip & fp & ex & -> & Hpn & Hlt & Hl & Hx & Ex & HX).
  pose proof Hpn as (Hsg & Hip & Hfp & Hex & Hne). pose proof (dec_bound ip Hip) as Hnn.
  set (ng := match sg with [45%Z] => true | _ => false end).
  set (X := (IZR (dec_value ip) + fraction fp) * powerRZ 10 (exponent_of ex)).
  assert (ExX : x = sgn ng * X) by (rewrite Ex; unfold written_value, X, ng; ring).
  pose proof (fraction_range fp Hfp) as Fr. pose proof (p10_pos (exponent_of ex)) as Px.
  assert (X0 : 0 <= X) by (unfold X; apply Rmult_le_pos; [|lra]; assert (0 <= IZR (dec_value ip)) by (apply IZR_le; lia); lra).
  assert (Ab : Rabs x = X).
  { rewrite ExX, Rabs_mult, (Rabs_pos_eq X X0). destruct ng; [rewrite Rabs_left by lra|rewrite Rabs_R1]; ring. }
  assert (HX' : X = 0 \/ powerRZ 10 (-300) <= X <= powerRZ 10 300) by (destruct HX as [HX|HX]; [left; rewrite <- Ab, HX; apply Rabs_R0|right; rewrite <- Ab; exact HX]).
  destruct (parse_unsigned_split ip Hip) as (d1 & d2 & ok & Eq & P & K & R).
  pose proof Hip as Hip'. rewrite Eq in Hip'. apply Forall_app in Hip' as (Hd1 & Hd2).
  assert (Hcommon : forall r rest, num_end rest -> at_pos r ((sg ++ ip ++ fp ++ ex) ++ rest) ->
    exists r4, at_pos r4 (d2 ++ fp ++ ex ++ rest) /\
    parse_number L F r = (if negb ok || (hd_eof (d2 ++ fp ++ ex ++ rest) =? 46)%Z || is_e (hd_eof (d2 ++ fp ++ ex ++ rest))
      then parse_double L (dec_value d1) ng r4
      else if ng then
        if Z.testbit (dec_value d1) 63 then Ok (value_of_double (f_opp (f_of_Z (dec_value d1))), r4)
        else Ok (value_of_int (- dec_value d1), r4)
      else Ok (VNum (NUInt (dec_value d1)), r4))).
  { intros r rest Hn Hr. rewrite <- !app_assoc in Hr. unfold parse_number. rewrite Hnp.
    destruct (read_sign_at sg (ip ++ fp ++ ex ++ rest) Hsg) with (r := r) as (r1 & -> & Hr1); auto.
    { intros ->. apply head_not_sign. auto. }
    fold ng. rewrite (next_at _ _ Hr1).
    assert (negb (isdigit (hd_eof (ip ++ fp ++ ex ++ rest))) && negb (hd_eof (ip ++ fp ++ ex ++ rest) =? 46)%Z = false) as ->.
    { clear - Hip Hfp Hne. destruct ip as [|c ip].
      - destruct Hfp as [->|(ds & -> & _)]; [exfalso; apply Hne; auto|]. reflexivity.
      - change (hd_eof ((c :: ip) ++ fp ++ ex ++ rest)) with c. rewrite (digit_is c (Forall_inv Hip)). reflexivity. }
    rewrite (R _ (fp ++ ex ++ rest) (frac_stop _ _ _ Hfp Hex Hn) (at_next _)).
    eexists. split; [apply at_next|]. reflexivity. }
  assert (St : num_starts (sg ++ ip ++ fp ++ ex)) by (apply plain_starts; exact Hpn).
  destruct (parse_double_near ng d1 d2 fp ex Hd1 Hd2 P ltac:(destruct K as [(_ & ->)|(_ & _ & K & _)]; [left; reflexivity|right; exact K]) ltac:(rewrite <- Eq; exact Hlt) Hfp Hex Hl Hx ltac:(rewrite <- Eq; exact HX')) as (d & y & Dd & Ny & Rd).
  rewrite <- Eq in Ny. fold X in Ny.
  assert (Hdbl : ok = false \/ fp <> [] \/ ex <> [] -> exists n, num_read L F n (sg ++ ip ++ fp ++ ex) /\ close_value n (sg ++ ip ++ fp ++ ex)).
  { intros Hc. exists (dbl_num d). split.
    - intros r rest Hn Hr. destruct (Hcommon r rest Hn Hr) as (r4 & Hr4 & ->).
      replace (negb ok || (hd_eof (d2 ++ fp ++ ex ++ rest) =? 46)%Z || is_e (hd_eof (d2 ++ fp ++ ex ++ rest))) with true; [apply Rd; auto|].
      destruct K as [(-> & ->)|(-> & _)]; [|reflexivity]. cbn [app negb orb].
      destruct Hfp as [->|(fds & -> & _)]; [|reflexivity].
      destruct Hex as [->|(e & s & eds & -> & He & _)]; [destruct Hc as [Hc|[Hc|Hc]]; [discriminate Hc|congruence|congruence]|].
      cbn [app]. change (hd_eof (e :: (s ++ eds) ++ rest)) with e. unfold is_e. lia.
    - destruct (dbl_num_fin _ _ Dd) as (Fd & Ed). split; [|split; [exact Fd|]].
      + exists sg, ip, fp, ex. split; [reflexivity|]. split; [exact Hpn|]. right. right. split; [|eexists; reflexivity].
        destruct Hc as [Hc|[Hc|Hc]]; [|left; exact Hc|right; left; exact Hc]. right. right. left. destruct K as [(K & _)|(_ & _ & _ & K)]; [congruence|exact K].
      + exists x. split; [exact Hfair|]. rewrite Ed, ExX. apply signed_close; assumption. }
  assert (Hcase : (ok = false \/ fp <> [] \/ ex <> []) \/ (ok = true /\ fp = [] /\ ex = [])).
  { destruct ok; [|auto]. destruct fp; [|left; right; left; discriminate]. destruct ex; [auto|left; right; right; discriminate]. }
  destruct Hcase as [Hc|(-> & -> & ->)].
  - destruct (Hdbl Hc) as (n & A & B). exists n. auto.
  - destruct K as [(_ & ->)|(K & _)]; [|discriminate K]. rewrite app_nil_r in Eq. subst d1.
    assert (EX : X = IZR (dec_value ip)) by (unfold X, fraction; cbn [tl length exponent_of]; change (exponent_of []) with 0%Z; change (dec_value []) with 0%Z; cbn [powerRZ pow]; field).
    assert (exists n, (forall r4 : reader, (if ng then
        if Z.testbit (dec_value ip) 63 then Ok (value_of_double (f_opp (f_of_Z (dec_value ip))), r4)
        else Ok (value_of_int (- dec_value ip), r4)
      else Ok (VNum (NUInt (dec_value ip)), r4)) = Ok (VNum n, r4)) /\ close_value n (sg ++ ip ++ [] ++ [])) as (n & H1 & H2).
    { destruct ng eqn:Eng.
      - assert (sg = [45%Z]) as -> by (unfold ng in Eng; destruct Hsg as [->|[->| ->]]; congruence).
        rewrite ProofAccept.testbit_63 by lia. destruct (2 ^ 63 <=? dec_value ip)%Z eqn:Et; [exists (dbl_num (f_opp (f_of_Z (dec_value ip))))|exists (int_num (- dec_value ip))]; (split; [reflexivity|]).
        + assert (Pr : 0 <= IZR (dec_value ip) <= 18446744073709551616) by (split; apply IZR_le; lia).
          assert (Tp : 18446744073709551616 <= bpow radix2 1000) by (rewrite bpow_Z by lia; apply IZR_le; vm_compute; discriminate).
          assert (D : dbl (f_of_Z (dec_value ip)) (RN (IZR (dec_value ip)))) by (apply norm_R, top_big, RN_top; lra).
          assert (Tiny : bpow radix2 (-1022) <= 1) by (change 1 with (bpow radix2 0); apply bpow_le; lia).
          assert (1 <= IZR (dec_value ip)) by (apply IZR_le; lia).
          assert (N : near ulp1 (RN (IZR (dec_value ip))) (IZR (dec_value ip))) by (apply near_RN; right; lra).
          destruct (dbl_num_fin _ _ (opp_R _ _ D)) as (Fd & Ed). split; [|split; [exact Fd|]].
          * exists [45%Z], ip, [], []. split; [reflexivity|]. split; [exact Hpn|]. right. right. split; [right; right; right; split; auto; lia|eexists; reflexivity].
          * exists x. split; [exact Hfair|]. rewrite Ed, ExX, EX. replace (- RN (IZR (dec_value ip))) with (sgn true * RN (IZR (dec_value ip))) by ring.
            apply (signed_close true); [lra|]. eapply near_mono; [exact N|lra|lra].
        + split; [|split; [unfold int_num; destruct (_ =? 0)%Z; exact Logic.I|]].
          * exists [45%Z], ip, [], []. split; [reflexivity|]. split; [exact Hpn|]. right. left. repeat split; auto. lia.
          * exists x. split; [exact Hfair|]. rewrite int_num_real, opp_IZR, ExX, EX.
            replace (- IZR (dec_value ip) - -1 * IZR (dec_value ip)) with 0 by ring. rewrite Rabs_R0. apply Rmult_le_pos; [lra|apply Rabs_pos].
      - eexists. split; [reflexivity|]. split; [|split; [exact Logic.I|]].
        + exists sg, ip, [], []. split; [reflexivity|]. split; [exact Hpn|]. left. split; [reflexivity|]. split; [reflexivity|]. split; [intros ->; discriminate Eng|]. split; [exact P|reflexivity].
        + exists x. split; [exact Hfair|]. cbn [num_real]. rewrite ExX, EX. replace (IZR (dec_value ip) - 1 * IZR (dec_value ip)) with 0 by ring. rewrite Rabs_R0. apply Rmult_le_pos; [lra|apply Rabs_pos]. }
    exists n. split; [|split; [exact H2|exact St]].
    intros r rest Hn Hr. destruct (Hcommon r rest Hn Hr) as (r4 & Hr4 & ->). cbn [app negb orb] in *.
    destruct (num_stop flags0 rest Hn) as (_ & -> & ->). cbn [orb]. rewrite H1. eauto.
Qed.
End Read.
