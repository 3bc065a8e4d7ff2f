(** The statements of PropDouble, and its sample values. *)
From Coq Require Import ZArith Reals Lia Lra Psatz Floats.SpecFloat ZifyBool Sorted.
From Flocq Require Import Core.Core.
From Verif Require Import Base SpecUtf8 ModelKeyed SpecKeyed ModelValue SpecText SpecBin ModelText ProofText1 ProofText2 ProofText3 ProofText5 SpecDouble ProofReal ProofDouble ProofDouble2 ProofDouble3 ProofDouble4 ProofDouble5 ProofDouble6 ProofDouble7 ProofDoubleEx.
Local Open Scope Z_scope.

Lemma text_accurate : forall L utf8 digits d, good_libm L -> finite d ->
  (powerRZ 10 (-307) <= Rabs (real_of d))%R ->
  exists t x, write_double L utf8 digits d = Some t /\ json_number t x /\
    (let u := (/ 10 ^ Nat.min digits 9)%R in
     (Rabs (x - real_of d) <= 51 / 100 * u)%R /\ ~ In 69 t /\ ~ In 101 t /\
       (99 / 10000 < Rabs (real_of d) < 101 * 10 ^ 6)%R \/
     (Rabs (x - real_of d) <= 52 / 100 * u * Rabs (real_of d))%R /\
       (Rabs (real_of d) < 101 / 10000 \/ 99 * 10 ^ 6 < Rabs (real_of d))%R).
Proof. intros L utf8 digits d GL Fd V. exact (any_text L utf8 digits GL d Fd V). Qed.
Lemma decimal_kept : forall L utf8 digits d z, good_libm L -> finite d ->
  (101 / 10000 <= Rabs (real_of d) <= 99999999)%R ->
  (let u := (/ 10 ^ Nat.min digits 9)%R in
   (Rabs (real_of d - IZR z * u) <= 48 / 100 * u)%R ->
   exists t, write_double L utf8 digits d = Some t /\ json_number t (IZR z * u)%R /\
     ~ In 69 t /\ ~ In 101 t).
Proof. intros L utf8 digits d z GL Fd V u H. apply (decimal_text L utf8 digits GL d z Fd); [lra|exact H]. Qed.
Lemma zero_kept : forall L utf8 digits s, good_libm L ->
  write_double L utf8 digits (S754_zero s) = Some [48].
Proof. intros L utf8 digits s GL. apply zero_text. exact GL. Qed.
Lemma infinite_text : forall L utf8 digits,
  write_double L utf8 digits (S754_infinity false) = Some (write_string utf8 word_inf) /\
  write_double L utf8 digits (S754_infinity true) = Some (write_string utf8 word_neg_inf) /\
  write_double L utf8 digits S754_nan = Some (write_string utf8 word_inf).
Proof. intros. repeat split. Qed.
Lemma write_inf_scale : forall L utf8 digits d k, finite d -> f_isfinite (f_floor (lm_log10 L (f_abs d))) = true -> f_trunc_Z (f_floor (lm_log10 L (f_abs d))) = Some k -> -1000 <= k <= -3 ->
  f_mul (f_abs d) (lm_pow L f_tenth (f_of_Z k)) = S754_infinity false -> write_double L utf8 digits d = None.
Proof.
  intros L utf8 digits d k (_ & Hf) Hl Hk K Hm. unfold write_double. rewrite Hf. cbn [negb]. rewrite Hl, Hk. cbn [negb].
  replace (negb ((- 2 ^ 63 <=? k) && (k <? 2 ^ 63))) with false by lia. cbv zeta.
  replace ((-3 <? k) && (k <? 8)) with false by lia. rewrite Hm. cbn [f_modf]. reflexivity.
Qed.
Lemma small_refuted : exists L d, good_libm L /\ finite d /\ real_of d <> 0%R /\
  forall utf8 digits, write_double L utf8 digits d = None.
Proof.
  exists ref_libm, (S754_finite false 1 (-1074)). split; [exact ref_good|]. split; [split; reflexivity|]. split.
  - cbn [real_of]. apply Rmult_integral_contrapositive_currified; [lra|]. apply powerRZ_NOR. lra.
  - intros utf8 digits. apply (write_inf_scale _ _ _ _ (-324)); [split; reflexivity| | |lia|]; vm_compute; reflexivity.
Qed.

Lemma reads_parse : forall L F sg n t w rest, reads L F sg n t -> ws w -> num_end rest ->
  exists r', parse_source L F (w ++ map (as_source sg) t ++ rest) = Ok (VNum n, r') /\ at_pos r' rest.
Proof.
  intros L F sg n t w rest (_ & H) Hw Hn. specialize (H w (mkR (w ++ map (as_source sg) t ++ rest) None) rest Hw Hn (at_none _)).
  unfold parse_ok in H. cbn [settle] in H. destruct H as (f0 & r' & Hat & Hp). exists r'. split; [|exact Hat].
  rewrite <- (Hp f0 (le_n _)). apply parse_source_any. rewrite (Hp f0 (le_n _)). discriminate.
Qed.
Lemma doc_back_all : forall L F sg utf8 digits E v w rest,
  good_libm L -> precise F = false -> doubles_by L digits E -> (3 <= digits)%nat ->
  doc_of utf8 (doc_number (fun x => x = 0%R \/ plain_range (Rabs x) \/ exp_range (Rabs x))) v ->
  ws w -> num_end rest ->
  exists v' r', parse_source L F (w ++ map (as_source sg) (ser E utf8 v) ++ rest) = Ok (v', r') /\
    like_json (reads_back digits) v v' /\ at_pos r' rest.
Proof. intros. apply document_back; auto. Qed.
Lemma doc_same_all : forall L F sg utf8 digits E v w rest,
  good_libm L -> precise F = false -> doubles_by L digits E -> (3 <= digits)%nat ->
  doc_of utf8 (doc_number (fun x => x = 0%R \/ plain_range (Rabs x))) v ->
  ws w -> num_end rest ->
  exists v' r', parse_source L F (w ++ map (as_source sg) (ser E utf8 v) ++ rest) = Ok (v', r') /\
    like_json (reads_back digits) v v' /\ at_pos r' rest /\
    ser E utf8 v' = ser E utf8 v.
Proof. intros. eapply document_same_text; eauto. Qed.
Lemma exponent_again : forall L F sg utf8 digits d w rest,
  good_libm L -> precise F = false -> (3 <= digits)%nat -> finite d ->
  exp_range (Rabs (real_of d)) -> ws w -> num_end rest ->
  exists t x d' t' r', write_double L utf8 digits d = Some t /\ json_number t x /\
    parse_source L F (w ++ map (as_source sg) t ++ rest) = Ok (VNum (NDbl d'), r') /\ at_pos r' rest /\
    finite d' /\ write_double L utf8 digits d' = Some t' /\ json_number t' x.
Proof.
  intros L F sg utf8 digits d w rest GL HF Hp Fd Ex Hw Hn.
  destruct (scaled_back L F utf8 digits GL HF Hp d Fd Ex) as (t & X & W & J & _ & (n & m & q & x & Pt) & d' & t' & H & Fd' & _ & W' & J').
  destruct (reads_parse L F sg (NDbl d') t w rest) as (r' & A & B); auto. { apply reads_text; [apply (parts_text _ _ _ _ _ _ Pt)|exact H]. }
  exists t, X, d', t', r'. repeat (split; [assumption|]). assumption.
Qed.
Lemma large_exact : forall L F sg utf8 digits d w rest,
  good_libm L -> precise F = false -> (9 <= digits)%nat -> finite d ->
  (2 ^ 23 <= Rabs (real_of d) <= 99999999)%R -> ws w -> num_end rest ->
  exists t n r', write_double L utf8 digits d = Some t /\
    parse_source L F (w ++ map (as_source sg) t ++ rest) = Ok (VNum n, r') /\ at_pos r' rest /\
    num_real n = real_of d.
Proof.
  intros L F sg utf8 digits d w rest GL HF Hp Fd (V1 & V2) Hw Hn.
  set (E := mkSer (fun u x => match write_double L u digits x with Some t => t | None => [] end) (fun _ _ => [])).
  assert (By : doubles_by L digits E) by (intros u x t H; cbn; rewrite H; reflexivity).
  destruct (plain_back L F utf8 digits E GL HF By ltac:(lia) d Fd) as (t & u & W & (n & m & q & Pt) & H & _ & _ & Ex); [lra|].
  destruct (reads_parse L F sg u t w rest) as (r' & A & B); auto. { apply reads_text; [apply (parts_text _ _ _ _ _ _ Pt)|exact H]. }
  exists t, u, r'. repeat (split; [assumption|]). apply Ex; assumption.
Qed.

(** *** Samples *)
Lemma real_frac : forall (s : bool) m e, real_of (S754_finite s m (Z.neg e)) = ((if s then -1 else 1) * (IZR (Z.pos m) / IZR (2 ^ Z.pos e)))%R.
Proof.
  intros s m e. cbn [real_of]. replace (powerRZ 2 (Z.neg e)) with (/ IZR (2 ^ Z.pos e))%R.
  - destruct s; [change (Z.neg m) with (- Z.pos m); rewrite opp_IZR|]; unfold Rdiv; ring.
  - change (2 ^ Z.pos e) with (2 ^ - Z.neg e). rewrite <- bpow_inv by lia. rewrite bpow_powerRZ. reflexivity.
Qed.
Definition third : spec_float := S754_finite false 6004799503160661 (-54).
Lemma third_refuted : exists L d t n r, good_libm L /\ finite d /\
  plain_range (Rabs (real_of d)) /\ write_double L true 9 d = Some t /\
  parse_source L (mkPF false false) t = Ok (VNum n, r) /\ num_real n <> real_of d.
Proof.
  exists ref_libm, third, [48; 46; 51; 51; 51; 51; 51; 51; 51; 51; 51], (NDbl (S754_finite false 6004799497155862 (-54))), (mkR [] (Some (-1))).
  split; [exact ref_good|]. split; [split; reflexivity|]. split.
  { unfold third. rewrite real_frac. change (2 ^ 54) with 18014398509481984. unfold plain_range. rewrite Rabs_pos_eq; lra. }
  split; [vm_compute; reflexivity|]. split; [vm_compute; reflexivity|].
  cbn [num_real]. unfold third. rewrite !real_frac. change (2 ^ 54) with 18014398509481984. lra.
Qed.
Lemma largest_refuted : exists L d t r, good_libm L /\ finite d /\
  write_double L true 9 d = Some t /\
  parse_source L (mkPF false false) t = Ok (VNum (NDbl (S754_infinity false)), r).
Proof.
  exists ref_libm, (S754_finite false 9007199254740991 971), [49; 46; 55; 57; 55; 54; 57; 51; 49; 51; 53; 101; 43; 51; 48; 56], (mkR [] (Some (-1))).
  split; [exact ref_good|]. split; [split; reflexivity|]. split; vm_compute; reflexivity.
Qed.
Definition ref_ser : serenv := mkSer (fun u x => match write_double ref_libm u 9 x with Some t => t | None => [] end) (fun _ _ => []).
(** [{"a":[0.3,1234.5678,-5,0],"b":"x"}], the zero being a negative one. *)
Definition doc_sample : value := VObj false [([97], VArr [([], VNum (NDbl (S754_finite false 5404319552844595 (-54))));
  ([], VNum (NDbl (S754_finite false 5429686605511341 (-42)))); ([], VNum (NInt (-5))); ([], VNum (NDbl (S754_zero true)))]); ([98], VStr None [120])].
Definition text_sample : bytes := [123; 34; 97; 34; 58; 91; 48; 46; 51; 44; 49; 50; 51; 52; 46; 53; 54; 55; 56; 44; 45; 53; 44; 48; 93; 44; 34; 98; 34; 58; 34; 120; 34; 125].
Definition back_sample : value := VObj false [([97], VArr [([], VNum (NDbl (S754_finite false 5404319552844595 (-54))));
  ([], VNum (NDbl (S754_finite false 5429686605511341 (-42)))); ([], VNum (NInt (-5))); ([], VNum (NUInt 0))]); ([98], VStr None [120])].
Lemma sample_doc : doubles_by ref_libm 9 ref_ser /\
  doc_of true (doc_number (fun x => x = 0%R \/ plain_range (Rabs x))) doc_sample /\
  ser ref_ser true doc_sample = text_sample /\
  parse_source ref_libm (mkPF false false) text_sample = Ok (back_sample, mkR [] None) /\
  ser ref_ser true back_sample = text_sample.
Proof.
  split; [intros u x t H; cbn; rewrite H; reflexivity|]. split.
  - assert (T : forall c, 0 <= c < 128 -> text_ok true [c]).
    { intros c C. exists [c]. split; [repeat constructor; unfold cp_ok, is_cp; lia|]. unfold utf8_encode. cbn [flat_map]. unfold utf8_bytes. replace (c <? 128) with true by lia. reflexivity. }
    assert (H1 : doc_number (fun x => x = 0%R \/ plain_range (Rabs x)) (NDbl (S754_finite false 5404319552844595 (-54)))).
    { split; [split; reflexivity|]. right. rewrite real_frac. change (2 ^ 54) with 18014398509481984. unfold plain_range. rewrite Rabs_pos_eq; lra. }
    assert (H2 : doc_number (fun x => x = 0%R \/ plain_range (Rabs x)) (NDbl (S754_finite false 5429686605511341 (-42)))).
    { split; [split; reflexivity|]. right. rewrite real_frac. change (2 ^ 42) with 4398046511104. unfold plain_range. rewrite Rabs_pos_eq; lra. }
    unfold doc_sample. constructor.
    + unfold keys_increasing. cbn [map fst]. repeat constructor. 
    + repeat (first [exact H1|exact H2|constructor]); cbn [fst snd]; try (apply T; lia); try reflexivity; try discriminate; try lia; auto.
  - split; [vm_compute; reflexivity|]. split; vm_compute; reflexivity.
Qed.
Lemma avogadro_range : exp_range (Rabs (real_of (S754_finite false 8973689019680023 26))).
Proof.
  right. assert (E : real_of (S754_finite false 8973689019680023 26) = IZR (8973689019680023 * 2 ^ 26)).
  { cbn [real_of]. rewrite mult_IZR. f_equal. rewrite <- bpow_Z by lia. rewrite bpow_powerRZ. reflexivity. }
  rewrite E. change (8973689019680023 * 2 ^ 26) with 602214075999999987023872.
  assert (P : (powerRZ 10 24 <= powerRZ 10 307)%R) by (apply p10_mono; lia). rewrite (p10_IZR 24) in P by lia. change (10 ^ 24) with 1000000000000000000000000 in P.
  rewrite Rabs_pos_eq by lra. lra.
Qed.
