(** The parser reads every byte string of the format. *)
From Coq Require Import ZifyBool.
From Verif Require Import Base ModelKeyed ModelValue ModelObject ModelEq ModelEnc ModelBin SpecEnc SpecBin SpecWire
  ProofEnc ProofFloat ProofBin ProofBin2 ProofBin3.
Local Open Scope Z_scope.
Ltac Zify.zify_post_hook ::= Z.div_mod_to_equations.

(** *** Numbers *)
Lemma little_value : forall s, le_value s = little s.
Proof. induction s as [|b s IH]; [reflexivity|]. cbn [le_value little fold_right]. rewrite IH. reflexivity. Qed.
Lemma little_bound : forall s, is_bytes s -> 0 <= little s < 256 ^ Z.of_nat (length s).
Proof.
  induction s as [|b s IH]; intros H; [cbn; lia|]. inversion_clear H as [|? ? Hb Hs]. specialize (IH Hs). unfold is_byte in Hb.
  cbn [little fold_right length]. fold (little s). rewrite Nat2Z.inj_succ, Z.pow_succ_r by lia. lia.
Qed.
Lemma read_little : forall s rest h i, read_le (length s) (mkPS (s ++ rest) h i) = (little s, mkPS rest h i).
Proof. intros. unfold read_le. rewrite read_n_app, little_value. reflexivity. Qed.

Lemma kind_tag : forall kind c, 1 <= kind <= 7 -> 0 <= c < 16 ->
  Z.land (16 * kind + c) 0xF0 = 16 * kind /\ Z.land (16 * kind + c) 0xF = c.
Proof.
  intros kind c Hk Hc.
  assert (S : forallb (fun kind => forallb (fun c => (Z.land (16 * kind + c) 0xF0 =? 16 * kind) && (Z.land (16 * kind + c) 0xF =? c)) (zrange 0 16)) (zrange 1 7) = true)
    by (vm_compute; reflexivity).
  rewrite forallb_forall in S. specialize (S kind). rewrite forallb_forall in S.
  assert (A : In kind (zrange 1 7)) by (apply zrange_in; lia). assert (B : In c (zrange 0 16)) by (apply zrange_in; lia).
  specialize (S A c B). lia.
Qed.

Lemma sized_ok : forall kind n b, 1 <= kind <= 7 -> sized kind n b -> exists tag tl, b = tag :: tl /\ Z.land tag 0xF0 = 16 * kind /\ 0 <= n < 2 ^ 64 /\
  forall rest h i, parse_integer tag (mkPS (tl ++ rest) h i) = (n, mkPS rest h i).
Proof.
  intros kind n b Hk H. destruct H as [n Hn|c s Hc Hs].
  - destruct (kind_tag kind n Hk) as [T1 T2]; [lia|]. eexists _, _. split; [reflexivity|]. split; [exact T1|]. split; [lia|]. intros.
    unfold parse_integer. rewrite T2. unfold op_size8, op_size16, op_size32, op_size64.
    replace (n =? 10) with false by lia. replace (n =? 11) with false by lia. replace (n =? 12) with false by lia.
    replace (n =? 13) with false by lia. reflexivity.
  - pose proof (little_bound s Hs) as B. eexists _, _. split; [reflexivity|].
    destruct (kind_tag kind c Hk) as [T1 T2]; [destruct Hc as [E|[E|[E|[E|[]]]]]; inversion E; lia|].
    split; [exact T1|]. split.
    { destruct Hc as [E|[E|[E|[E|[]]]]]; inversion E as [[E1 E2]]; rewrite <- E2 in B;
        [change (256 ^ Z.of_nat 1) with 256 in B|change (256 ^ Z.of_nat 2) with 65536 in B|change (256 ^ Z.of_nat 4) with (2 ^ 32) in B|change (256 ^ Z.of_nat 8) with (2 ^ 64) in B]; lia. }
    intros. unfold parse_integer. rewrite T2. unfold op_size8, op_size16, op_size32, op_size64.
    pose proof (read_little s rest h i) as R.
    destruct Hc as [E|[E|[E|[E|[]]]]]; inversion E as [[E1 E2]]; rewrite <- E2 in R; exact R.
Qed.

(** *** Texts *)
Lemma b64_cut : forall p k junk, is_bytes p -> is_bytes junk -> length p = ((3 * k + 3) / 4)%nat ->
  firstn k (b64_text true false (p ++ junk)) = firstn k (b64_text true false p).
Proof.
  intros p. remember (length p) as n eqn:En. revert p En. induction n as [n IH] using (well_founded_induction lt_wf).
  intros p En k junk Hp Hj Hl. unfold is_bytes in *.
  destruct p as [|a [|b [|c p]]].
  - cbn [length] in En. destruct k as [|k]; [reflexivity|]. exfalso.
    assert (1 <= (3 * S k + 3) / 4)%nat by (apply Nat.div_le_lower_bound; lia). lia.
  - cbn [length] in En. assert (k = 1)%nat as ->.
    { pose proof (Nat.div_mod (3 * k + 3) 4 ltac:(lia)). pose proof (Nat.mod_upper_bound (3 * k + 3) 4 ltac:(lia)). lia. }
    inversion_clear Hp as [|? ? Ha _]. unfold is_byte in Ha.
    destruct junk as [|x [|y junk]]; cbn [app b64_text firstn]; [reflexivity| |];
      repeat match goal with H : Forall is_byte (_ :: _) |- _ => inversion H; clear H; subst end; unfold is_byte in *; do 2 f_equal; lia.
  - cbn [length] in En. assert (k = 2)%nat as ->.
    { pose proof (Nat.div_mod (3 * k + 3) 4 ltac:(lia)). pose proof (Nat.mod_upper_bound (3 * k + 3) 4 ltac:(lia)). lia. }
    repeat match goal with H : Forall is_byte (_ :: _) |- _ => inversion H; clear H; subst end; unfold is_byte in *.
    destruct junk as [|x junk]; cbn [app b64_text firstn]; [reflexivity|].
    inversion_clear Hj as [|? ? Hx _]. f_equal; [f_equal; lia|]. f_equal. f_equal. lia.
  - cbn [app b64_text]. destruct k as [|[|[|[|k]]]]; [reflexivity|reflexivity|reflexivity|reflexivity|].
    cbn [app firstn]. do 4 f_equal. apply (IH (length p)); auto.
    + cbn [length] in En. lia.
    + inversion_clear Hp as [|? ? _ Hp1]. inversion_clear Hp1 as [|? ? _ Hp2]. inversion_clear Hp2; auto.
    + cbn [length] in En. rewrite Hl in En.
      replace (3 * S (S (S (S k))) + 3)%nat with ((3 * k + 3) + 3 * 4)%nat in En by lia. rewrite Nat.div_add in En by lia. lia.
Qed.

Section Reader.
Variables (J : nat -> bytes) (pe : enc).
Hypothesis HJ : forall n, is_bytes (J n).

Lemma text_ok : forall kind s b, 1 <= kind <= 7 -> text kind s b -> exists tag tl, b = tag :: tl /\ Z.land tag 0xF0 = 16 * kind /\
  forall rest h i, parse_string_bin J None tag (mkPS (tl ++ rest) h i) = (VStr None s, mkPS rest h i).
Proof.
  intros kind s b Hk H. destruct H as [s hd Hs Hc Hz|k d p hd Hd Hp Hl Hz].
  - destruct (sized_ok _ _ _ Hk Hz) as (tag & tl & -> & Hg & _ & Hi). exists tag, (tl ++ s). split; [reflexivity|]. split; [exact Hg|].
    intros. unfold parse_string_bin. rewrite <- app_assoc, Hi. cbv iota beta zeta. rewrite Nat2Z.id.
    destruct s as [|c s]; [reflexivity|]. cbn [length app]. inversion_clear Hs as [|? ? Hc0 Hs0].
    destruct (first_plain c Hc0 Hc) as [_ F2]. unfold read1 at 1. cbn [ps_in ps_hist ps_idx]. rewrite F2, read_n_app. reflexivity.
  - destruct (sized_ok _ _ _ Hk Hz) as (tag & tl & -> & Hg & _ & Hi). exists tag, (tl ++ 128 + d :: p). split; [reflexivity|]. split; [exact Hg|].
    intros. unfold parse_string_bin. rewrite <- app_assoc, Hi. cbv iota beta zeta. rewrite Nat2Z.id.
    cbn [length app]. unfold read1 at 1. cbn [ps_in ps_hist ps_idx].
    destruct (first_token d Hd) as [F1 F2].
    assert (E : Z.lor d 0x80 = 128 + d).
    { assert (S : forallb (fun d => Z.lor d 0x80 =? 128 + d) (zrange 0 64) = true) by (vm_compute; reflexivity).
      rewrite forallb_forall in S. apply Z.eqb_eq, S, zrange_in. lia. }
    rewrite <- E, F1. cbn [Z.eqb Pos.eqb]. cbv zeta.
    replace (k * 3 + 3)%nat with (3 * k + 3)%nat by lia. rewrite <- Hl, read_n_app.
    rewrite b64_encode_spec by (apply Forall_app; split; [exact Hp|apply HJ]). rewrite F2, b64_cut by auto. reflexivity.
Qed.

(** *** The keys seen so far *)
Definition known (ks : list bytes) (h : list bytes) (i : Z) : Prop :=
  i = Z.of_nat (length ks) mod 2 ^ 32 /\ Z.of_nat (length h) = Z.min (Z.of_nat (length ks)) 128 /\
  forall d k, (d < 128)%nat -> nth_error ks d = Some k -> nth_error h (Z.to_nat ((Z.of_nat (length ks) - 1 - Z.of_nat d) mod 128)) = Some k.

Lemma known_start : known [] [] 0.
Proof. split; [reflexivity|]. split; [reflexivity|]. intros [|d] k _ H; discriminate. Qed.

Lemma mod_mod_128 : forall x, x mod 2 ^ 32 mod 128 = x mod 128.
Proof. intros x. lia. Qed.

Lemma known_store : forall ks h i k s, known ks h i -> exists h' i', store_key (mkPS s h i) k = mkPS s h' i' /\ known (k :: ks) h' i'.
Proof.
  intros ks h i k s (Hi & Hl & Hk). unfold store_key. cbn [ps_in ps_hist ps_idx]. rewrite land127.
  set (n := Z.of_nat (length ks)) in *. assert (Hn : 0 <= n) by (unfold n; lia).
  rewrite Hi, mod_mod_128. set (ix := Z.to_nat (n mod 128)).
  eexists _, _. split; [reflexivity|]. unfold known. cbn [length]. rewrite Nat2Z.inj_succ. fold n.
  assert (Hm : 0 <= n mod 128 < 128) by (apply Z.mod_pos_bound; lia).
  set (h' := if (length h =? ix)%nat then h ++ [k] else firstn ix h ++ k :: skipn (S ix) h).
  assert (Hh : Z.of_nat (length h') = Z.min (n + 1) 128 /\
    forall j, (j < 128)%nat -> nth_error h' j = if (j =? ix)%nat then Some k else nth_error h j).
  { unfold h'. destruct (Z_lt_le_dec n 128) as [Hlt|Hge].
    - assert (ix = length h) as E by (unfold ix; rewrite Z.mod_small by lia; lia).
      rewrite E, Nat.eqb_refl. rewrite app_length. cbn [length]. split; [lia|]. intros j Hj.
      destruct (j =? length h)%nat eqn:En.
      + apply Nat.eqb_eq in En. subst j. rewrite nth_error_app2, Nat.sub_diag by lia. reflexivity.
      + apply Nat.eqb_neq in En. destruct (Nat.lt_ge_cases j (length h)).
        * rewrite nth_error_app1 by lia. reflexivity.
        * rewrite (proj2 (nth_error_None h j)) by lia. apply nth_error_None. rewrite app_length. cbn [length]. lia.
    - assert (Hl' : length h = 128%nat) by lia.
      replace (length h =? ix)%nat with false by (unfold ix; lia).
      assert (ix < length h)%nat by (unfold ix; lia).
      split; [rewrite app_length, firstn_length; cbn [length]; rewrite skipn_length; lia|].
      intros j Hj. apply nth_error_replace. auto. }
  destruct Hh as [Hh1 Hh2]. split; [unfold u32; rewrite <- Z.add_1_r; rewrite Zplus_mod_idemp_l; reflexivity|].
  split; [lia|]. intros d k' Hd E. rewrite Hh2 by lia.
  destruct d as [|d]; cbn [nth_error] in E.
  - injection E as ->. replace (Z.succ n - 1 - Z.of_nat 0) with n by lia. fold ix. rewrite Nat.eqb_refl. reflexivity.
  - assert (Hlen : (d < length ks)%nat) by (apply nth_error_Some; congruence).
    replace (Z.succ n - 1 - Z.of_nat (S d)) with (n - 1 - Z.of_nat d) by lia.
    replace (Z.to_nat ((n - 1 - Z.of_nat d) mod 128) =? ix)%nat with false; [apply Hk; auto; lia|].
    symmetry. apply Nat.eqb_neq. unfold ix. lia.
Qed.

Lemma known_back : forall ks h i d k s, known ks h i -> (d < 128)%nat -> nth_error ks d = Some k ->
  history_key (mkPS s h i) (128 + Z.of_nat d) = k.
Proof.
  intros ks h i d k s (Hi & Hl & Hk) Hd E. unfold history_key. cbn [ps_idx ps_hist]. rewrite land127.
  unfold u32. rewrite mod_mod_128, Hi.
  pose proof (Z.div_mod (Z.of_nat (length ks)) (2 ^ 32) ltac:(lia)) as D. set (q := Z.of_nat (length ks) / 2 ^ 32) in *.
  set (r := Z.of_nat (length ks) mod 2 ^ 32) in *. clearbody q r.
  replace (r - 1 - (128 + Z.of_nat d)) with (Z.of_nat (length ks) - 1 - Z.of_nat d + (-1 - q * 2 ^ 25) * 128) by lia.
  rewrite Z_mod_plus_full.
  apply nth_error_nth. apply Hk; auto.
Qed.

(** *** Doubles *)
Lemma finite_parts : forall s m e, is_double (S754_finite s m e) ->
  -1074 <= e <= 971 /\ Z.pos m < 2 ^ 53 /\ (-1074 < e -> 2 ^ 52 <= Z.pos m).
Proof.
  intros s m e Hf. unfold is_double, valid_binary, bounded, canonical_mantissa in Hf. apply andb_true_iff in Hf as [H1 H2].
  apply Zeq_is_eq_bool in H1. apply Zle_bool_imp_le in H2. unfold femax, fprec in H2.
  pose proof (digits_bounds m) as B. set (d := Z.pos (digits2_pos m)) in *. assert (1 <= d) by (unfold d; lia).
  unfold fexp, emin, fprec, femax in H1. split; [lia|]. split.
  - assert (2 ^ d <= 2 ^ 53) by (apply Z.pow_le_mono_r; lia). lia.
  - intros He. assert (d = 53) as Ed by lia. rewrite Ed in B. exact (proj1 B).
Qed.
Lemma same_double : forall s m e m' e', is_double (S754_finite s m e) -> is_double (S754_finite s m' e') ->
  Z.pos m * 2 ^ (e + 1074) = Z.pos m' * 2 ^ (e' + 1074) -> S754_finite s m e = S754_finite s m' e'.
Proof.
  assert (W : forall m e m' e', -1074 <= e -> e < e' -> Z.pos m < 2 ^ 53 -> 2 ^ 52 <= Z.pos m' ->
    Z.pos m * 2 ^ (e + 1074) = Z.pos m' * 2 ^ (e' + 1074) -> False).
  { intros m e m' e' He Hlt Hm Hm' E. replace (e' + 1074) with ((e' - e) + (e + 1074)) in E by lia. rewrite (Z.pow_add_r 2 (e' - e)) in E by lia.
    assert (P : 0 < 2 ^ (e + 1074)) by (apply Z.pow_pos_nonneg; lia).
    assert (Q : 2 ^ 1 <= 2 ^ (e' - e)) by (apply Z.pow_le_mono_r; lia). change (2 ^ 1) with 2 in Q.
    assert (Z.pos m = Z.pos m' * 2 ^ (e' - e)) by nia. nia. }
  intros s m e m' e' Hf Hf' E. destruct (finite_parts _ _ _ Hf) as (A1 & A2 & A3). destruct (finite_parts _ _ _ Hf') as (B1 & B2 & B3).
  destruct (Z.lt_trichotomy e e') as [L|[<-|L]].
  - exfalso. apply (W m e m' e'); auto; lia.
  - f_equal. assert (P : 0 < 2 ^ (e + 1074)) by (apply Z.pow_pos_nonneg; lia). assert (Z.pos m = Z.pos m') by nia. congruence.
  - exfalso. apply (W m' e' m e); auto; lia.
Qed.
Lemma small_valid : forall s m, Z.pos m < 2 ^ 52 -> is_double (S754_finite s m (-1074)).
Proof.
  intros s m Hm. unfold is_double, valid_binary, bounded, canonical_mantissa. pose proof (digits_bounds m) as B.
  set (d := Z.pos (digits2_pos m)) in *. assert (1 <= d) by (unfold d; lia).
  assert (d <= 52). { destruct (Z_lt_le_dec 52 d) as [L|]; auto. assert (2 ^ 52 <= 2 ^ (d - 1)) by (apply Z.pow_le_mono_r; lia). lia. }
  unfold fexp, emin, fprec, femax. replace (Z.max (d + -1074 - 53) (3 - 1024 - 53)) with (-1074) by lia. reflexivity.
Qed.

Lemma ieee_double : forall b f, ieee 52 11 b f -> bits_dbl b = f.
Proof.
  intros b f (s & E & M & HE & HM & -> & Hf). change (2 ^ 11) with 2048 in *. change (2 ^ (11 + 52)) with (2 ^ 63) in *.
  destruct (bits_parts s E M HE HM) as (P1 & P2 & P3 & _). unfold sign_bit in *. unfold bits_dbl.
  rewrite Z.add_assoc in *. rewrite P1, P2, P3. clear P1 P2 P3.
  destruct f as [s'|s'| |s' m e].
  - destruct Hf as (-> & -> & ->). reflexivity.
  - destruct Hf as (-> & -> & ->). reflexivity.
  - destruct Hf as (-> & Hm). cbn [Z.sub Z.eqb]. replace (M =? 0) with false by lia. reflexivity.
  - destruct Hf as (-> & HE' & Hv & Eq). change (2 ^ (11 - 1)) with 1024 in Eq. destruct (E =? 0) eqn:E0.
    + destruct M as [|p|p]; [|apply same_double; [apply small_valid; lia|exact Hv|]|lia].
      * exfalso. pose proof (Z.pow_pos_nonneg 2 (e + 1074)). destruct (finite_parts _ _ _ Hv). lia.
      * rewrite Eq. f_equal. f_equal. lia.
    + replace (E =? 2047) with false by lia. destruct (M + 2 ^ 52) as [|p|p] eqn:EM; try lia.
      apply same_double; [apply finite_valid; lia|exact Hv|]. rewrite Eq, <- EM. f_equal; [lia|]. f_equal. lia.
Qed.

Lemma round_exact : forall s p e, Z.pos p < 2 ^ 53 -> -968 <= e <= 900 -> exists m e', binary_round fprec femax s p e = S754_finite s m e' /\
  is_double (S754_finite s m e') /\ Z.pos m * 2 ^ (e' + 1074) = Z.pos p * 2 ^ (e + 1074).
Proof.
  intros s p e Hp He. pose proof (digits_bounds p) as B. unfold binary_round. set (d := Z.pos (digits2_pos p)) in *.
  assert (1 <= d) by (unfold d; lia).
  assert (d <= 53). { destruct (Z_lt_le_dec 53 d) as [L|]; auto. assert (2 ^ 53 <= 2 ^ (d - 1)) by (apply Z.pow_le_mono_r; lia). lia. }
  rewrite fexp_big by lia. unfold shl_align.
  destruct (d + e - 53 - e) as [|k|k] eqn:Ek; [|lia|].
  - assert (d = 53) as E by lia. rewrite E in B.
    destruct (round_aux_valid s (Z.pos p) e 0) as (m & e' & -> & Hm & He' & _ & Hx); [lia|rewrite Z.div_1_r; exact B|lia|lia|lia|].
    destruct Hx as [-> ->]; [reflexivity|]. exists m, e. split; [reflexivity|]. split; [apply finite_valid; lia|reflexivity].
  - assert (Es : Z.pos (shift_pos k p) = Z.pos p * 2 ^ (53 - d)).
    { rewrite shift_pos_correct, Z.mul_comm. f_equal. rewrite Z.pow_pos_fold. f_equal. lia. }
    destruct (round_aux_valid s (Z.pos (shift_pos k p)) (d + e - 53) 0) as (m & e' & -> & Hm & He' & _ & Hx); try lia.
    2:{ destruct Hx as [-> Hx]; [reflexivity|]. exists m, (d + e - 53). split; [reflexivity|]. split; [apply finite_valid; lia|].
        rewrite <- Hx, Es, <- Z.mul_assoc, <- Z.pow_add_r by lia. f_equal. f_equal. lia. }
    rewrite Z.div_1_r, Es.
    assert (2 ^ 52 = 2 ^ (d - 1) * 2 ^ (53 - d)) as -> by (rewrite <- Z.pow_add_r by lia; f_equal; lia).
    assert (2 ^ 53 = 2 ^ d * 2 ^ (53 - d)) as -> by (rewrite <- Z.pow_add_r by lia; f_equal; lia).
    assert (0 < 2 ^ (53 - d)) by (apply Z.pow_pos_nonneg; lia). nia.
Qed.

Lemma ieee_float : forall b f, ieee 23 8 b f -> bits_flt b = f.
Proof.
  intros b f (s & E & M & HE & HM & -> & Hf). change (2 ^ 8) with 256 in *. change (2 ^ 23) with 8388608 in *. change (2 ^ (8 + 23)) with 2147483648.
  set (b := (if s then 2147483648 else 0) + E * 8388608 + M). unfold bits_flt.
  change (2 ^ 23) with 8388608. change (2 ^ 31) with 2147483648.
  assert (P1 : (2147483648 <=? b) = s) by (unfold b; destruct s; lia).
  assert (P2 : b / 8388608 mod 256 = E) by (unfold b; destruct s; lia).
  assert (P3 : b mod 8388608 = M) by (unfold b; destruct s; lia).
  rewrite P1, P2, P3. clear b P1 P2 P3.
  assert (N : forall p e m e', Z.pos p < 2 ^ 53 -> -968 <= e <= 900 -> is_double (S754_finite s m e') ->
    Z.pos m * 2 ^ (e' + 1074) = Z.pos p * 2 ^ (e + 1074) ->
    binary_normalize fprec femax (if s then - Z.pos p else Z.pos p) e s = S754_finite s m e').
  { intros p e m e' Hp He Hv Eq. destruct (round_exact s p e Hp He) as (m1 & e1 & R & V & Q).
    transitivity (S754_finite s m1 e1); [rewrite <- R; destruct s; reflexivity|]. apply same_double; auto. congruence. }
  destruct f as [s'|s'| |s' m e].
  - destruct Hf as (-> & -> & ->). destruct s; reflexivity.
  - destruct Hf as (-> & -> & ->). reflexivity.
  - destruct Hf as (-> & Hm). cbn [Z.sub Z.eqb]. replace (M =? 0) with false by lia. reflexivity.
  - destruct Hf as (-> & HE' & Hv & Eq). change (2 ^ (8 - 1)) with 128 in Eq. cbv zeta. destruct (E =? 0) eqn:E0.
    + destruct M as [|p|p]; [|apply N; [lia|lia|exact Hv|]|lia].
      * exfalso. pose proof (Z.pow_pos_nonneg 2 (e + 1074)). destruct (finite_parts _ _ _ Hv). lia.
      * rewrite Eq. f_equal. f_equal. lia.
    + replace (E =? 255) with false by lia. destruct (M + 8388608) as [|p|p] eqn:EM; try lia.
      apply N; [lia|lia|exact Hv|]. rewrite Eq, <- EM. f_equal; [lia|]. f_equal. lia.
Qed.

(** *** Items *)
Notation reads := (reads J pe).
Notation reads_items := (reads_items J pe).

Scheme item_mind := Minimality for item Sort Prop
  with body_mind := Minimality for body Sort Prop
  with items_mind := Minimality for items Sort Prop.
Combined Scheme wire_ind from item_mind, body_mind, items_mind.

Definition P_item (ks : list bytes) (m : bytes * value) (b : bytes) (ks' : list bytes) : Prop :=
  forall rest h i, known ks h i -> exists h' i', known ks' h' i' /\ reads b rest h i m h' i'.
Definition P_body (ks : list bytes) (v : value) (b : bytes) (ks' : list bytes) : Prop := P_item ks ([], v) b ks'.
Definition P_items (ks : list bytes) (l : list member) (b : bytes) (ks' : list bytes) : Prop :=
  forall rest h i, known ks h i -> exists h' i', known ks' h' i' /\ reads_items (length l) b rest h i l h' i'.

Lemma leaf_ok : forall ks v b, (forall f rest h i, parse_item J (Some pe) (S f) (mkPS (b ++ rest) h i) = Ok (([], v), mkPS rest h i)) -> P_body ks v b ks.
Proof. intros ks v b H rest h i K. exists h, i. split; [exact K|]. exists 1%nat. intros [|f] Hf; [lia|]. apply H. Qed.

Lemma wire_ok : (forall ks m b ks', item pe ks m b ks' -> P_item ks m b ks') /\
  (forall ks v b ks', body pe ks v b ks' -> P_body ks v b ks') /\
  (forall ks l b ks', items pe ks l b ks' -> P_items ks l b ks').
Proof.
  apply wire_ind.
  - intros ks v b ks' _ H. exact H.
  - intros ks k v kb b ks' Ht _ IH rest h i K.
    destruct (text_ok k_key k kb ltac:(unfold k_key; lia) Ht) as (tag & tl & -> & Hg & Hp). change (16 * k_key) with op_key in Hg.
    destruct (known_store ks h i k (b ++ rest) K) as (h1 & i1 & Es & K1). destruct (IH rest h1 i1 K1) as (h2 & i2 & K2 & [f0 R]).
    exists h2, i2. split; [exact K2|]. exists (S f0). intros [|f] Hf; [lia|].
    rewrite <- app_assoc. cbn [app]. rewrite item_key by exact Hg. rewrite Hp. cbv iota beta. cbn [str_content].
    rewrite Es, R by lia. reflexivity.
  - intros ks k v d b ks' Hd E _ IH rest h i K. destruct (IH rest h i K) as (h2 & i2 & K2 & [f0 R]).
    exists h2, i2. split; [exact K2|]. exists (S f0). intros [|f] Hf; [lia|]. cbn [app].
    destruct (short_tag (Z.of_nat d)) as [T _]; [lia|]. rewrite <- T, item_short by lia. rewrite R by lia. cbn [bind snd]. rewrite T.
    erewrite known_back; eauto.
  - intros ks. apply leaf_ok. reflexivity.
  - intros ks. apply leaf_ok. reflexivity.
  - intros ks. apply leaf_ok. reflexivity.
  - intros ks. apply leaf_ok. reflexivity.
  - intros ks s f Hs Hl Hf. apply leaf_ok. intros. cbn [app]. rewrite item_step. unfold classify.
    change (read_le 4) with (read_le (S (S (S (S O))))). rewrite <- Hl, read_little, (ieee_float _ _ Hf). reflexivity.
  - intros ks s f Hs Hl Hf. apply leaf_ok. intros. cbn [app]. rewrite item_step. unfold classify.
    rewrite <- Hl, read_little, (ieee_double _ _ Hf). reflexivity.
  - intros ks n b Hz. destruct (sized_ok k_positive n b ltac:(unfold k_positive; lia) Hz) as (tag & tl & -> & Hg & _ & Hp).
    change (16 * k_positive) with op_posint in Hg. apply leaf_ok. intros. cbn [app]. rewrite item_posint, Hp by exact Hg. reflexivity.
  - intros ks n b Hz Hn. destruct (sized_ok k_negative n b ltac:(unfold k_negative; lia) Hz) as (tag & tl & -> & Hg & Hr & Hp).
    change (16 * k_negative) with op_negint in Hg. apply leaf_ok. intros. cbn [app]. rewrite item_negint, Hp by exact Hg.
    rewrite s64_small by lia. unfold value_of_int. replace (- n =? 0) with (n =? 0) by lia. reflexivity.
  - intros ks s b Ht. destruct (text_ok k_text s b ltac:(unfold k_text; lia) Ht) as (tag & tl & -> & Hg & Hp).
    change (16 * k_text) with op_string in Hg. apply leaf_ok. intros. cbn [app]. rewrite item_string, Hp by exact Hg. reflexivity.
  - intros ks s hd Hs Hz. destruct (sized_ok k_binary _ hd ltac:(unfold k_binary; lia) Hz) as (tag & tl & -> & Hg & _ & Hp).
    change (16 * k_binary) with op_binstring in Hg. apply leaf_ok. intros. cbn [app]. rewrite item_binstring by exact Hg.
    unfold parse_string_bin. rewrite <- app_assoc, Hp. cbv iota beta zeta. rewrite Nat2Z.id. destruct s as [|c s]; [reflexivity|].
    pose proof (read_n_app (c :: s) rest h i) as R. cbn [length] in *. rewrite R. reflexivity.
  - intros ks l hd b ks' Hz _ IH rest h i K. destruct (IH rest h i K) as (h2 & i2 & K2 & [f0 R]).
    destruct (sized_ok k_array _ hd ltac:(unfold k_array; lia) Hz) as (tag & tl & -> & Hg & _ & Hp). change (16 * k_array) with op_array in Hg.
    exists h2, i2. split; [exact K2|]. exists (S f0). intros [|f] Hf; [lia|]. rewrite <- app_assoc. cbn [app].
    rewrite item_array by exact Hg. rewrite Hp. cbv iota beta. rewrite R by lia. reflexivity.
  - intros ks l hd b ks' Hz _ IH rest h i K. destruct (IH rest h i K) as (h2 & i2 & K2 & [f0 R]).
    destruct (sized_ok k_object _ hd ltac:(unfold k_object; lia) Hz) as (tag & tl & -> & Hg & _ & Hp). change (16 * k_object) with op_object in Hg.
    exists h2, i2. split; [exact K2|]. exists (S f0). intros [|f] Hf; [lia|]. rewrite <- app_assoc. cbn [app].
    rewrite item_object by exact Hg. rewrite Hp. cbv iota beta. rewrite R by lia. reflexivity.
  - intros ks l hd b ks' Hz _ IH rest h i K. destruct (IH rest h i K) as (h2 & i2 & K2 & [f0 R]).
    destruct (sized_ok k_object _ hd ltac:(unfold k_object; lia) Hz) as (tag & tl & -> & Hg & _ & Hp). change (16 * k_object) with op_object in Hg.
    exists h2, i2. split; [exact K2|]. exists (S f0). intros [|f] Hf; [lia|]. cbn [app]. rewrite <- app_assoc. cbn [app].
    rewrite item_step. unfold classify. rewrite read1_cons. rewrite Hg, Hp. cbn -[parse_items]. rewrite R by lia. reflexivity.
  - intros ks rest h i K. exists h, i. split; [exact K|]. exists 1%nat. intros [|f] Hf; [lia|]. reflexivity.
  - intros ks m l b b' ks1 ks' _ IH1 _ IH2 rest h i K.
    destruct (IH1 (b' ++ rest) h i K) as (h1 & i1 & K1 & [f1 R1]). destruct (IH2 rest h1 i1 K1) as (h2 & i2 & K2 & [f2 R2]).
    exists h2, i2. split; [exact K2|]. exists (S (f1 + f2)). intros [|f] Hf; [lia|]. rewrite items_step. cbn [length].
    replace (Z.of_nat (S (length l)) <=? 0) with false by lia. rewrite <- app_assoc, R1 by lia. cbn [bind].
    replace (Z.of_nat (S (length l)) - 1) with (Z.of_nat (length l)) by lia. rewrite R2 by lia. reflexivity.
Qed.

Lemma stream_read : forall ks l b ks', items pe ks l b ks' -> forall rest h i, known ks h i -> exists h' i', known ks' h' i' /\
  read_session J (Some pe) (map BSend l) (mkPS (b ++ rest) h i) = Ok (l, mkPS rest h' i').
Proof.
  intros ks l b ks' H. induction H as [ks|ks m l b b' ks1 ks' Hm _ IH]; intros rest h i K.
  - exists h, i. split; [exact K|reflexivity].
  - destruct (proj1 wire_ok _ _ _ _ Hm (b' ++ rest) h i K) as (h1 & i1 & K1 & R). destruct (IH rest h1 i1 K1) as (h2 & i2 & K2 & E).
    exists h2, i2. split; [exact K2|]. cbn [map read_session ps_in]. rewrite <- app_assoc. rewrite (reads_fuel _ _ _ _ _ _ _ _ _ R).
    cbn [bind]. rewrite E. reflexivity.
Qed.
End Reader.

Lemma stream_ok : forall J pe l b ks' rest, (forall n, is_bytes (J n)) -> items pe [] l b ks' ->
  exists p', read_session J (Some pe) (map BSend l) (ps_init (b ++ rest)) = Ok (l, p') /\ ps_in p' = rest.
Proof.
  intros J pe l b ks' rest HJ H. destruct (stream_read J pe HJ _ _ _ _ H rest [] 0 known_start) as (h & i & _ & E).
  exists (mkPS rest h i). split; [exact E|reflexivity].
Qed.
