(** Lemmas about equality and ordering of values. *)
From Verif Require Import Base ModelKeyed SpecKeyed ProofKeyed ModelValue ProofValue ModelObject ModelEq SpecEq.
Local Open Scope Z_scope.

(** *** Comparison results *)
Definition lex (c d : comparison) : comparison := match c with Eq => d | Lt => Lt | Gt => Gt end.

(** [c1], [c2], [c3] are the results for (a,b), (b,c) and (a,c). *)
Definition tr (c1 c2 c3 : comparison) : Prop :=
  (c1 = Eq -> c3 = c2) /\ (c2 = Eq -> c3 = c1) /\ (c1 = c2 -> c3 = c1).

Lemma tr_lex : forall c1 c2 c3 d1 d2 d3, tr c1 c2 c3 -> tr d1 d2 d3 -> tr (lex c1 d1) (lex c2 d2) (lex c3 d3).
Proof.
  unfold tr. intros c1 c2 c3 d1 d2 d3 (A1 & A2 & A3) (B1 & B2 & B3).
  destruct c1, c2; simpl;
    try (rewrite (A1 eq_refl)); try (rewrite (A2 eq_refl)); try (rewrite (A3 eq_refl)); simpl;
    repeat split; intros; auto; congruence.
Qed.

Lemma tr_lex_dep : forall c1 c2 c3 d1 d2 d3, tr c1 c2 c3 -> (c1 = Eq -> c2 = Eq -> tr d1 d2 d3) ->
  tr (lex c1 d1) (lex c2 d2) (lex c3 d3).
Proof.
  unfold tr. intros c1 c2 c3 d1 d2 d3 (A1 & A2 & A3) B.
  destruct c1, c2; simpl;
    try (rewrite (A1 eq_refl)); try (rewrite (A2 eq_refl)); try (rewrite (A3 eq_refl)); simpl;
    try (apply B; reflexivity); repeat split; intros; auto; congruence.
Qed.

Lemma tr_Z : forall a b c : Z, tr (a ?= b) (b ?= c) (a ?= c).
Proof.
  intros a b c. unfold tr. repeat split; intros H.
  - apply Z.compare_eq in H. subst. reflexivity.
  - apply Z.compare_eq in H. subst. reflexivity.
  - destruct (Z.compare_spec a b), (Z.compare_spec b c); try discriminate; subst;
      rewrite ?Z.compare_refl; auto.
    + apply Z.compare_lt_iff. lia.
    + apply Z.compare_gt_iff. lia.
Qed.

Lemma tr_kcmp : forall a b c, tr (kcmp a b) (kcmp b c) (kcmp a c).
Proof.
  induction a as [|x a IH]; intros [|y b] [|z c]; simpl; try (unfold tr; repeat split; intros; congruence).
  pose proof (tr_Z (char_rank x) (char_rank y) (char_rank z)) as H.
  exact (tr_lex _ _ _ _ _ _ H (IH b c)).
Qed.

(** *** Doubles *)
Definition frank (f : spec_float) : Z * (Z * Z) :=
  match f with
  | S754_zero _ | S754_nan => (0, (0, 0))
  | S754_infinity s => (if s then -2 else 2, (0, 0))
  | S754_finite s m e => if s then (-1, (- e, Z.neg m)) else (1, (e, Z.pos m))
  end.

Definition rcmp (a b : Z * (Z * Z)) : comparison :=
  lex (fst a ?= fst b) (lex (fst (snd a) ?= fst (snd b)) (snd (snd a) ?= snd (snd b))).

Lemma rcmp_tr : forall a b c, tr (rcmp a b) (rcmp b c) (rcmp a c).
Proof. intros. unfold rcmp. apply tr_lex; [apply tr_Z|]. apply tr_lex; apply tr_Z. Qed.

Lemma rcmp_refl : forall a, rcmp a a = Eq.
Proof. intros. unfold rcmp. rewrite !Z.compare_refl. reflexivity. Qed.

Lemma rcmp_sym : forall a b, rcmp b a = CompOpp (rcmp a b).
Proof.
  intros a b. unfold rcmp. rewrite (Z.compare_antisym (fst a)), (Z.compare_antisym (fst (snd a))), (Z.compare_antisym (snd (snd a))).
  destruct (fst a ?= fst b), (fst (snd a) ?= fst (snd b)), (snd (snd a) ?= snd (snd b)); reflexivity.
Qed.

Lemma Zopp_compare : forall a b, (- a ?= - b) = CompOpp (a ?= b).
Proof.
  intros a b. destruct (Z.compare_spec a b).
  - subst. apply Z.compare_refl.
  - apply Z.compare_gt_iff. lia.
  - apply Z.compare_lt_iff. lia.
Qed.

Lemma SFcompare_rank : forall f g, not_nan f -> not_nan g -> SFcompare f g = Some (rcmp (frank f) (frank g)).
Proof.
  intros [s|s| |s m e] [t|t| |t n h]; unfold not_nan; intros H1 H2; try congruence;
    try (destruct s); try (destruct t); try reflexivity;
    unfold rcmp, frank; cbn [fst snd SFcompare].
  - rewrite Zopp_compare. f_equal. rewrite Z.compare_refl. cbn [lex].
    destruct (e ?= h); reflexivity.
Qed.

Lemma f_compare_rank : forall f g, not_nan f -> not_nan g -> f_compare f g = rcmp (frank f) (frank g).
Proof.
  intros f g Hf Hg. unfold f_compare, SFltb. rewrite !SFcompare_rank by auto.
  rewrite (rcmp_sym (frank f)). destruct (rcmp (frank f) (frank g)); reflexivity.
Qed.

Lemma SFeqb_rank : forall f g, not_nan f -> not_nan g ->
  SFeqb f g = match rcmp (frank f) (frank g) with Eq => true | _ => false end.
Proof. intros f g Hf Hg. unfold SFeqb. rewrite SFcompare_rank by auto. reflexivity. Qed.

Lemma SFeqb_nan_l : forall f, SFeqb S754_nan f = false.
Proof. reflexivity. Qed.
Lemma SFeqb_nan_r : forall f, SFeqb f S754_nan = false.
Proof. destruct f; reflexivity. Qed.

Lemma nan_dec : forall f, {f = S754_nan} + {not_nan f}.
Proof. unfold not_nan. destruct f; auto; right; discriminate. Qed.

Lemma SFeqb_sym : forall f g, SFeqb f g = SFeqb g f.
Proof.
  intros f g. destruct (nan_dec f) as [->|Hf]; [rewrite SFeqb_nan_r; reflexivity|].
  destruct (nan_dec g) as [->|Hg]; [rewrite SFeqb_nan_r; reflexivity|].
  rewrite !SFeqb_rank, (rcmp_sym (frank f)) by auto. destruct (rcmp (frank f) (frank g)); reflexivity.
Qed.

(** *** Small integers as doubles *)
Lemma digits2_bounds : forall p, 2 ^ (Z.pos (digits2_pos p) - 1) <= Z.pos p < 2 ^ Z.pos (digits2_pos p).
Proof.
  induction p as [p IH|p IH|]; simpl digits2_pos; [| |split; [reflexivity|lia]];
    rewrite !Pos2Z.inj_succ; replace (Z.succ (Z.pos (digits2_pos p)) - 1) with (Z.pos (digits2_pos p)) by lia;
    rewrite Z.pow_succ_r by lia;
    (replace (2 ^ Z.pos (digits2_pos p)) with (2 * 2 ^ (Z.pos (digits2_pos p) - 1)) in *;
      [|rewrite <- Z.pow_succ_r by lia; f_equal; lia]); lia.
Qed.

Lemma digits2_unique : forall p d, 0 < d -> 2 ^ (d - 1) <= Z.pos p < 2 ^ d -> Z.pos (digits2_pos p) = d.
Proof.
  intros p d Hd [H1 H2]. destruct (digits2_bounds p) as [B1 B2]. set (k := Z.pos (digits2_pos p)) in *.
  assert (Hk : 0 < k) by (unfold k; lia).
  destruct (Z.lt_trichotomy k d) as [H|[H|H]]; auto.
  - assert (2 ^ k <= 2 ^ (d - 1)) by (apply Z.pow_le_mono_r; lia). lia.
  - assert (2 ^ d <= 2 ^ (k - 1)) by (apply Z.pow_le_mono_r; lia). lia.
Qed.

Lemma round_exact : forall s m e, 2 ^ 52 <= Z.pos m < 2 ^ 53 -> -1074 <= e <= 971 ->
  binary_round_aux 53 1024 s (Z.pos m) e loc_Exact = S754_finite s m e.
Proof.
  intros s m e Hm He. assert (Hd : Z.pos (digits2_pos m) = 53) by (apply digits2_unique; lia).
  assert (Hsh : shr_fexp 53 1024 (Z.pos m) e loc_Exact = ({| shr_m := Z.pos m; shr_r := false; shr_s := false |}, e)).
  { unfold shr_fexp. cbn [Zdigits2]. rewrite Hd. unfold fexp, emin.
    replace (Z.max (53 + e - 53) (3 - 1024 - 53) - e) with 0 by lia. reflexivity. }
  unfold binary_round_aux. rewrite Hsh. cbn [shr_m loc_of_shr_record]. cbn [round_nearest_even].
  rewrite Hsh. cbn [shr_m]. destruct (Z.leb_spec e (1024 - 53)); [reflexivity|lia].
Qed.

Definition bits (p : positive) : Z := Z.pos (digits2_pos p).

Lemma f_of_pos : forall s p, Z.pos p < 2 ^ 53 -> exists m,
  binary_round 53 1024 s p 0 = S754_finite s m (bits p - 53) /\ Z.pos m = Z.pos p * 2 ^ (53 - bits p).
Proof.
  intros s p Hp. pose proof (digits2_bounds p) as Hb. fold (bits p) in Hb.
  assert (H0 : 0 < bits p) by (unfold bits; lia).
  assert (Hk : bits p <= 53).
  { destruct (Z.le_gt_cases (bits p) 53); auto.
    assert (2 ^ 53 <= 2 ^ (bits p - 1)) by (apply Z.pow_le_mono_r; lia). lia. }
  unfold binary_round. fold (bits p).
  assert (Hf : fexp 53 1024 (bits p + 0) = bits p - 53) by (unfold fexp, emin; lia).
  rewrite Hf.
  assert (Hs : exists m, shl_align p 0 (bits p - 53) = (m, bits p - 53) /\ Z.pos m = Z.pos p * 2 ^ (53 - bits p)).
  { unfold shl_align. replace (bits p - 53 - 0) with (- (53 - bits p)) by lia.
    destruct (53 - bits p) as [|k|k] eqn:Ek; cbn [Z.opp].
    - exists p. split; [f_equal; lia|lia].
    - exists (Zpower.shift_pos k p). split; [reflexivity|]. rewrite Zpower.shift_pos_correct.
      rewrite Z.pow_pos_fold. lia.
    - lia. }
  destruct Hs as (m & Es & Hm). rewrite Es. exists m. split; [|exact Hm].
  apply round_exact; [|lia]. rewrite Hm.
  assert (2 ^ 52 = 2 ^ (bits p - 1) * 2 ^ (53 - bits p)) by (rewrite <- Z.pow_add_r by lia; f_equal; lia).
  assert (2 ^ 53 = 2 ^ bits p * 2 ^ (53 - bits p)) by (rewrite <- Z.pow_add_r by lia; f_equal; lia).
  assert (0 < 2 ^ (53 - bits p)) by (apply Z.pow_pos_nonneg; lia). nia.
Qed.

Lemma bits_mono : forall p q, Z.pos p <= Z.pos q -> bits p <= bits q.
Proof.
  intros p q H. pose proof (digits2_bounds p). pose proof (digits2_bounds q). fold (bits p) in *. fold (bits q) in *.
  assert (0 < bits p /\ 0 < bits q) as [] by (unfold bits; lia).
  destruct (Z.le_gt_cases (bits p) (bits q)); auto.
  assert (2 ^ bits q <= 2 ^ (bits p - 1)) by (apply Z.pow_le_mono_r; lia). lia.
Qed.

Lemma pos_rank : forall p q m n, Z.pos p < 2 ^ 53 -> Z.pos q < 2 ^ 53 ->
  Z.pos m = Z.pos p * 2 ^ (53 - bits p) -> Z.pos n = Z.pos q * 2 ^ (53 - bits q) ->
  lex (bits p - 53 ?= bits q - 53) (Z.pos m ?= Z.pos n) = (Z.pos p ?= Z.pos q).
Proof.
  intros p q m n Hp Hq Hm Hn.
  assert (Hc : (bits p - 53 ?= bits q - 53) = (bits p ?= bits q)).
  { destruct (Z.compare_spec (bits p) (bits q)).
    - rewrite H. apply Z.compare_refl.
    - apply Z.compare_lt_iff. lia.
    - apply Z.compare_gt_iff. lia. }
  rewrite Hc. destruct (Z.compare_spec (bits p) (bits q)) as [E|E|E]; cbn [lex].
  - rewrite Hm, Hn, E. assert (0 < 2 ^ (53 - bits q)).
    { apply Z.pow_pos_nonneg; [lia|]. pose proof (digits2_bounds q). fold (bits q) in *.
      destruct (Z.le_gt_cases (bits q) 53); [lia|].
      assert (2 ^ 53 <= 2 ^ (bits q - 1)) by (apply Z.pow_le_mono_r; lia). lia. }
    destruct (Z.compare_spec (Z.pos p) (Z.pos q)).
    + rewrite H0. apply Z.compare_refl.
    + apply Z.compare_lt_iff. nia.
    + apply Z.compare_gt_iff. nia.
  - symmetry. apply Z.compare_lt_iff. destruct (Z.lt_ge_cases (Z.pos p) (Z.pos q)); auto. apply bits_mono in H. lia.
  - symmetry. apply Z.compare_gt_iff. destruct (Z.lt_ge_cases (Z.pos q) (Z.pos p)); auto. apply bits_mono in H. lia.
Qed.

Definition small (n : Z) : Prop := - 2 ^ 53 < n < 2 ^ 53.

Lemma f_of_Z_finite : forall n, small n -> not_nan (f_of_Z n).
Proof.
  intros [|p|p] H; unfold not_nan, small, f_of_Z, fprec, femax, binary_normalize in *; try discriminate.
  - destruct (f_of_pos false p) as (m & -> & _); [lia|discriminate].
  - destruct (f_of_pos true p) as (m & -> & _); [lia|discriminate].
Qed.

Lemma f_of_Z_order : forall a b, small a -> small b -> rcmp (frank (f_of_Z a)) (frank (f_of_Z b)) = (a ?= b).
Proof.
  intros a b Ha Hb. unfold small, f_of_Z, fprec, femax, binary_normalize in *.
  destruct a as [|p|p], b as [|q|q].
  - reflexivity.
  - destruct (f_of_pos false q) as (n & -> & Hn); [lia|reflexivity].
  - destruct (f_of_pos true q) as (n & -> & Hn); [lia|reflexivity].
  - destruct (f_of_pos false p) as (m & -> & Hm); [lia|reflexivity].
  - destruct (f_of_pos false p) as (m & -> & Hm); [lia|]. destruct (f_of_pos false q) as (n & -> & Hn); [lia|].
    unfold rcmp, frank, fst, snd. rewrite Z.compare_refl. cbn [lex]. apply pos_rank; auto; lia.
  - destruct (f_of_pos false p) as (m & -> & Hm); [lia|]. destruct (f_of_pos true q) as (n & -> & Hn); [lia|reflexivity].
  - destruct (f_of_pos true p) as (m & -> & Hm); [lia|reflexivity].
  - destruct (f_of_pos true p) as (m & -> & Hm); [lia|]. destruct (f_of_pos false q) as (n & -> & Hn); [lia|reflexivity].
  - destruct (f_of_pos true p) as (m & -> & Hm); [lia|]. destruct (f_of_pos true q) as (n & -> & Hn); [lia|].
    unfold rcmp, frank, fst, snd. rewrite Z.compare_refl. cbn [lex].
    change (Z.neg m) with (- Z.pos m). change (Z.neg n) with (- Z.pos n).
    change (Z.neg p) with (- Z.pos p). change (Z.neg q) with (- Z.pos q). rewrite !Zopp_compare.
    rewrite <- (pos_rank p q m n) by (auto; lia). destruct (bits p - 53 ?= bits q - 53); reflexivity.
Qed.

Lemma s64_small : forall n, small n -> s64 n = n.
Proof.
  intros n H. unfold small in H. unfold s64.
  assert (2 ^ 53 < 2 ^ 63) by (apply Z.pow_lt_mono_r; lia).
  destruct (Z.ltb_spec (n mod 2 ^ 64) (2 ^ 63)).
  - destruct (Z.lt_ge_cases n 0).
    + exfalso. assert (n mod 2 ^ 64 = n + 2 ^ 64) by (symmetry; apply Z.mod_unique with (-1); lia). lia.
    + apply Z.mod_small. lia.
  - destruct (Z.lt_ge_cases n 0).
    + assert (n mod 2 ^ 64 = n + 2 ^ 64) by (symmetry; apply Z.mod_unique with (-1); lia). lia.
    + exfalso. rewrite Z.mod_small in H1 by lia. lia.
Qed.

Definition nrank (L : libm) (n : num) : Z * (Z * Z) := frank (get_number L n).

Lemma num_compare_rank : forall L a b, small_num a -> small_num b ->
  not_nan (get_number L a) -> not_nan (get_number L b) ->
  num_compare L a b = rcmp (nrank L a) (nrank L b).
Proof.
  intros L a b Ha Hb Na Nb. unfold num_compare, nrank.
  destruct a as [n|n|f|t [|n|n]], b as [m|m|g|t' [|m|m]]; cbn [num_uint num_int get_number small_num] in *;
    try (apply f_compare_rank; assumption);
    rewrite f_of_Z_order by (unfold small; lia); try reflexivity;
    rewrite ?s64_small by (unfold small; lia); reflexivity.
Qed.

Lemma num_equal_rank : forall L a b, small_num a -> small_num b ->
  not_nan (get_number L a) -> not_nan (get_number L b) ->
  num_equal L a b = match rcmp (nrank L a) (nrank L b) with Eq => true | _ => false end.
Proof.
  intros L a b Ha Hb Na Nb. unfold num_equal, nrank.
  assert (Hz : forall n m : Z, small n -> small m ->
    (n =? m) = match rcmp (frank (f_of_Z n)) (frank (f_of_Z m)) with Eq => true | _ => false end).
  { intros n m Hn Hm. rewrite f_of_Z_order by auto. destruct (Z.compare_spec n m).
    - subst. apply Z.eqb_refl.
    - apply Z.eqb_neq. lia.
    - apply Z.eqb_neq. lia. }
  destruct a as [n|n|f|t [|n|n]], b as [m|m|g|t' [|m|m]]; cbn [num_uint num_int get_number small_num] in *;
    try (apply SFeqb_rank; assumption); apply Hz; unfold small; lia.
Qed.

(** *** Equality *)
Lemma num_equal_sym : forall L a b, num_equal L a b = num_equal L b a.
Proof.
  intros L [n|n|f|t k] [m|m|g|t' k']; cbn [num_equal]; try apply Z.eqb_sym; apply SFeqb_sym.
Qed.

Lemma beqb_sym : forall a b, beqb a b = beqb b a.
Proof.
  intros a b. destruct (beqb a b) eqn:E.
  - apply beqb_eq in E. subst. symmetry. apply beqb_refl.
  - symmetry. apply beqb_neq. apply beqb_neq in E. congruence.
Qed.

Lemma veq_sym : forall L v w, veq L v w = veq L w v.
Proof.
  intros L v. induction v as [| |b|n|e s|l IH|d l IH] using value_ind'; intros [| |c|m|e' t|l2|d2 l2]; try reflexivity.
  - destruct b, c; reflexivity.
  - apply num_equal_sym.
  - apply beqb_sym.
  - cbn [veq]. revert l2. induction IH as [|x l Hx _ IHl]; intros [|y l2]; auto. rewrite Hx, IHl. reflexivity.
  - cbn [veq]. revert l2. induction IH as [|x l Hx _ IHl]; intros [|y l2]; auto.
    rewrite Hx, IHl, beqb_sym. reflexivity.
Qed.

Lemma num_equal_refl : forall L n, not_nan (get_number L n) -> num_equal L n n = true.
Proof.
  intros L n H. destruct n as [n|n|f|t k]; cbn [num_equal]; try apply Z.eqb_refl;
    rewrite SFeqb_rank, rcmp_refl by auto; reflexivity.
Qed.

Lemma veq_refl : forall L v, proper L v -> veq L v v = true.
Proof.
  intros L v. induction v as [| |b|n|e s|l IH|d l IH] using value_ind'; intros H; inversion H; subst; try reflexivity.
  - destruct b; reflexivity.
  - cbn [veq]. apply num_equal_refl; auto.
  - cbn [veq]. apply beqb_refl.
  - clear H. rename H1 into H. cbn [veq]. induction H as [|x l Hx Hl IHl]; auto. inversion_clear IH.
    rewrite H, IHl by auto. reflexivity.
  - clear H. rename H1 into H. cbn [veq]. induction H as [|x l Hx Hl IHl]; auto. inversion_clear IH.
    rewrite H, IHl, beqb_refl by auto. reflexivity.
Qed.

(** *** Shared handles do not change the result *)
Definition veq_items (L : libm) (k : bool) := fix items (l m : list member) {struct l} : bool :=
  match l, m with
  | [], [] => true
  | x :: l', y :: m' => (negb k || beqb (fst x) (fst y)) && veq L (snd x) (snd y) && items l' m'
  | _, _ => false
  end.

Lemma veq_arr : forall L l m, veq L (VArr l) (VArr m) = veq_items L false l m.
Proof.
  reflexivity.
Qed.
Lemma veq_obj : forall L d d' l m, veq L (VObj d l) (VObj d' m) = veq_items L true l m.
Proof.
  reflexivity.
Qed.

Lemma veq_items_size : forall L k l m, length l <> length m -> veq_items L k l m = false.
Proof.
  intros L k. induction l as [|x l IH]; intros [|y m] H; cbn [length veq_items] in *; try reflexivity; try lia.
  rewrite IH by lia. apply andb_false_r.
Qed.

Scheme equal_run_mut := Minimality for equal_run Sort Prop
  with items_run_mut := Minimality for items_run Sort Prop.
Combined Scheme run_ind from equal_run_mut, items_run_mut.

Lemma run_veq : forall L,
  (forall v w b, equal_run L v w b -> proper L v -> b = veq L v w) /\
  (forall k l m b, items_run L k l m b -> Forall (fun x => proper L (snd x)) l -> b = veq_items L k l m).
Proof.
  intros L. apply run_ind; intros; auto.
  - destruct w; try reflexivity. exfalso. eapply H; eauto.
  - rewrite veq_arr. symmetry. apply veq_items_size; auto.
  - rewrite veq_arr. apply H1. inversion H2; auto.
  - destruct w; try reflexivity. exfalso. eapply H; eauto.
  - rewrite veq_obj. symmetry. apply veq_items_size; auto.
  - rewrite veq_obj. apply H1. inversion H2; auto.
  - inversion H1; subst. cbn [veq_items]. rewrite veq_refl, beqb_refl, orb_true_r by auto. simpl. auto.
  - cbn [veq_items negb orb]. apply beqb_neq in H. rewrite H. reflexivity.
  - inversion H4; subst. cbn [veq_items]. rewrite <- (H1 H7). rewrite <- (H3 H8). rewrite andb_true_r.
    destruct k; auto. rewrite (H eq_refl), beqb_refl. reflexivity.
  - inversion H2; subst. cbn [veq_items]. rewrite <- (H1 H5). rewrite andb_false_r. reflexivity.
Qed.

Lemma run_total : forall L v w, equal_run L v w (veq L v w).
Proof.
  intros L v. induction v as [| |b|n|e s|l IH|d l IH] using value_ind'; intros w.
  - apply ER_undef.
  - apply ER_null.
  - apply ER_bool.
  - apply ER_num.
  - apply ER_str.
  - destruct w as [| |c|n|e s|m|d m]; try (apply ER_arr_type; intros; discriminate).
    destruct (Nat.eq_dec (length l) (length m)) as [E|E].
    + rewrite veq_arr. apply ER_arr; auto. revert m E. induction IH as [|x l Hx _ IHl]; intros [|y m] E; try discriminate.
      * apply IR_nil.
      * cbn [veq_items]. specialize (Hx (snd y)). destruct (veq L (snd x) (snd y)).
        -- simpl. apply IR_true; auto; discriminate.
        -- simpl. apply IR_false; auto; discriminate.
    + rewrite veq_arr, veq_items_size by auto. apply ER_arr_size; auto.
  - destruct w as [| |c|n|e s|m|d' m]; try (apply ER_obj_type; intros; discriminate).
    destruct (Nat.eq_dec (length l) (length m)) as [E|E].
    + rewrite (veq_obj L d d'). apply ER_obj; auto. revert m E. induction IH as [|x l Hx _ IHl]; intros [|y m] E; try discriminate.
      * apply IR_nil.
      * cbn [veq_items negb orb]. specialize (Hx (snd y)). destruct (beqb (fst x) (fst y)) eqn:Ek.
        -- apply beqb_eq in Ek. simpl. destruct (veq L (snd x) (snd y)).
           ++ simpl. apply IR_true; auto.
           ++ simpl. apply IR_false; auto.
        -- apply beqb_neq in Ek. simpl. apply IR_key; auto.
    + rewrite (veq_obj L d d'), veq_items_size by auto. apply ER_obj_size; auto.
Qed.

Lemma op_eq_veq : forall L v w, proper L v -> proper L w ->
  op_eq L v w (veq L v w) /\ forall b, op_eq L v w b -> b = veq L v w.
Proof.
  intros L v w Hv Hw. split.
  - right. rewrite veq_sym. apply run_total.
  - intros b [[-> ->]|H]; [symmetry; apply veq_refl; auto|].
    rewrite veq_sym. apply (proj1 (run_veq L)); auto.
Qed.

(** *** Ordering *)
Definition vcmp_arr (L : libm) := fix items (l m : list member) {struct l} : comparison :=
  match l, m with
  | [], [] => Eq
  | [], _ :: _ => Lt
  | _ :: _, [] => Gt
  | x :: l', y :: m' => lex (vcmp L (snd x) (snd y)) (items l' m')
  end.
Definition vcmp_obj (L : libm) := fix items (l m : list member) {struct l} : comparison :=
  match l, m with
  | [], [] => Eq
  | [], _ :: _ => Lt
  | _ :: _, [] => Gt
  | x :: l', y :: m' => lex (kcmp (fst x) (fst y)) (lex (vcmp L (snd x) (snd y)) (items l' m'))
  end.
Lemma vcmp_arr_eq : forall L l m, vcmp L (VArr l) (VArr m) = vcmp_arr L l m.
Proof. reflexivity. Qed.
Lemma vcmp_obj_eq : forall L d d' l m, vcmp L (VObj d l) (VObj d' m) = vcmp_obj L l m.
Proof. reflexivity. Qed.

Lemma f_compare_sym : forall f g, f_compare g f = CompOpp (f_compare f g).
Proof.
  intros f g. destruct (nan_dec f) as [->|Hf]; [destruct g; reflexivity|].
  destruct (nan_dec g) as [->|Hg]; [destruct f; reflexivity|].
  rewrite !f_compare_rank by auto. apply rcmp_sym.
Qed.

Lemma num_compare_sym : forall L a b, num_compare L b a = CompOpp (num_compare L a b).
Proof.
  intros L a b. unfold num_compare.
  destruct (num_uint a), (num_uint b); try apply Z.compare_antisym;
    destruct (num_int a), (num_int b); try apply Z.compare_antisym; apply f_compare_sym.
Qed.

Lemma lex_opp : forall c d, CompOpp (lex c d) = lex (CompOpp c) (CompOpp d).
Proof. destruct c; reflexivity. Qed.

Lemma vcmp_sym : forall L v w, vcmp L w v = CompOpp (vcmp L v w).
Proof.
  intros L v. induction v as [| |b|n|e s|l IH|d l IH] using value_ind'; intros [| |c|m|e' t|l2|d2 l2]; try reflexivity.
  - destruct b, c; reflexivity.
  - apply num_compare_sym.
  - apply kcmp_antisym.
  - rewrite !vcmp_arr_eq. revert l2. induction IH as [|x l Hx _ IHl]; intros [|y l2]; auto.
    cbn [vcmp_arr]. rewrite Hx, IHl, lex_opp. reflexivity.
  - rewrite !vcmp_obj_eq. revert l2. induction IH as [|x l Hx _ IHl]; intros [|y l2]; auto.
    cbn [vcmp_obj]. rewrite Hx, IHl, (kcmp_antisym (fst x)), !lex_opp. reflexivity.
Qed.

Lemma tr_const : forall c, tr Eq c c /\ tr c Eq c /\ tr c c c.
Proof. intros c. unfold tr. repeat split; auto. Qed.

Lemma vcmp_rank : forall L v w, type_rank v <> type_rank w -> vcmp L v w = (type_rank v ?= type_rank w).
Proof. intros L [] [] H; try reflexivity; cbn [type_rank] in H; congruence. Qed.

Ltac inv_exact := repeat match goal with H : exact _ (_ _) |- _ => inversion H; subst; clear H end.

Lemma exact_arr : forall L l, exact L (VArr l) -> Forall (fun m => exact L (snd m)) l.
Proof. intros L l H. inversion H. auto. Qed.
Lemma exact_obj : forall L d l, exact L (VObj d l) -> Forall (fun m => exact L (snd m)) l.
Proof. intros L d l H. inversion H. auto. Qed.
Lemma proper_arr : forall L l, proper L (VArr l) -> Forall (fun m => proper L (snd m)) l.
Proof. intros L l H. inversion H. auto. Qed.
Lemma proper_obj : forall L d l, proper L (VObj d l) -> Forall (fun m => proper L (snd m)) l.
Proof. intros L d l H. inversion H. auto. Qed.

Lemma vcmp_tr : forall L v w x, exact L v -> exact L w -> exact L x ->
  tr (vcmp L v w) (vcmp L w x) (vcmp L v x).
Proof.
  intros L v. induction v as [| |b|n|e s|l IH|d l IH] using value_ind'; intros w x Hv Hw Hx.
  1-2: destruct w, x; unfold tr; cbn; repeat split; intros; try congruence.
  - destruct w as [| |c| | | |], x as [| |c'| | | |]; try (unfold tr; cbn; repeat split; intros; congruence).
    destruct b, c, c'; unfold tr; cbn; repeat split; intros; congruence.
  - destruct w as [| | |m| | |]; try (destruct x; unfold tr; cbn; repeat split; intros; congruence).
    destruct x as [| | |q| | |]; try (unfold tr; cbn; repeat split; intros; congruence).
    inv_exact. cbn [vcmp]. rewrite !num_compare_rank by auto. apply rcmp_tr.
  - destruct w as [| | | |e2 t| |]; try (destruct x; unfold tr; cbn; repeat split; intros; congruence).
    destruct x as [| | | |e3 u| |]; try (unfold tr; cbn; repeat split; intros; congruence).
    apply tr_kcmp.
  - destruct w as [| | | | |m|]; try (destruct x; unfold tr; cbn; repeat split; intros; congruence).
    destruct x as [| | | | |q|]; try (unfold tr; cbn; repeat split; intros; congruence).
    rewrite !vcmp_arr_eq. apply exact_arr in Hv, Hw, Hx. revert m q Hw Hx.
    induction IH as [|y l Hy _ IHl]; intros [|z m] [|u q] Hm Hq;
      try (unfold tr; cbn; repeat split; intros; congruence).
    cbn [vcmp_arr]. inversion Hv; subst. inversion Hm; subst. inversion Hq; subst.
    apply tr_lex; auto.
  - destruct w as [| | | | | |d2 m]; try (destruct x; unfold tr; cbn; repeat split; intros; congruence).
    destruct x as [| | | | | |d3 q]; try (unfold tr; cbn; repeat split; intros; congruence).
    rewrite !vcmp_obj_eq. apply exact_obj in Hv, Hw, Hx. revert m q Hw Hx.
    induction IH as [|y l Hy _ IHl]; intros [|z m] [|u q] Hm Hq;
      try (unfold tr; cbn; repeat split; intros; congruence).
    cbn [vcmp_obj]. inversion Hv; subst. inversion Hm; subst. inversion Hq; subst.
    apply tr_lex; [apply tr_kcmp|]. apply tr_lex; auto.
Qed.

Lemma lex_Eq : forall c d, lex c d = Eq <-> c = Eq /\ d = Eq.
Proof. intros [] d; simpl; split; intros H; try tauto; try discriminate; destruct H; try discriminate. Qed.

Lemma vcmp_veq : forall L v w, exact L v -> exact L w -> proper L v ->
  (vcmp L v w = Eq <-> veq L v w = true).
Proof.
  intros L v. induction v as [| |b|n|e s|l IH|d l IH] using value_ind'; intros w Hv Hw Hp.
  - inversion Hp.
  - destruct w; cbn; split; intros; try congruence; reflexivity.
  - destruct w as [| |c| | | |]; try (cbn; split; intros; congruence). destruct b, c; cbn; split; intros; congruence.
  - destruct w as [| | |m| | |]; try (cbn; split; intros; congruence). inv_exact. cbn [vcmp veq].
    rewrite num_compare_rank, num_equal_rank by auto. destruct (rcmp (nrank L n) (nrank L m)); split; congruence.
  - destruct w as [| | | |e2 t| |]; try (cbn; split; intros; congruence). cbn [vcmp veq]. rewrite beqb_eq.
    split; [apply kcmp_eq|]. intros ->. apply kcmp_refl.
  - destruct w as [| | | | |m|]; try (cbn; split; intros; congruence).
    rewrite vcmp_arr_eq, veq_arr. apply exact_arr in Hv, Hw. apply proper_arr in Hp. revert m Hw.
    induction IH as [|y l Hy _ IHl]; intros [|z m] Hm; try (cbn; split; intros; congruence).
    cbn [vcmp_arr veq_items negb orb andb]. inversion Hv; subst. inversion Hp; subst. inversion Hm; subst.
    rewrite lex_Eq, andb_true_iff, Hy, IHl by auto. reflexivity.
  - destruct w as [| | | | | |d2 m]; try (cbn; split; intros; congruence).
    rewrite vcmp_obj_eq, veq_obj. apply exact_obj in Hv, Hw. apply proper_obj in Hp. revert m Hw.
    induction IH as [|y l Hy _ IHl]; intros [|z m] Hm; try (cbn; split; intros; congruence).
    cbn [vcmp_obj veq_items negb orb]. inversion Hv; subst. inversion Hp; subst. inversion Hm; subst.
    rewrite !lex_Eq, !andb_true_iff, Hy, IHl, beqb_eq by auto.
    assert (kcmp (fst y) (fst z) = Eq <-> fst y = fst z) as -> by (split; [apply kcmp_eq|intros ->; apply kcmp_refl]).
    tauto.
Qed.

Lemma veq_proper : forall L v w, veq L v w = true -> v <> VUndef /\ w <> VUndef.
Proof. intros L v w H. destruct v, w; try discriminate; split; discriminate. Qed.

Lemma num_equal_nan : forall L a b, num_equal L a b = true -> not_nan (get_number L a) -> not_nan (get_number L b).
Proof.
  intros L a b H Ha Hb. destruct (nan_dec (get_number L b)) as [E|E]; [|congruence].
  destruct a as [n|n|f|t k], b as [m|m|g|t' k']; cbn [num_equal get_number] in *;
    try (apply Z.eqb_eq in H; subst; congruence); rewrite Hb, SFeqb_nan_r in H; discriminate.
Qed.

Lemma veq_trans : forall L v w x, exact L v -> exact L w -> exact L x -> proper L v -> proper L w ->
  veq L v w = true -> veq L w x = true -> veq L v x = true.
Proof.
  intros L v w x Hv Hw Hx Pv Pw H1 H2. apply vcmp_veq in H1; auto. apply vcmp_veq in H2; auto.
  apply vcmp_veq; auto. destruct (vcmp_tr L v w x Hv Hw Hx) as (A & _). rewrite A; auto.
Qed.

(** *** The order written out *)
Lemma f_compare_lt : forall f g, (f_compare f g = Lt <-> SFltb f g = true).
Proof. intros f g. unfold f_compare. destruct (SFltb f g); [tauto|]. destruct (SFltb g f); split; congruence. Qed.

Lemma items_before_fwd : forall L (k : bool) (l : list member), Forall (fun x : member => forall w, exact L (snd x) -> exact L w -> proper L (snd x) -> proper L w ->
    vcmp L (snd x) w = Lt -> before L (snd x) w) l ->
  forall m, Forall (fun x => exact L (snd x)) l -> Forall (fun x => exact L (snd x)) m ->
  Forall (fun x => proper L (snd x)) l -> Forall (fun x => proper L (snd x)) m ->
  (if k then vcmp_obj L l m else vcmp_arr L l m) = Lt -> items_before L k l m.
Proof.
  intros L k l IH. induction IH as [|x l Hx Hl IHl]; intros m El Em Pl Pm H.
  - destruct m; [destruct k; discriminate|constructor].
  - destruct m as [|y m]; [destruct k; discriminate|]. inversion El; subst. inversion Em; subst. inversion Pl; subst. inversion Pm; subst.
    assert (Hk : k = true /\ kcmp (fst x) (fst y) = Lt \/
      (k = true -> fst x = fst y) /\ lex (vcmp L (snd x) (snd y)) (if k then vcmp_obj L l m else vcmp_arr L l m) = Lt).
    { destruct k; cbn [vcmp_obj vcmp_arr] in H; [|right; split; [discriminate|exact H]].
      destruct (kcmp (fst x) (fst y)) eqn:Ek; [right|left; auto|discriminate]. split; [intros _; apply kcmp_eq; auto|exact H]. }
    destruct Hk as [[-> Hk]|[Hk Hc]]; [apply IB_key; auto|].
    destruct (vcmp L (snd x) (snd y)) eqn:Ev; [|apply IB_item; auto|discriminate].
    apply IB_next; auto. apply vcmp_veq; auto.
Qed.

Lemma vcmp_before : forall L v w, exact L v -> exact L w -> proper L v -> proper L w -> vcmp L v w = Lt -> before L v w.
Proof.
  intros L v. induction v as [| |b|n|e s|l IH|d l IH] using value_ind'; intros w Ev Ew Pv Pw H.
  1: inversion Pv.
  all: try (destruct w as [| |b'|n'|e' s'|l'|d' l']; try (cbn in H; discriminate); try (apply B_kind; cbn; lia)).
  - destruct b, b'; try discriminate. apply B_bool.
  - inversion Ev; subst. inversion Ew; subst. apply B_num. cbn [vcmp] in H. rewrite num_compare_rank in H by auto.
    apply f_compare_lt. rewrite f_compare_rank by auto. exact H.
  - apply B_str. exact H.
  - rewrite vcmp_arr_eq in H. apply exact_arr in Ev, Ew. apply proper_arr in Pv, Pw. apply B_arr. eapply items_before_fwd; eauto.
  - rewrite vcmp_obj_eq in H. apply exact_obj in Ev, Ew. apply proper_obj in Pv, Pw. apply B_obj. eapply items_before_fwd; eauto.
Qed.

Scheme before_ind2 := Induction for before Sort Prop
with items_before_ind2 := Induction for items_before Sort Prop.
Combined Scheme before_mut from before_ind2, items_before_ind2.

Lemma before_vcmp : forall L,
  (forall v w, before L v w -> exact L v -> exact L w -> proper L v -> proper L w -> vcmp L v w = Lt) /\
  (forall k l m, items_before L k l m -> Forall (fun x => exact L (snd x)) l -> Forall (fun x => exact L (snd x)) m ->
    Forall (fun x => proper L (snd x)) l -> Forall (fun x => proper L (snd x)) m ->
    (if k then vcmp_obj L l m else vcmp_arr L l m) = Lt).
Proof.
  intros L. apply before_mut; intros.
  - assert (K : forall v, kind v = type_rank v) by (intros []; reflexivity). rewrite (K v), (K w) in l.
    rewrite vcmp_rank by lia. apply Z.compare_lt_iff. auto.
  - reflexivity.
  - cbn [vcmp]. inversion H; subst. inversion H0; subst. rewrite num_compare_rank by auto. unfold nrank.
    rewrite <- f_compare_rank by auto. apply f_compare_lt. auto.
  - auto.
  - rewrite vcmp_arr_eq. apply H; auto using exact_arr, proper_arr.
  - rewrite vcmp_obj_eq. apply H; eauto using exact_obj, proper_obj.
  - destruct k; reflexivity.
  - cbn [vcmp_obj]. rewrite e. reflexivity.
  - inversion H0; subst. inversion H1; subst. inversion H2; subst. inversion H3; subst.
    destruct k; cbn [vcmp_obj vcmp_arr]; rewrite ?(e eq_refl), ?kcmp_refl, H by auto; reflexivity.
  - inversion H0; subst. inversion H1; subst. inversion H2; subst. inversion H3; subst. apply vcmp_veq in e0; auto.
    destruct k; cbn [vcmp_obj vcmp_arr]; rewrite ?(e eq_refl), ?kcmp_refl, e0; cbn [lex]; apply H; auto.
Qed.

Lemma vcmp_order : forall L v w, exact L v -> exact L w -> proper L v -> proper L w -> (vcmp L v w = Lt <-> before L v w).
Proof. intros L v w H1 H2 H3 H4. split; [apply vcmp_before; auto|]. intros H. apply (proj1 (before_vcmp L)); auto. Qed.
