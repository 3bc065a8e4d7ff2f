(** Proofs about several array builders. *)
From Verif Require Import Base ModelKeyed SpecKeyed ModelValue ModelObject ModelArray SpecArray ProofArray ModelArrays SpecArrays.

Definition good (b : barr) (s : aspec) : Prop :=
  exists v, b_base b = Some v /\ arep (as_arr b) s /\ base_kind v /\
    forall m, In m (as_base s) -> is_undef (snd m) = false.
Definition rel (b : barr) (o : abuilder) : Prop := match o with Some s => good b s | None => b_chg b = [] end.

Lemma as_of : forall a, as_arr (of_arr a) = a.
Proof. intros []; reflexivity. Qed.

Lemma good_of : forall a s, arep a s -> base_kind (a_base a) -> (forall m, In m (as_base s) -> is_undef (snd m) = false) ->
  good (of_arr a) s.
Proof. intros a s H K D. exists (a_base a). rewrite as_of. repeat split; auto; apply H. Qed.

Lemma put_length : forall A (l : list A) i x, length (b_put l i x) = length l.
Proof. induction l; intros [|i] x; cbn; auto. Qed.
Lemma put_rel : forall R i x y, rel x y -> forall l, Forall2 rel R l -> Forall2 rel (b_put R i x) (b_put l i y).
Proof.
  induction R; intros i x y H l F; inversion F; subst; destruct i; cbn; constructor; auto.
Qed.
Lemma nth_rel : forall R l i y, Forall2 rel R l -> nth_error l i = Some y -> exists x, nth_error R i = Some x /\ rel x y.
Proof.
  induction R; intros l i y F E; inversion F; subst; destruct i; cbn in *; try discriminate.
  - inversion E; subst. eauto.
  - eauto.
Qed.
Lemma nth_of : forall A (l : list A) i d x, nth_error l i = Some x -> nth i l d = x.
Proof. induction l; intros [|i] d x E; cbn in *; try discriminate; auto. congruence. Qed.
Lemma nth_have : forall A (l : list A) i, i < length l -> exists x, nth_error l i = Some x.
Proof. intros A l i H. destruct (nth_error l i) eqn:E; eauto. apply nth_error_None in E. lia. Qed.

Lemma op_good : forall b s op, good b s -> aop_ok s op -> exists b', b_op b op = Some b' /\ good b' (aspec_step s op).
Proof.
  intros b s op (v & Ev & A & K & D) O. destruct (step_spec _ _ _ A O) as (a' & E & A').
  unfold b_op, no_base. rewrite Ev. cbn [andb]. rewrite E. cbn [option_map].
  exists (of_arr a'). split. { destruct op; reflexivity. }
  apply good_of; auto.
  - apply (step_kind _ _ _ E). unfold as_arr. rewrite Ev. exact K.
  - intros m H. apply D. eapply step_base_in; eauto.
Qed.

Lemma good_reads : forall b s, good b s ->
  b_size b = length (as_cur s) /\ (forall i, b_get b i = Some (nth_error (as_cur s) i)) /\
  b_commit b = Some (VArr (defined_only (as_cur s))).
Proof.
  intros b s (v & Ev & A & K & D). destruct A as (W & C & B). unfold b_size.
  assert (S : arr_size (as_arr b) = length (as_cur s)) by (rewrite <- C; symmetry; apply content_length; auto).
  split; [exact S|]. split.
  - intros i. unfold b_get, no_base. rewrite Ev. cbn [andb]. f_equal. rewrite <- C. apply arr_get_spec; auto.
  - unfold b_commit, b_size, no_base. rewrite Ev, S. destruct (Nat.eqb_spec (length (as_cur s)) 0) as [Z|Z].
    + destruct (as_cur s); [reflexivity|discriminate].
    + f_equal. apply commit_spec; [split; [exact W|split; [exact C|exact B]]|exact D| |].
      * intros d l E. assert (a_base (as_arr b) = v) as Q by (unfold as_arr; rewrite Ev; reflexivity).
        destruct K as [K|[l' K]]; congruence.
      * intros Hn. assert (a_base (as_arr b) = v) as Q by (unfold as_arr; rewrite Ev; reflexivity).
        destruct K as [K|[l' K]]; [right|left; congruence].
        unfold arr_dirty, arr_size, arr_wf, vsize in *. rewrite Q, K in *. cbn [members_of length] in *.
        destruct (a_chg (as_arr b)); cbn [length] in *; [lia|]. rewrite orb_true_r. reflexivity.
Qed.

Lemma whole_good : forall v, whole v -> good (of_arr (arr_of v)) (mkASpec (members_of v) (members_of v)).
Proof.
  intros v (l & -> & H). apply good_of; cbn; auto.
  - exact (create_rep (CBase l)).
  - right. eauto.
Qed.

Lemma step_rel : forall R out l op, Forall2 rel R l -> allowed l op ->
  exists R', b_step (mkBS R out) op = Some (mkBS R' (out ++ shown l op)) /\ Forall2 rel R' (after l op).
Proof.
  intros R out l op F O.
  assert (G : forall b y, nth_error l b = Some y -> exists x, nth_error R b = Some x /\ rel x y) by (intros; eapply nth_rel; eauto).
  assert (LV : forall b P, live l b P -> exists s x, nth_error l b = Some (Some s) /\ nth_error R b = Some x /\ good x s /\ P s).
  { intros b P H. unfold live in H. destruct (nth_error l b) as [[s|]|] eqn:E; try contradiction.
    destruct (G _ _ E) as (x & E' & Q). exists s, x. auto. }
  destruct op; cbn [allowed] in O; cbn [b_step after shown]; unfold on_arr; cbn [bs_arrs];
    rewrite ?app_nil_r.
  - eexists. split; [reflexivity|]. apply Forall2_app; auto. constructor; auto. apply whole_good; auto.
  - eexists. split; [reflexivity|]. apply Forall2_app; auto. constructor; auto.
    apply good_of; cbn; try tauto; [exact (create_rep CEmpty)|right; eauto].
  - eexists. split; [reflexivity|]. apply Forall2_app; auto. constructor; auto.
    apply good_of; cbn; try tauto; [exact (create_rep (CList l0))|left; auto].
  - destruct (LV _ _ O) as (s & x & E & E' & Q & H). rewrite E'. destruct (op_good x s op Q H) as (y & Ey & Gy).
    rewrite Ey. cbn [option_map]. eexists. split; [reflexivity|]. apply put_rel; auto.
    rewrite (nth_of _ _ _ _ _ E). exact Gy.
  - destruct O as [E W]. destruct (G _ _ E) as (x & E' & Q). rewrite E'. eexists. split; [reflexivity|].
    apply put_rel; auto. cbn in Q. unfold b_set_base, arr_set_base. cbn [as_arr a_chg]. rewrite Q. apply whole_good; auto.
  - destruct (nth_have _ l b O) as [y E]. destruct (G _ _ E) as (x & E' & Q). rewrite E'. eexists. split; [reflexivity|].
    apply Forall2_app; auto. constructor; auto. rewrite (nth_of _ _ _ _ _ E). exact Q.
  - destruct O as [O1 O2]. destruct (nth_have _ l b O1) as [y1 E1]. destruct (G _ _ E1) as (x1 & E1' & Q1). rewrite E1'.
    destruct (nth_have _ l c O2) as [y E]. destruct (G _ _ E) as (x & E' & Q). rewrite E'. eexists. split; [reflexivity|].
    apply put_rel; auto. rewrite (nth_of _ _ _ _ _ E). exact Q.
  - destruct (nth_have _ l c O) as [y E]. destruct (G _ _ E) as (x & E' & Q). rewrite E'. eexists. split; [reflexivity|].
    apply Forall2_app; [apply put_rel; cbn; auto|]. constructor; auto. rewrite (nth_of _ _ _ _ _ E). exact Q.
  - destruct O as [O1 O2]. destruct (nth_have _ l b O1) as [y1 E1]. destruct (G _ _ E1) as (x1 & E1' & Q1). rewrite E1'.
    destruct (nth_have _ l c O2) as [y E]. destruct (G _ _ E) as (x & E' & Q). rewrite E'.
    destruct (Nat.eqb b c); eexists; (split; [reflexivity|]); auto.
    apply put_rel; [cbn; auto|]. apply put_rel; auto. rewrite (nth_of _ _ _ _ _ E). exact Q.
  - destruct (LV _ _ O) as (s & x & E & E' & Q & _). rewrite E'. destruct (good_reads _ _ Q) as (Q1 & Q2 & Q3).
    rewrite Q2. cbn [option_map]. eexists. split; [|exact F]. rewrite (nth_of _ _ _ _ _ E). reflexivity.
  - destruct (LV _ _ O) as (s & x & E & E' & Q & _). rewrite E'. destruct (good_reads _ _ Q) as (Q1 & Q2 & Q3).
    rewrite Q1. eexists. split; [|exact F]. rewrite (nth_of _ _ _ _ _ E). reflexivity.
  - destruct (LV _ _ O) as (s & x & E & E' & Q & _). rewrite E'. destruct (good_reads _ _ Q) as (Q1 & Q2 & Q3).
    rewrite Q3. cbn [option_map]. eexists. split; [|exact F]. rewrite (nth_of _ _ _ _ _ E). reflexivity.
Qed.

Lemma run_rel : forall ops R out l, Forall2 rel R l -> all_allowed l ops ->
  exists R', b_run (mkBS R out) ops = Some (mkBS R' (out ++ all_shown l ops)).
Proof.
  induction ops as [|op ops IH]; intros R out l F O; cbn [b_run all_shown].
  - rewrite app_nil_r. eauto.
  - destruct O as [O1 O2]. destruct (step_rel R out l op F O1) as (R1 & E & F1). rewrite E.
    destruct (IH R1 (out ++ shown l op) _ F1 O2) as (R2 & E2). rewrite E2. rewrite app_assoc. eauto.
Qed.

Lemma arrays_are_lists : forall ops, all_allowed [] ops ->
  exists st, b_run bs_init ops = Some st /\ bs_out st = all_shown [] ops.
Proof.
  intros ops O. destruct (run_rel ops [] [] [] ltac:(constructor) O) as (R & E). exists (mkBS R (all_shown [] ops)). auto.
Qed.

(** Moved-from builders. *)
Lemma op_no_base : forall b op b', b_op b op = Some b' -> op <> AReverse -> b_base b = None -> b_base b' = None.
Proof.
  intros b op b' E N H. unfold b_op, no_base in E. rewrite H in E. cbn [andb] in E.
  destruct (uses_base b op); [discriminate|]. destruct (arr_step (as_arr b) op); [|discriminate].
  cbn in E. destruct op; inversion E; subst; cbn; congruence.
Qed.
Lemma ops_no_base : forall ops b b', b_ops b ops = Some b' -> ~ In AReverse ops -> b_base b = None -> b_base b' = None.
Proof.
  induction ops as [|op ops IH]; intros b b' E N H; cbn [b_ops] in E.
  - congruence.
  - destruct (b_op b op) as [b1|] eqn:E1; [|discriminate]. apply (IH b1 b' E).
    + intros Q. apply N. right. exact Q.
    + eapply op_no_base; eauto. intros ->. apply N. left. reflexivity.
Qed.
Lemma moved_commit : forall b ops b', ~ In AReverse ops -> b_ops (b_moved b) ops = Some b' ->
  b_commit b' = if b_size b' =? 0 then Some (VArr []) else None.
Proof.
  intros b ops b' N E. pose proof (ops_no_base ops _ _ E N eq_refl) as H. unfold b_commit, no_base. rewrite H. reflexivity.
Qed.
Lemma moved_size : forall b, b_size (b_moved b) = b_off b /\ forall i, b_get (b_moved b) i = if i <? b_off b then None else Some None.
Proof.
  intros b. split; [unfold b_size, arr_size; cbn; lia|]. intros i. unfold b_get, arr_get. cbn [no_base b_moved b_base andb as_arr a_off b_off a_chg b_chg].
  destruct (i <? b_off b); [reflexivity|]. destruct (i - b_off b); reflexivity.
Qed.
Lemma moved_reuse : forall l x, b_run bs_init [BValue (VArr l); BMoveNew 0; BOp 0 AClear; BOp 0 (APush x); BCommit 0] = None.
Proof. intros. reflexivity. Qed.

Lemma rev_loop : forall chg x b0 out, x <= length chg ->
  arr_reverse_loop (mkArr b0 0 chg) x out = Some (mkArr (a_base out) (a_off out) (a_chg out ++ rev (firstn x chg))).
Proof.
  intros chg x b0. induction x as [|x IH]; intros out H; cbn [arr_reverse_loop].
  - cbn [firstn rev]. rewrite app_nil_r. destruct out; reflexivity.
  - unfold arr_get. cbn [a_off a_chg Nat.ltb Nat.leb]. rewrite Nat.sub_0_r.
    destruct (nth_error chg x) as [m|] eqn:E; [|apply nth_error_None in E; lia].
    rewrite IH by lia. unfold arr_push. cbn [a_base a_off a_chg].
    f_equal. f_equal. rewrite <- app_assoc. f_equal.
    assert (Q : firstn (S x) chg = firstn x chg ++ [m]).
    { clear -E. revert x E. induction chg as [|y chg IH]; intros [|x] E; cbn in *; try discriminate; [congruence|].
      f_equal. apply IH. exact E. }
    rewrite Q, rev_app_distr. reflexivity.
Qed.

Lemma moved_ops : forall off chg, let b := mkBarr None off chg in
  (forall pos m, pos < off -> b_op b (AInsert pos m) = None /\ b_op b (ASet pos m) = None /\ b_op b (AErase pos) = None) /\
  (forall pos l, pos < off -> b_op b (AInsertSet pos l) = None) /\
  (forall pos n, pos < off -> b_op b (AEraseSet pos n) = None) /\
  b_op b ARevert = None /\
  (0 < off -> b_op b AReverse = None) /\
  (forall z, 0 < off -> (- Z.of_nat (off + length chg) < z < Z.of_nat (off + length chg))%Z -> b_op b (ASlice1 z) = None) /\
  (off = 0 -> b_op b AReverse = Some (mkBarr (Some (VArr [])) 0 (rev chg))) /\
  (forall i m, i <= length chg -> b_op b (AInsert (off + i) m) = Some (mkBarr None off (firstn i chg ++ m :: skipn i chg))) /\
  (forall i m, i < length chg -> b_op b (ASet (off + i) m) = Some (mkBarr None off (firstn i chg ++ m :: skipn (S i) chg)) /\
     b_op b (AErase (off + i)) = Some (mkBarr None off (firstn i chg ++ skipn (S i) chg))) /\
  (forall i n, i + n <= length chg -> b_op b (AEraseSet (off + i) n) = Some (mkBarr None off (firstn i chg ++ skipn (i + n) chg))).
Proof.
  intros off chg b. unfold b, b_op. cbn [no_base b_base andb uses_base b_off].
  assert (X : forall i, arr_extend (as_arr (mkBarr None off chg)) (off + i) = mkArr VUndef off chg).
  { intros i. unfold arr_extend. cbn [as_arr a_off b_off b_chg b_base]. replace (off + i <? off) with false; [reflexivity|].
    symmetry. apply Nat.ltb_ge. lia. }
  assert (LT : forall p, p < off -> (p <? off) = true) by (intros; apply Nat.ltb_lt; lia).
  assert (GE : forall i, (off + i <? off) = false) by (intros; apply Nat.ltb_ge; lia).
  assert (PR : forall i, off + i - off = i) by (intros; lia).
  split; [intros pos m H; rewrite (LT _ H); auto|].
  split; [intros pos m H; rewrite (LT _ H); auto|].
  split; [intros pos m H; rewrite (LT _ H); auto|].
  split; [reflexivity|].
  split; [intros H; rewrite (LT _ H); reflexivity|].
  split.
  { intros z H Z. rewrite (LT _ H). cbn [andb b_chg].
    destruct (z <? 0)%Z eqn:N; [replace (- z <? Z.of_nat (off + length chg))%Z with true by (symmetry; apply Z.ltb_lt; lia)|
      replace (z <? Z.of_nat (off + length chg))%Z with true by (symmetry; apply Z.ltb_lt; lia)]; reflexivity. }
  split.
  { intros ->. cbn [Nat.ltb Nat.leb arr_step]. unfold arr_reverse, as_arr, arr_size. cbn [b_base b_off b_chg a_off a_chg].
    rewrite rev_loop by lia.
    cbn [option_map]. unfold of_arr. cbn. rewrite firstn_all. reflexivity. }
  split.
  { intros i m H. rewrite GE. cbn [arr_step]. unfold arr_insert. rewrite X. cbn [a_off a_chg a_base]. rewrite PR.
    unfold vec_insert. replace (i <=? length chg) with true by (symmetry; apply Nat.leb_le; lia). reflexivity. }
  assert (E : forall i n, i + n <= length chg -> arr_erase_set (as_arr (mkBarr None off chg)) (off + i) n =
    Some (mkArr VUndef off (firstn i chg ++ skipn (i + n) chg))).
  { intros i n H. unfold arr_erase_set. rewrite X. cbn [a_off a_chg a_base]. rewrite PR.
    unfold vec_erase. replace (i <=? i + n) with true by (symmetry; apply Nat.leb_le; lia).
    replace (i + n <=? length chg) with true by (symmetry; apply Nat.leb_le; lia). reflexivity. }
  split.
  { intros i m H. rewrite GE. cbn [arr_step]. split.
    - unfold arr_set. rewrite X. cbn [a_off a_chg a_base]. rewrite PR.
      unfold vec_set. replace (i <? length chg) with true by (symmetry; apply Nat.ltb_lt; lia). reflexivity.
    - unfold arr_erase. rewrite E by lia. replace (i + 1) with (S i) by lia. reflexivity. }
  intros i n H. rewrite GE. cbn [arr_step]. rewrite E by exact H. reflexivity.
Qed.
