(** A release leaves exactly what can be reached; programs with releases. *)
From Verif Require Import Base ModelKeyed SpecKeyed ProofKeyed ModelValue ModelObject SpecObject ModelHeap SpecHeap
  ProofHeap ProofHeap2 ProofHeap3 ProofHeap4 ModelRelease SpecRelease ProofRelease ProofRelease2.

Lemma in_hv : forall x a, In a (hv_ptrs x) <-> x = HR a.
Proof.
  intros [v|b] a; cbn [hv_ptrs In]; split; intros H; try contradiction; try discriminate.
  - destruct H as [->|[]]. auto.
  - inversion H. auto.
Qed.
Lemma in_opt : forall x a, In a (opt_ptrs x) <-> x = Some a.
Proof.
  intros [b|] a; cbn [opt_ptrs In]; split; intros H; try contradiction; try discriminate.
  - destruct H as [->|[]]. auto.
  - inversion H. auto.
Qed.
Lemma in_obj : forall o a, In a (obj_ptrs o) <->
  h_base o = Some (HR a) \/ h_snap o = HR a \/ h_ord o = Some a \/ h_unord o = Some a.
Proof.
  intros o a. unfold obj_ptrs. rewrite !in_app_iff, in_hv, !in_opt.
  destruct (h_base o) as [b|]; [rewrite in_hv|cbn [In]].
  - split; intros [H|H]; auto; left; congruence.
  - split; intros [H|H]; auto; [contradiction|discriminate].
Qed.
Lemma in_roots : forall s a, In a (root_ptrs s) <-> refers s a.
Proof.
  intros s a. unfold root_ptrs, refers. rewrite in_app_iff, !in_flat_map. split.
  - intros [(o & Ho & H)|(x & Hx & H)].
    + right. exists o. split; auto. apply in_obj; auto.
    + left. apply in_hv in H. subst. auto.
  - intros [H|(o & Ho & H)].
    + right. exists (HR a). split; auto. apply in_hv. auto.
    + left. exists o. split; auto. apply in_obj; auto.
Qed.
Lemma in_cell : forall c a, In a (cell_ptrs c) <-> exists k, In (k, HR a) (c_items c).
Proof.
  intros c a. unfold cell_ptrs. rewrite in_flat_map. split.
  - intros ([k x] & H & E). cbn [snd] in E. apply in_hv in E. subst. eauto.
  - intros (k & H). exists (k, HR a). split; auto. apply in_hv. auto.
Qed.
Lemma in_held : forall g h i b, In b (held_ptrs g i h) <->
  exists j c, nth_error h j = Some c /\ g (i + j) = false /\ In b (cell_ptrs c).
Proof.
  intros g. induction h as [|c h IH]; intros i b; cbn [held_ptrs].
  - split; [contradiction|]. intros (j & c & H & _). destruct j; discriminate.
  - rewrite in_app_iff, IH. split.
    + intros [H|(j & x & H1 & H2 & H3)].
      * exists 0, c. rewrite Nat.add_0_r. destruct (g i); [contradiction|auto].
      * exists (S j), x. rewrite Nat.add_succ_r. auto.
    + intros (j & x & H1 & H2 & H3). destruct j as [|j].
      * left. inversion H1; subst. rewrite Nat.add_0_r in H2. rewrite H2. auto.
      * right. exists j, x. rewrite Nat.add_succ_r in H2. auto.
Qed.

(** Someone points to [a]. *)
Definition held (s : hstate) (g : nat -> bool) (a : nat) : Prop :=
  refers s a \/ exists b c k, nth_error (hs_heap s) b = Some c /\ g b = false /\ In (k, HR a) (c_items c).
Lemma in_ptrs : forall s g a, In a (root_ptrs s ++ held_ptrs g 0 (hs_heap s)) <-> held s g a.
Proof.
  intros s g a. rewrite in_app_iff, in_roots, in_held. unfold held. split.
  - intros [H|(j & c & H1 & H2 & H3)]; auto. apply in_cell in H3 as (k & H3). right. exists j, c, k. auto.
  - intros [H|(j & c & k & H1 & H2 & H3)]; auto. right. exists j, c. rewrite in_cell. eauto.
Qed.
Lemma once_false : forall s g a, release_once s g a = false <->
  g a = false /\ (a < length (hs_heap s) -> held s g a).
Proof.
  intros s g a. unfold release_once. rewrite orb_false_iff. rewrite <- in_ptrs.
  set (ps := root_ptrs s ++ _). destruct (existsb (Nat.eqb a) ps) eqn:E.
  - apply existsb_exists in E as (x & Hx & Ex). apply Nat.eqb_eq in Ex. subst x. cbn [negb]. rewrite andb_false_r. tauto.
  - cbn [negb]. rewrite andb_true_r. rewrite Nat.ltb_ge. split; intros [H1 H2]; split; auto; [lia|].
    destruct (Nat.ltb_spec a (length (hs_heap s))) as [L|L]; auto. exfalso. specialize (H2 L).
    rewrite <- not_true_iff_false in E. apply E. apply existsb_exists. exists a. split; auto. apply Nat.eqb_refl.
Qed.

Lemma once_ext : forall s g g', (forall a, g a = g' a) -> forall a, release_once s g a = release_once s g' a.
Proof.
  intros s g g' E a. destruct (release_once s g' a) eqn:H.
  - apply not_false_iff_true. intros N. apply once_false in N as [N1 N2]. rewrite <- not_false_iff_true in H. apply H.
    apply once_false. rewrite <- E. split; auto. intros L. destruct (N2 L) as [R|(b & c & k & H1 & H2 & H3)]; [left; auto|].
    right. exists b, c, k. rewrite <- E. auto.
  - apply once_false in H as [N1 N2]. apply once_false. rewrite E. split; auto.
    intros L. destruct (N2 L) as [R|(b & c & k & H1 & H2 & H3)]; [left; auto|]. right. exists b, c, k. rewrite E. auto.
Qed.
Lemma all_ext : forall n s g g', (forall a, g a = g' a) -> forall a, release_all n s g a = release_all n s g' a.
Proof. induction n as [|n IH]; intros s g g' E a; cbn [release_all]; auto. apply IH. apply once_ext; auto. Qed.

Lemma once_grows : forall s g a, g a = true -> release_once s g a = true.
Proof. intros s g a H. unfold release_once. rewrite H. reflexivity. Qed.
Lemma all_grows : forall n s g a, g a = true -> release_all n s g a = true.
Proof. induction n as [|n IH]; intros s g a H; cbn [release_all]; auto. apply IH, once_grows, H. Qed.
Lemma all_within : forall n s g a, (forall b, g b = true -> b < length (hs_heap s)) -> release_all n s g a = true ->
  a < length (hs_heap s).
Proof.
  induction n as [|n IH]; intros s g a H E; cbn [release_all] in E; auto. eapply IH; [|exact E].
  intros b Hb. destruct (Nat.ltb_spec b (length (hs_heap s))) as [L|L]; auto. exfalso. unfold release_once in Hb.
  rewrite orb_true_iff, andb_true_iff in Hb. destruct Hb as [Hb|[Hb _]]; [apply H in Hb; lia|apply Nat.ltb_lt in Hb; lia].
Qed.

(** It comes to an end. *)
Definition left_over (n : nat) (g : nat -> bool) : nat := length (filter (fun a => negb (g a)) (seq 0 n)).
Lemma filter_less : forall (f g : nat -> bool) l, (forall a, f a = true -> g a = true) ->
  length (filter f l) <= length (filter g l) /\
  (forall a, In a l -> g a = true -> f a = false -> length (filter f l) < length (filter g l)).
Proof.
  intros f g l H. induction l as [|x l [IH1 IH2]]; cbn [filter]; [split; [auto|contradiction]|].
  destruct (f x) eqn:Ef; destruct (g x) eqn:Eg; cbn [length];
    try (rewrite (H x Ef) in Eg; discriminate); split; try lia; intros a [->|Ha] E1 E2; try congruence; specialize (IH2 a Ha E1 E2); lia.
Qed.

Lemma all_settles : forall k s g, left_over (length (hs_heap s)) g <= k ->
  (forall b, g b = true -> b < length (hs_heap s)) ->
  forall a, release_once s (release_all k s g) a = release_all k s g a.
Proof.
  induction k as [|k IH]; intros s g H W; cbn [release_all].
  - intros a. destruct (g a) eqn:E; [apply once_grows; auto|]. apply once_false. split; auto. intros L. exfalso.
    unfold left_over in H. assert (In a (filter (fun a => negb (g a)) (seq 0 (length (hs_heap s))))) as Hin.
    { apply filter_In. split; [apply in_seq; lia|]. rewrite E. reflexivity. }
    destruct (filter _ _); [contradiction|cbn [length] in H; lia].
  - destruct (forallb (fun a => Bool.eqb (release_once s g a) (g a)) (seq 0 (length (hs_heap s)))) eqn:E.
    + assert (Fx : forall a, release_once s g a = g a).
      { intros a. destruct (Nat.ltb_spec a (length (hs_heap s))) as [L|L].
        - rewrite forallb_forall in E. apply eqb_prop. apply E. apply in_seq. lia.
        - unfold release_once. replace (a <? length (hs_heap s)) with false by (symmetry; apply Nat.ltb_ge; lia). apply orb_false_r. }
      assert (All : forall n g', (forall a, g' a = g a) -> forall a, release_all n s g' a = g a).
      { induction n as [|n IHn]; intros g' E' a; cbn [release_all]; auto. apply IHn. intros b. rewrite (once_ext s g' g E'). auto. }
      intros a. rewrite (once_ext s (release_all k s (release_once s g)) g); [|intros b; apply All; auto].
      rewrite Fx. symmetry. apply All. auto.
    + apply IH; [|intros b Hb; apply (all_within 1 s g b W Hb)].
      assert (exists a, In a (seq 0 (length (hs_heap s))) /\ release_once s g a <> g a) as (a & Ha & Na).
      { clear -E. induction (seq 0 (length (hs_heap s))) as [|x l IHl]; [discriminate|]. cbn [forallb] in E.
        apply andb_false_iff in E as [E|E].
        - exists x. split; [left; auto|]. intros N. rewrite N, eqb_reflx in E. discriminate.
        - destruct (IHl E) as (a & ? & ?). exists a. split; [right; auto|auto]. }
      assert (g a = false) as Ga.
      { destruct (g a) eqn:G; auto. exfalso. apply Na. apply once_grows. auto. }
      assert (release_once s g a = true) as Ra by (destruct (release_once s g a) eqn:Rr; auto; congruence).
      unfold left_over in *.
      destruct (filter_less (fun a => negb (release_once s g a)) (fun a => negb (g a)) (seq 0 (length (hs_heap s)))) as [_ Hl].
      { intros x Hx. apply negb_true_iff in Hx. apply negb_true_iff. apply once_false in Hx. apply Hx. }
      specialize (Hl a Ha). rewrite Ga, Ra in Hl. specialize (Hl eq_refl eq_refl). lia.
Qed.
Lemma left_le : forall n g, left_over n g <= n.
Proof.
  intros n g. unfold left_over. rewrite <- (seq_length n 0) at 2. generalize (seq 0 n). intros l.
  induction l as [|x l IH]; cbn [filter length]; auto. destruct (negb (g x)); cbn [length]; lia.
Qed.

(** What can be reached is not released. *)
Lemma once_keeps : forall s g, (forall a, reached s a -> g a = false) -> forall a, reached s a -> release_once s g a = false.
Proof.
  intros s g H a R. apply once_false. split; auto. intros _. destruct R as [a R|b c k a R E I]; [left; auto|].
  right. exists b, c, k. auto.
Qed.
Lemma all_keeps : forall n s g, (forall a, reached s a -> g a = false) -> forall a, reached s a -> release_all n s g a = false.
Proof. induction n as [|n IH]; intros s g H a R; cbn [release_all]; auto. apply IH; auto. apply once_keeps; auto. Qed.

(** Pointers in containers lead to finished containers only, and these only to older ones. *)
Definition cells_ok (P : nat -> Prop) (h : heap) : Prop :=
  forall a c, nth_error h a = Some c -> Forall (okm P) (c_items c).

(** What is not released can be reached: there are no cycles. *)
Lemma settled_reached : forall P s g, closed P (hs_heap s) -> cells_ok P (hs_heap s) ->
  (forall a, release_once s g a = g a) ->
  forall a, a < length (hs_heap s) -> g a = false -> reached s a.
Proof.
  intros P s g Hc Hk Fx.
  assert (Held : forall a, a < length (hs_heap s) -> g a = false -> held s g a).
  { intros a L G. rewrite <- Fx in G. apply once_false in G. apply G. auto. }
  assert (H : forall n a, length (hs_heap s) - a < n -> a < length (hs_heap s) -> g a = false -> reached s a).
  { induction n as [|n IH]; intros a Hn L G; [lia|].
    destruct (Held a L G) as [R|(b & c & k & E & Gb & I)]; [constructor; auto|].
    assert (Lb : b < length (hs_heap s)) by (apply nth_error_Some; congruence).
    eapply reached_in; [|exact E|exact I].
    destruct (Held b Lb Gb) as [R|(b2 & c2 & k2 & E2 & Gb2 & I2)]; [constructor; auto|].
    assert (Pb : P b).
    { pose proof (Hk b2 c2 E2) as F. rewrite Forall_forall in F. exact (F _ I2). }
    destruct (Hc b Pb) as (c' & E' & F). rewrite E in E'. inversion E'; subst c'.
    rewrite Forall_forall in F. destruct (F _ I) as [_ Hlt]. cbn [snd] in Hlt.
    apply IH; auto. lia. }
  intros a L G. apply (H (S (length (hs_heap s))) a); auto. lia.
Qed.

Theorem released_exactly : forall P s g, closed P (hs_heap s) -> cells_ok P (hs_heap s) ->
  (forall a, reached s a -> g a = false) -> (forall b, g b = true -> b < length (hs_heap s)) ->
  forall a, a < length (hs_heap s) -> (release_all (length (hs_heap s)) s g a = false <-> reached s a).
Proof.
  intros P s g Hc Hk Hg W a L. split.
  - intros G. eapply settled_reached; eauto. apply all_settles; auto. apply left_le.
  - apply all_keeps; auto.
Qed.
