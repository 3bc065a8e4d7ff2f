(** Every operation keeps what was handed out. *)
From Verif Require Import Base ModelKeyed SpecKeyed ProofKeyed ModelValue ModelObject SpecObject ModelHeap SpecHeap
  ProofHeap ProofHeap2.

Lemma vals_same : forall s h' objs', exists l, hs_vals (mkHState h' objs' (hs_vals s)) = hs_vals s ++ l.
Proof. intros. exists []. rewrite app_nil_r. reflexivity. Qed.

Lemma own_not : forall P s b o a, sinv P s -> nth_error (hs_objs s) b = Some o -> h_unord o = Some a -> ~ P a.
Proof. intros P s b o a V Hb Ha. exact (proj1 (k_unord _ _ _ (v_objs _ _ V _ _ Hb) a Ha)). Qed.

Lemma put_obj_kept : forall P s b o h' o', sinv P s -> nth_error (hs_objs s) b = Some o ->
  good P (hs_heap s) o h' o' (HV VUndef) ->
  exists P', kept P P' s (mkHState h' (h_put (hs_objs s) b o') (hs_vals s)).
Proof.
  intros P s b o h' o' V Hb G. destruct (one_changes _ _ _ _ _ _ _ V Hb G) as (P' & V' & _ & A). exists P'.
  eapply kept_ext; eauto; [|apply vals_same]. intros a Ha. eapply own_not; eauto.
Qed.

Lemma put_val_kept : forall P s b o h' o' v, sinv P s -> nth_error (hs_objs s) b = Some o ->
  good P (hs_heap s) o h' o' v ->
  exists P', kept P P' s (mkHState h' (h_put (hs_objs s) b o') (hs_vals s ++ [v])).
Proof.
  intros P s b o h' o' v V Hb G. destruct (one_changes _ _ _ _ _ _ _ V Hb G) as (P' & V' & Hv & A). exists P'.
  apply (kept_ext P P' s _ (h_unord o)); [exact V|exact (one_value _ _ _ V' Hv)|exact A|intros a Ha; eapply own_not; eauto|eexists; reflexivity].
Qed.

Lemma val_kept : forall P s v, sinv P s -> okv P v ->
  kept P P s (mkHState (hs_heap s) (hs_objs s) (hs_vals s ++ [v])).
Proof.
  intros P s v V Hv. apply (kept_ext P P s _ None).
  - exact V.
  - exact (one_value _ _ _ V Hv).
  - apply extends_refl. apply V.
  - discriminate.
  - eexists. reflexivity.
Qed.

Lemma oko_new : forall P h v, okv P v -> oko P h (h_new v).
Proof.
  intros P h v Hv. constructor; cbn [h_new h_base h_snap h_ord h_unord]; try discriminate; [|exact I].
  intros b E. inversion E; subst. auto.
Qed.

Lemma val_ok : forall P s i v, sinv P s -> nth_error (hs_vals s) i = Some v -> okv P v.
Proof. intros P s i v V H. pose proof (v_vals _ _ V) as F. rewrite Forall_forall in F. apply F. eapply nth_error_In; eauto. Qed.

Lemma oko_plain : forall P h o b, oko P h o -> (forall x, b = Some x -> okv P x) -> oko P h (mkHObj b (h_snap o) None None).
Proof.
  intros P h o b K Hb. constructor; cbn [h_base h_snap h_ord h_unord]; try discriminate; auto. exact (k_snap _ _ _ K).
Qed.

Lemma plain_kept : forall P s b o bs, sinv P s -> nth_error (hs_objs s) b = Some o ->
  (forall x, bs = Some x -> okv P x) ->
  exists P', kept P P' s (mkHState (hs_heap s) (h_put (hs_objs s) b (mkHObj bs (h_snap o) None None)) (hs_vals s)).
Proof.
  intros P s b o bs V Hb Hx. eapply put_obj_kept; eauto. exists P. split; [apply extends_refl; apply V|].
  split; [apply oko_plain; auto; eapply v_objs; eauto|]. split; [intros a; discriminate|exact I].
Qed.

(** The unordered container goes from one builder to another. *)
Lemma moved_kept : forall P s b c x o, sinv P s -> b <> c -> nth_error (hs_objs s) b = Some x ->
  nth_error (hs_objs s) c = Some o ->
  kept P P s (mkHState (hs_heap s) (h_put (h_put (hs_objs s) b (h_move x o)) c (h_moved o)) (hs_vals s)).
Proof.
  intros P s b c x o V N Hb Hc. apply (kept_ext P P s _ None); [exact V| |apply extends_refl; apply V|discriminate|apply vals_same].
  destruct V as [V1 V2 V3 V4]. constructor; cbn [hs_heap hs_objs hs_vals]; auto.
  - intros d q Hq. apply nth_put_inv in Hq as [[-> ->]|[N1 Hq]].
    + apply oko_plain; [eauto|discriminate].
    + apply nth_put_inv in Hq as [[-> ->]|[N2 Hq]]; eauto.
      pose proof (V3 _ _ Hc) as [K1 K2 K3 K4]. constructor; cbn [h_move h_base h_snap h_ord h_unord]; auto.
      exact (k_snap _ _ _ (V3 _ _ Hb)).
  - assert (Hy : forall d q, nth_error (h_put (h_put (hs_objs s) b (h_move x o)) c (h_moved o)) d = Some q ->
      forall a, h_unord q = Some a -> (d = b /\ h_unord o = Some a) \/ (d <> b /\ d <> c /\ nth_error (hs_objs s) d = Some q)).
    { intros d q Hq a Ha. apply nth_put_inv in Hq as [[-> ->]|[N1 Hq]]; [discriminate|].
      apply nth_put_inv in Hq as [[-> ->]|[N2 Hq]]; auto. }
    intros d e p q a Hp Hq Ha Ha'.
    destruct (Hy _ _ Hp a Ha) as [[-> E1]|(A1 & A2 & A3)]; destruct (Hy _ _ Hq a Ha') as [[-> E2]|(B1 & B2 & B3)]; auto.
    + exfalso. apply B2. eapply V4; [exact B3|exact Hc|exact Ha'|exact E1].
    + exfalso. apply A2. eapply V4; [exact A3|exact Hc|exact Ha|exact E2].
    + eapply V4; eauto.
Qed.

Lemma moved_new_kept : forall P s c o, sinv P s -> nth_error (hs_objs s) c = Some o ->
  kept P P s (mkHState (hs_heap s) (h_put (hs_objs s) c (h_moved o) ++ [h_move (h_new (HV VUndef)) o]) (hs_vals s)).
Proof.
  intros P s c o V Hc. apply (kept_ext P P s _ None); [exact V| |apply extends_refl; apply V|discriminate|apply vals_same].
  pose proof V as [V1 V2 V3 V4]. constructor; cbn [hs_heap hs_objs hs_vals]; auto.
  - intros d q Hq. apply nth_snoc_inv in Hq as [[-> ->]|[N1 Hq]].
    + pose proof (V3 _ _ Hc) as [K1 K2 K3 K4]. constructor; cbn [h_move h_new h_base h_snap h_ord h_unord]; auto. exact I.
    + apply nth_put_inv in Hq as [[-> ->]|[N2 Hq]]; eauto. apply oko_plain; [eauto|discriminate].
  - assert (Hy : forall d q, nth_error (h_put (hs_objs s) c (h_moved o) ++ [h_move (h_new (HV VUndef)) o]) d = Some q ->
      forall a, h_unord q = Some a -> (d = length (hs_objs s) /\ h_unord o = Some a) \/ (d <> c /\ nth_error (hs_objs s) d = Some q)).
    { intros d q Hq a Ha. apply nth_snoc_inv in Hq as [[-> ->]|[N1 Hq]]; [left; rewrite length_put; auto|].
      apply nth_put_inv in Hq as [[-> ->]|[N2 Hq]]; [discriminate|]. auto. }
    intros d e p q a Hp Hq Ha Ha'.
    destruct (Hy _ _ Hp a Ha) as [[-> E1]|(A1 & A3)]; destruct (Hy _ _ Hq a Ha') as [[-> E2]|(B1 & B3)]; auto.
    + exfalso. apply B1. eapply V4; [exact B3|exact Hc|exact Ha'|exact E1].
    + exfalso. apply A1. eapply V4; [exact A3|exact Hc|exact Ha|exact E2].
    + eapply V4; eauto.
Qed.

(** Copies. *)
Lemma copied_kept : forall P s c o h' o' n, sinv P s -> nth_error (hs_objs s) c = Some o ->
  h_copy (hs_heap s) o = Some (h', o', n) ->
  exists P', kept P P' s (mkHState h' (h_put (hs_objs s) c o' ++ [n]) (hs_vals s)).
Proof.
  intros P s c o h' o' n V Hc H. unfold h_copy in H.
  destruct (h_optimize (hs_heap s) o) as [[h1 o1]|] eqn:E; [|discriminate].
  destruct (h_layers h1 (h_ord o1)) as [[h2 u]|] eqn:L; [|discriminate]. inversion H; subst h' o' n. clear H.
  destruct (layered_ok P _ _ _ _ _ _ (HV VUndef) (v_closed _ _ V) (v_objs _ _ V _ _ Hc) I E L) as (P' & A & B & U & K & F).
  exists P'.
  assert (V' : sinv P' (mkHState h2 (h_put (hs_objs s) c o1) (hs_vals s))).
  { destruct V as [V1 V2 V3 V4]. constructor; cbn [hs_heap hs_objs hs_vals].
    - apply A.
    - eapply Forall_impl; [|exact V2]. intros x. apply okv_mono. apply A.
    - intros d q Hq. apply nth_put_inv in Hq as [[-> ->]|[N Hq]]; auto.
      eapply oko_other; [eapply V3; eauto|exact A|]. intros a Ha Ea. apply N. eapply V4; eauto.
    - intros d e x y a Hx Hy Ha Hb. apply nth_put_inv in Hx as [[-> ->]|[N1 Hx]];
        apply nth_put_inv in Hy as [[-> ->]|[N2 Hy]]; auto; try rewrite U in *; eapply V4; eauto. }
  eapply (kept_ext P P' s _ (h_unord o)); [exact V| |exact A|intros a Ha; eapply own_not; eauto|apply vals_same].
  apply (one_more P' (mkHState h2 (h_put (hs_objs s) c o1) (hs_vals s)) h2 _ P' None V').
  - apply extends_refl. apply A.
  - apply (v_objs _ _ V').
  - exact K.
  - cbn [hs_objs h_unord]. intros b q a Hq Ha Hn. specialize (F a Hn).
    apply nth_put_inv in Hq as [[-> ->]|[N Hq]].
    + rewrite U in Ha. pose proof (unord_in _ _ _ _ (v_objs _ _ V _ _ Hc) Ha). lia.
    + pose proof (unord_in _ _ _ _ (v_objs _ _ V _ _ Hq) Ha). lia.
Qed.

Lemma assigned_kept : forall P s b c x o h' x' o', sinv P s -> b <> c -> nth_error (hs_objs s) b = Some x ->
  nth_error (hs_objs s) c = Some o -> h_assign (hs_heap s) x o = Some (h', x', o') ->
  exists P', kept P P' s (mkHState h' (h_put (h_put (hs_objs s) b x') c o') (hs_vals s)).
Proof.
  intros P s b c x o h' x' o' V N Hb Hc H. unfold h_assign in H.
  destruct (h_optimize (hs_heap s) o) as [[h1 o1]|] eqn:E; [|discriminate].
  destruct (h_layers h1 (h_ord o1)) as [[h2 u]|] eqn:L; [|discriminate]. inversion H; subst h' o' x'. clear H.
  destruct (layered_ok P _ _ _ _ _ _ (h_snap x) (v_closed _ _ V) (v_objs _ _ V _ _ Hc)
    (k_snap _ _ _ (v_objs _ _ V _ _ Hb)) E L) as (P' & A & B & U & K & F).
  exists P'. eapply (kept_ext P P' s _ (h_unord o)); [exact V| |exact A|intros a Ha; eapply own_not; eauto|apply vals_same].
  destruct V as [V1 V2 V3 V4].
  assert (Hy : forall d q, nth_error (h_put (h_put (hs_objs s) b (mkHObj (h_base o) (h_snap x) (h_ord o1) u)) c o1) d = Some q ->
    (d = c /\ q = o1) \/ (d <> c /\ d = b /\ q = mkHObj (h_base o) (h_snap x) (h_ord o1) u) \/
    (d <> c /\ d <> b /\ nth_error (hs_objs s) d = Some q)).
  { intros d q Hq. apply nth_put_inv in Hq as [[-> ->]|[N1 Hq]]; auto. apply nth_put_inv in Hq as [[-> ->]|[N2 Hq]]; auto 6. }
  assert (Old : forall d q a, nth_error (hs_objs s) d = Some q -> h_unord q = Some a -> u = Some a -> False).
  { intros d q a Hq Ha Hu. pose proof (unord_in _ _ _ _ (V3 _ _ Hq) Ha). specialize (F a Hu). lia. }
  constructor; cbn [hs_heap hs_objs hs_vals].
  - apply A.
  - eapply Forall_impl; [|exact V2]. intros y. apply okv_mono. apply A.
  - intros d q Hq. destruct (Hy _ _ Hq) as [[-> ->]|[(N1 & -> & ->)|(N1 & N2 & Hq')]]; auto.
    eapply oko_other; [eapply V3; eauto|exact A|]. intros a Ha Ea. apply N1. eapply V4; eauto.
  - intros d e p q a Hp Hq Ha Ha'.
    destruct (Hy _ _ Hp) as [[-> ->]|[(A1 & -> & ->)|(A1 & A2 & Hp')]];
    destruct (Hy _ _ Hq) as [[-> ->]|[(B1 & -> & ->)|(B1 & B2 & Hq')]]; auto; cbn [h_unord] in *; try rewrite U in *;
      try (exfalso; eapply Old; [| |eassumption]; eassumption); eapply V4; eauto.
Qed.

Lemma step_kept : forall P s op s', sinv P s -> h_step s op = Some s' -> exists P', kept P P' s s'.
Proof.
  intros P s op s' V H.
  assert (Self : exists P', kept P P' s s).
  { exists P. apply (kept_ext P P s s None); [exact V|exact V|apply extends_refl; apply V|discriminate|exists []; rewrite app_nil_r; auto]. }
  destruct s as [h objs vals].
  destruct op; cbn [h_step] in H; set (s := mkHState h objs vals) in *; unfold on_val, on_obj in H;
    repeat match type of H with
    | match nth_error (hs_vals s) ?i with _ => _ end = _ =>
      let v := fresh "v" in let E := fresh "Ev" in destruct (nth_error (hs_vals s) i) as [v|] eqn:E; [|discriminate];
      pose proof (val_ok _ _ _ _ V E)
    | match nth_error (hs_objs s) ?i with _ => _ end = _ =>
      let v := fresh "o" in let E := fresh "Eo" in destruct (nth_error (hs_objs s) i) as [v|] eqn:E; [|discriminate];
      pose proof (v_objs _ _ V _ _ E)
    end; pose proof (v_closed _ _ V) as Hcl.
  - (* HLit *) inversion H; subst. exists P. apply (val_kept P s); auto. exact I.
  - (* HArr *)
    destruct (h_pick vals _) as [l|] eqn:Ep; [|discriminate]. inversion H; subst.
    pose proof (pick_ok P _ _ _ (v_vals _ _ V) Ep) as F.
    pose proof (alloc_frozen P h (mkCell None (length l) l) None Hcl F) as A.
    eexists. eapply (kept_ext P _ s _ None); [exact V| |exact A|discriminate|exists [HR (length h)]; reflexivity].
    apply (one_value _ _ (HR (length h)) (grown _ _ _ _ V A)). right. reflexivity.
  - (* HNew *)
    inversion H; subst. exists P. apply (kept_ext P P s _ None); [exact V| |apply extends_refl; auto|discriminate|exact (vals_same s _ _)].
    apply (one_more P s h _ P None V); [apply extends_refl; auto|apply (v_objs _ _ V)|apply oko_new; auto|discriminate].
  - (* HList *)
    destruct (h_pick vals _) as [ms|] eqn:Ep; [|discriminate]. inversion H; subst.
    pose proof (pick_ok P _ _ _ (v_vals _ _ V) Ep) as F.
    assert (A : extends P (fun a => P a \/ a = length h) h (h ++ [h_list_cell ms]) None).
    { apply alloc_frozen; auto. cbn [h_list_cell c_items]. apply sort_forall, filter_forall. exact F. }
    eexists. eapply (kept_ext P _ s _ None); [exact V| |exact A|discriminate|exact (vals_same s _ _)].
    apply (one_more P s (h ++ [h_list_cell ms]) (h_new (HR (length h))) _ None V A).
    + intros b o Hb. exact (v_objs _ _ (grown _ _ _ _ V A) b o Hb).
    + apply oko_new. right. reflexivity.
    + discriminate.
  - (* HSet *)
    destruct (h_set h o (k, v)) as [[h1 o1]|] eqn:E; inversion H; subst.
    eapply (put_obj_kept P s); eauto. eapply set_ok; eauto. assumption.
  - (* HUnset *)
    destruct (h_set h o (k, HV VUndef)) as [[h1 o1]|] eqn:E; inversion H; subst.
    eapply (put_obj_kept P s); eauto. eapply set_ok; eauto. exact I.
  - (* HMerge *)
    destruct (h_view h v) as [[t l]|] eqn:Ew; [|discriminate].
    destruct (h_set_all h o l) as [[h1 o1]|] eqn:E; inversion H; subst.
    eapply (put_obj_kept P s); eauto. exact (set_all_ok l P h o h1 o1 Hcl H1 (view_ok _ _ _ _ _ Hcl H0 Ew) E).
  - (* HOptimize *)
    destruct (h_optimize h o) as [[h1 o1]|] eqn:E; inversion H; subst.
    eapply (put_obj_kept P s); eauto.
    destruct (optimize_ok _ _ _ _ _ Hcl H0 E) as (P1 & A & B & C & _). exists P1. split; auto. split; auto.
    split; [apply same_fresh; auto|exact I].
  - (* HRead *)
    destruct (h_read h o k) as [[[h1 o1] w]|] eqn:E; inversion H; subst.
    eapply (put_val_kept P s); eauto. eapply read_ok; eauto.
  - (* HCommit *)
    destruct (h_commit h o) as [[[h1 o1] w]|] eqn:E; inversion H; subst.
    eapply (put_val_kept P s); eauto. eapply commit_ok; eauto.
  - (* HCommitDiff *)
    destruct (h_commit_diff h o) as [[[h1 o1] w]|] eqn:E; inversion H; subst.
    eapply (put_val_kept P s); eauto. eapply commit_diff_ok; eauto.
  - (* HIterate *)
    destruct (h_iterate h o) as [[[h1 o1] w]|] eqn:E; inversion H; subst.
    eapply (put_val_kept P s); eauto. eapply iterate_ok; eauto.
  - (* HClear *)
    inversion H; subst. apply (plain_kept P s b o (Some (HV empty_object)) V Eo). intros x E. inversion E. exact I.
  - (* HRevert *)
    inversion H; subst. apply (plain_kept P s b o (h_base o) V Eo). exact (k_base _ _ _ H0).
  - (* HSetBase *)
    inversion H; subst. eapply (put_obj_kept P s); eauto. apply good_here; auto; [|exact I].
    destruct H1 as [K1 K2 K3 K4]. constructor; cbn [h_set_base h_base h_snap h_ord h_unord]; auto.
    intros x E. inversion E; subst. auto.
  - (* HCopy *)
    destruct (h_copy h o) as [[[h1 o1] n]|] eqn:E; inversion H; subst. eapply (copied_kept P s); eauto.
  - (* HAssign *)
    destruct (Nat.eqb_spec b c) as [->|N].
    + destruct (nth_error (hs_objs s) c); inversion H; subst. auto.
    + destruct (nth_error (hs_objs s) b) as [x|] eqn:Eb; [|discriminate].
      destruct (nth_error (hs_objs s) c) as [o|] eqn:Ec; [|discriminate].
      destruct (h_assign h x o) as [[[h1 x1] o1]|] eqn:E; inversion H; subst. eapply (assigned_kept P s); eauto.
  - (* HMoveNew *)
    inversion H; subst. exists P. apply (moved_new_kept P s); auto.
  - (* HMove *)
    destruct (Nat.eqb_spec b c) as [->|N].
    + destruct (nth_error (hs_objs s) c); inversion H; subst. auto.
    + destruct (nth_error (hs_objs s) b) as [x|] eqn:Eb; [|discriminate].
      destruct (nth_error (hs_objs s) c) as [o|] eqn:Ec; [|discriminate].
      inversion H; subst. exists P. apply (moved_kept P s); auto.
  - (* HMember *)
    destruct (h_member h v k) as [w|] eqn:E; inversion H; subst. exists P. apply (val_kept P s); auto.
    eapply member_ok; eauto.
  - (* HItem *)
    destruct (h_view h v) as [[t l]|] eqn:E; inversion H; subst. exists P. apply (val_kept P s); auto.
    cbn [snd]. destruct (nth_error l n) as [m|] eqn:En; [|exact I].
    pose proof (view_ok _ _ _ _ _ Hcl H0 E) as F. rewrite Forall_forall in F. apply F. eapply nth_error_In; eauto.
  - (* HApplyDiff *)
    destruct (h_apply_diff h v v0) as [[h1 w]|] eqn:E; inversion H; subst.
    destruct (apply_diff_ok _ _ _ _ _ _ None Hcl H0 H1 E) as (P1 & A & Hw).
    exists P1. eapply (kept_ext P _ s _ None); [exact V| |exact A|discriminate|eexists; reflexivity].
    exact (one_value _ _ _ (grown _ _ _ _ V A) Hw).
Qed.
