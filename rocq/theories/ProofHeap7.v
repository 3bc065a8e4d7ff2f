(** Every step of the meaning is a step of the memory. *)
From Verif Require Import Base ModelKeyed SpecKeyed ProofKeyed ModelValue ModelObject SpecObject ProofObject
  ModelHeap SpecHeap ProofHeap ProofHeap2 ProofHeap3 ProofHeap4 ProofHeap5 ProofHeap6.

Lemma move_brel : forall h o n r sn w r', brel h o (mkSB n r) -> shows h sn w -> snap_val w r' ->
  brel h (mkHObj (h_base o) sn (h_ord o) (h_unord o)) (mkSB n r').
Proof.
  intros h o n r sn w r' H Hs Hw. unfold brel in *. cbn [sb_now sb_seen] in *. destruct n as [s|].
  - destruct H as (p & [R1 R2 R3 R4] & I1 & _). exists (mkObj (o_base p) w (o_ordered p) (o_unordered p)).
    split; [constructor; auto|]. split; [apply inv_snap; auto|auto].
  - destruct H as (H1 & H2 & H3 & _). cbn [h_base h_ord h_unord h_snap]. split; auto. split; auto. split; auto.
    exists w. auto.
Qed.

Lemma plain_brel : forall h o n r x v, brel h o (mkSB n r) -> shows h x v -> base_ok v ->
  brel h (mkHObj (Some x) (h_snap o) None None) (mkSB (Some (mkSpec v [])) r).
Proof.
  intros h o n r x v H Hx Hv. destruct (brel_snap _ _ _ _ H) as (w & W1 & W2).
  exists (mkObj v w None None). split; [|split; [apply revert_inv; auto|auto]].
  constructor; cbn [h_base h_snap h_ord h_unord o_base o_snap o_ordered o_unordered]; auto. exists x. auto.
Qed.

Lemma moved_brel : forall h o n r, brel h o (mkSB n r) -> brel h (h_moved o) (mkSB None r).
Proof.
  intros h o n r H. destruct (brel_snap _ _ _ _ H) as (w & W1 & W2).
  unfold brel. cbn [sb_now sb_seen h_moved h_base h_ord h_unord h_snap]. eauto 8.
Qed.

Lemma pick_sim : forall h vals vs l ms, Forall2 (shows h) vals vs -> Forall2 (named vs) l ms ->
  exists r, h_pick vals l = Some r /\ hrel h r ms.
Proof.
  intros h vals vs l ms F H. apply forall2_nth in F as [L F]. induction H as [|[k i] [k' v] l ms [H1 H2] H (r & E & R)].
  - exists []. split; [reflexivity|constructor].
  - cbn [fst snd] in *. subst k'. cbn [h_pick]. destruct (nth_error vals i) as [x|] eqn:Ex.
    + rewrite E. eexists. split; [reflexivity|]. constructor; auto. split; auto. cbn [snd]. eauto.
    + apply nth_error_None in Ex. apply nth_some_lt in H2. lia.
Qed.

(** What a changing heap keeps of the other variables and builders. *)
Lemma frame_vals : forall P P' st bs vs h' own, agree P st (bs, vs) -> extends P P' (hs_heap st) h' own ->
  (forall a, own = Some a -> ~ P a) -> Forall2 (shows h') (hs_vals st) vs.
Proof.
  intros P P' st bs vs h' own [V A1 A2] E N. cbn [snd] in A1. apply forall2_nth in A1 as [A0 A1]. apply forall2_nth.
  split; auto. intros i y v Hy Hv.
  eapply (val_rel_kept P P'); [exact (v_closed _ _ V)|exact E|exact N|eapply val_ok; eauto|eauto].
Qed.
Lemma frame_obj : forall P P' st bs vs h' own i q sb, agree P st (bs, vs) -> extends P P' (hs_heap st) h' own ->
  (forall a, own = Some a -> ~ P a) -> nth_error (hs_objs st) i = Some q -> nth_error bs i = Some sb ->
  (forall a, h_unord q = Some a -> own <> Some a) -> brel h' q sb.
Proof.
  intros P P' st bs vs h' own i q sb [V A1 A2] E N Hq Hb D. cbn [fst] in A2. apply forall2_nth in A2 as [A0 A2].
  eapply brel_other; [exact (v_closed _ _ V)|eapply v_objs; eauto|eauto|exact E|exact N|exact D].
Qed.

Lemma step_sim : forall P st ss op ss', agree P st ss -> sstep ss op ss' ->
  exists st' P', h_step st op = Some st' /\ agree P' st' ss'.
Proof.
  intros P st ss op ss' A H. destruct st as [h objs vals].
  pose proof (a_inv _ _ _ A) as V. pose proof (v_closed _ _ V) as Hcl. cbn [hs_heap] in Hcl.
  inversion H; subst; clear H; cbn [h_step]; unfold on_val, on_obj, put_obj, put_val.
  - (* lit *)
    do 2 eexists. split; [reflexivity|]. apply (agree_value P _ bs vs (HV v) v A); [exact I|constructor].
  - (* arr *)
    destruct (pick_sim h vals vs (map (fun i => ([], i)) is) l (a_vals _ _ _ A)) as (r & E & R).
    { clear - H0. induction H0; constructor; auto. }
    rewrite E. cbn [option_map h_alloc].
    pose proof (pick_ok P _ _ _ (v_vals _ _ V) E) as F.
    pose proof (alloc_frozen P h (mkCell None (length r) r) None Hcl F) as X.
    pose proof (agree_grown _ _ _ _ _ _ A X) as A'. do 2 eexists. split; [reflexivity|].
    apply (agree_value _ _ bs vs (HR (length h)) _ A'); [right; reflexivity|]. cbn [hs_heap].
    eapply shows_array; [rewrite nth_error_app2, Nat.sub_diag by auto; reflexivity|].
    apply shows_items_rel. eapply (rel_kept P); [exact Hcl|exact X|discriminate|exact F|exact R].
  - (* new *)
    destruct (agree_val _ _ _ _ _ _ A H0) as (x & E & Sx & Kx). cbn [hs_vals hs_heap hs_objs] in *. rewrite E.
    do 2 eexists. split; [reflexivity|].
    apply (agree_builder P _ bs vs (h_new x) _ A); [apply oko_new; auto|reflexivity|]. eapply new_brel; eauto.
  - (* list *)
    destruct (pick_sim h vals vs l ms (a_vals _ _ _ A) H0) as (r & E & R). rewrite E. cbn [option_map h_alloc].
    pose proof (pick_ok P _ _ _ (v_vals _ _ V) E) as F.
    assert (F2 : Forall (okm P) (c_items (h_list_cell r))).
    { cbn [h_list_cell c_items]. apply sort_forall, filter_forall. exact F. }
    pose proof (alloc_frozen P h (h_list_cell r) None Hcl F2) as X.
    pose proof (agree_grown _ _ _ _ _ _ A X) as A'. do 2 eexists. split; [reflexivity|].
    apply (agree_builder _ _ bs vs (h_new (HR (length h))) _ A'); [apply oko_new; right; reflexivity|reflexivity|].
    destruct (listed_content ms) as [L1 L2]. rewrite (listed_det _ _ _ H1 L1).
    eapply (new_brel (fun a => P a \/ a = length h)); [right; reflexivity| |exact L2]. cbn [hs_heap obj_of_list obj_new o_base].
    eapply shows_object; [rewrite nth_error_app2, Nat.sub_diag by auto; reflexivity|].
    apply shows_items_rel. eapply (rel_kept P); [exact Hcl|exact X|discriminate|exact F2|].
    apply obj_sort_param. apply (filter_param _ _ (shows h) (fun x => negb (hv_undef x)) (fun x => negb (is_undef x))); auto.
    intros x y Hxy. rewrite (shows_undef _ _ _ Hxy). reflexivity.
  - (* set *)
    destruct (agree_val _ _ _ _ _ _ A H0) as (x & E & Sx & Kx).
    destruct (agree_in_use _ _ _ _ _ _ _ A H1) as (o & p & Eo & K & R & Iv & Sn).
    cbn [hs_vals hs_heap hs_objs] in *. rewrite E, Eo.
    destruct (set_sim P h o p (k, x) (k, v) Hcl K R) as (h' & o' & Es & R'); [exact Kx|split; auto|]. rewrite Es. cbn [option_map fst snd].
    pose proof (set_ok P h o (k, x) h' o' Hcl K Kx Es) as G. destruct (set_inv _ _ (k, v) Iv) as (I1 & _ & I3).
    destruct (agree_change0 P _ bs vs b o _ h' o' _ (mkSB (Some (spec_add s [(k, v)])) None) A Eo H1 G) as (P' & A').
    { exists (obj_set p (k, v)). auto. }
    do 2 eexists. split; [reflexivity|exact A'].
  - (* unset *)
    destruct (agree_in_use _ _ _ _ _ _ _ A H0) as (o & p & Eo & K & R & Iv & Sn).
    cbn [hs_vals hs_heap hs_objs] in *. rewrite Eo.
    destruct (set_sim P h o p (k, HV VUndef) (k, VUndef) Hcl K R) as (h' & o' & Es & R'); [exact I|split; auto; constructor|].
    rewrite Es. cbn [option_map fst snd].
    pose proof (set_ok P h o (k, HV VUndef) h' o' Hcl K I Es) as G. destruct (set_inv _ _ (k, VUndef) Iv) as (I1 & _ & I3).
    destruct (agree_change0 P _ bs vs b o _ h' o' _ (mkSB (Some (spec_add s [(k, VUndef)])) None) A Eo H0 G) as (P' & A').
    { exists (obj_set p (k, VUndef)). auto. }
    do 2 eexists. split; [reflexivity|exact A'].
  - (* merge *)
    destruct (agree_val _ _ _ _ _ _ A H0) as (x & E & Sx & Kx).
    destruct (agree_in_use _ _ _ _ _ _ _ A H1) as (o & p & Eo & K & R & Iv & Sn).
    cbn [hs_vals hs_heap hs_objs] in *. rewrite E, Eo. destruct (view_sim _ _ _ Sx) as (l & El & Rl). rewrite El.
    pose proof (view_ok _ _ _ _ _ Hcl Kx El) as Fl.
    destruct (set_all_sim l (members_of v) P h o p Hcl K R Fl Rl) as (h' & o' & Es & R'). rewrite Es. cbn [option_map fst snd].
    pose proof (set_all_ok l P h o h' o' Hcl K Fl Es) as G.
    destruct (step_inv p p s s (OMerge v) Iv Iv I) as (p' & q' & Ep & I1 & _).
    destruct (step_snap p p s s r r (OMerge v) p' q' Iv Iv Sn Sn Ep) as [N1 _].
    cbn [obj_step] in Ep. inversion Ep; subst p' q'. cbn [spec_step seen_step fst] in *.
    destruct (agree_change0 P _ bs vs b o _ h' o' _ (mkSB (Some (spec_add s (members_of v)))
      (match members_of v with [] => r | _ :: _ => None end)) A Eo H1 G) as (P' & A').
    { exists (obj_merge p v). auto. }
    do 2 eexists. split; [reflexivity|exact A'].
  - (* optimize *)
    destruct (agree_in_use _ _ _ _ _ _ _ A H0) as (o & p & Eo & K & R & Iv & Sn).
    cbn [hs_vals hs_heap hs_objs] in *. rewrite Eo.
    destruct (optimize_sim _ _ _ _ Hcl K R) as (h' & o' & Es & R'). rewrite Es. cbn [option_map fst snd].
    assert (G : good P h o h' o' (HV VUndef)).
    { destruct (optimize_ok _ _ _ _ _ Hcl K Es) as (P1 & X & B & C & _). exists P1. split; auto. split; auto.
      split; [apply same_fresh; auto|exact I]. }
    destruct (agree_change0 P _ bs vs b o _ h' o' _ (mkSB (Some s) r) A Eo H0 G) as (P' & A').
    { exists (obj_optimize p). split; auto. split; [apply optimize_inv; auto|]. rewrite (proj2 (optimize_base p)). exact Sn. }
    rewrite replaced_same in A' by auto. do 2 eexists. split; [reflexivity|exact A'].
  - (* read *)
    destruct (agree_in_use _ _ _ _ _ _ _ A H0) as (o & p & Eo & K & R & Iv & Sn).
    cbn [hs_vals hs_heap hs_objs] in *. rewrite Eo. destruct (read_spec p s k Iv) as (p' & Ep & I1 & N1).
    destruct (read_sim _ _ _ _ _ _ _ Hcl K R Ep) as (h' & o' & x & Es & R' & Sx). rewrite Es. cbn [option_map fst snd].
    assert (B : brel h' o' (mkSB (Some s) r)).
    { exists p'. split; auto. split; auto. cbn [sb_seen]. rewrite N1. exact Sn. }
    destruct (agree_change1 P _ bs vs b o _ h' o' x _ _ A Eo H0 (read_ok _ _ _ _ _ _ _ Hcl K Es) B Sx) as (P' & A').
    rewrite replaced_same in A' by auto. do 2 eexists. split; [reflexivity|exact A'].
  - (* commit *)
    destruct (agree_in_use _ _ _ _ _ _ _ A H0) as (o & p & Eo & K & R & Iv & Sn).
    cbn [hs_vals hs_heap hs_objs] in *. rewrite Eo.
    destruct (commit_sim _ _ _ _ Hcl K R) as (h' & o' & x & Es & R' & Sx). rewrite Es. cbn [option_map fst snd].
    rewrite <- (committed_det _ _ _ H1 (commit_content _ _ Iv)) in Sx.
    assert (B : brel h' o' (mkSB (Some s) r)).
    { exists (fst (obj_commit p)). split; auto. rewrite commit_state. split; [apply optimize_inv; auto|].
      cbn [sb_seen]. rewrite (proj2 (optimize_base p)). exact Sn. }
    destruct (agree_change1 P _ bs vs b o _ h' o' x _ _ A Eo H0 (commit_ok _ _ _ _ _ _ Hcl K Es) B Sx) as (P' & A').
    rewrite replaced_same in A' by auto. do 2 eexists. split; [reflexivity|exact A'].
  - (* commit as diff *)
    destruct (agree_in_use _ _ _ _ _ _ _ A H0) as (o & p & Eo & K & R & Iv & Sn).
    cbn [hs_vals hs_heap hs_objs] in *. rewrite Eo.
    destruct (commit_diff_sim _ _ _ _ Hcl K R) as (h' & o' & x & Es & R' & Sx). rewrite Es. cbn [option_map fst snd].
    rewrite <- (committed_diff_det _ _ _ H1 (commit_diff_content _ _ Iv)) in Sx.
    assert (B : brel h' o' (mkSB (Some s) r)).
    { exists (obj_optimize p). split; auto. split; [apply optimize_inv; auto|].
      cbn [sb_seen]. rewrite (proj2 (optimize_base p)). exact Sn. }
    destruct (agree_change1 P _ bs vs b o _ h' o' x _ _ A Eo H0 (proj1 (commit_diff_ok _ _ _ _ _ _ Hcl K Es)) B Sx) as (P' & A').
    rewrite replaced_same in A' by auto. do 2 eexists. split; [reflexivity|exact A'].
  - (* iterate, no snapshot *)
    destruct (agree_in_use _ _ _ _ _ _ _ A H0) as (o & p & Eo & K & R & Iv & Sn).
    cbn [hs_vals hs_heap hs_objs] in *. rewrite Eo.
    destruct (iterate_sim _ _ _ _ Hcl K R) as (h' & o' & x & Es & R' & Sx). rewrite Es. cbn [option_map fst snd].
    destruct (iterate_snap p s None Iv Sn) as [N1 _].
    destruct (step_inv p p s s OIterate Iv Iv I) as (p' & q' & Ep & I1 & _).
    cbn [obj_step] in Ep. inversion Ep; subst p' q'. cbn [spec_step fst] in I1.
    assert (Ev : o_snap (fst (obj_iterate p)) = v).
    { cbn in Sn. unfold obj_iterate. rewrite Sn. cbn [is_undef fst]. pose proof (commit_content _ _ Iv) as C.
      destruct (obj_commit p) as [p2 v2]. cbn [fst snd o_snap] in *. eapply committed_det; eauto. }
    rewrite Ev in Sx.
    assert (B : brel h' o' (mkSB (Some s) (seen_iter s None))).
    { exists (fst (obj_iterate p)). auto. }
    destruct (agree_change1 P _ bs vs b o _ h' o' x _ _ A Eo H0 (iterate_ok _ _ _ _ _ _ Hcl K Es) B Sx) as (P' & A').
    do 2 eexists. split; [reflexivity|exact A'].
  - (* iterate over a kept snapshot *)
    destruct (agree_obj _ _ _ _ _ _ A H0) as (o & Eo & B & K). cbn [hs_vals hs_heap hs_objs] in *. rewrite Eo.
    destruct (brel_snap _ _ _ _ B) as (w & W1 & W2 & W3). assert (Es : h_iterate h o = Some (h, o, h_snap o)).
    { unfold h_iterate. rewrite (shows_undef _ _ _ W1), W3. reflexivity. }
    rewrite Es. cbn [option_map fst snd]. rewrite (committed_det _ _ _ W2 H1) in W1.
    destruct (agree_change1 P _ bs vs b o _ h o _ _ _ A Eo H0 (iterate_ok _ _ _ _ _ _ Hcl K Es) B W1) as (P' & A').
    rewrite replaced_same in A' by auto. do 2 eexists. split; [reflexivity|exact A'].
  - (* clear *)
    destruct (agree_obj _ _ _ _ _ _ A H0) as (o & Eo & B & K). cbn [hs_vals hs_heap hs_objs] in *. rewrite Eo.
    assert (G : good P h o h (h_clear o) (HV VUndef)).
    { exists P. split; [apply extends_refl; auto|]. split; [apply (oko_plain P h o (Some (HV empty_object)) K); intros x E; inversion E; exact I|].
      split; [intros a; discriminate|exact I]. }
    cbn [option_map fst snd].
    destruct (agree_change0 P _ bs vs b o _ h (h_clear o) _ (mkSB (Some (mkSpec empty_object [])) r) A Eo H0 G) as (P' & A').
    { exact (plain_brel h o n r (HV empty_object) empty_object B (shows_leaf _ _) empty_ok). }
    do 2 eexists. split; [reflexivity|exact A'].
  - (* revert *)
    destruct (agree_obj _ _ _ _ _ _ A H0) as (o & Eo & B & K). cbn [hs_vals hs_heap hs_objs] in *. rewrite Eo.
    assert (G : good P h o h (h_revert o) (HV VUndef)).
    { exists P. split; [apply extends_refl; auto|]. split; [exact (oko_plain P h o (h_base o) K (k_base _ _ _ K))|].
      split; [intros a; discriminate|exact I]. }
    cbn [option_map fst snd].
    destruct (agree_change0 P _ bs vs b o _ h (h_revert o) _ (mkSB (option_map (fun s => mkSpec (s_base s) []) n) r) A Eo H0 G) as (P' & A').
    { destruct n as [s|]; cbn [option_map].
      - pose proof B as (p & R & Iv & _). destruct (r_base _ _ _ R) as (x & E1 & E2). unfold h_revert. rewrite E1.
        rewrite (i_base _ _ Iv) in E2. apply (plain_brel h o (Some s) r x (s_base s) B E2). apply (i_ok _ _ Iv).
      - pose proof B as (B1 & B2 & B3 & B4). unfold brel. cbn [sb_now sb_seen h_revert h_base h_ord h_unord h_snap]. auto. }
    do 2 eexists. split; [reflexivity|exact A'].
  - (* set base *)
    destruct (agree_val _ _ _ _ _ _ A H0) as (x & E & Sx & Kx).
    destruct (agree_obj _ _ _ _ _ _ A H2) as (o & Eo & B & K). cbn [hs_vals hs_heap hs_objs] in *. rewrite E, Eo.
    assert (G : good P h o h (h_set_base o x) (HV VUndef)).
    { apply good_here; auto; [|exact I]. apply oko_fields; auto; [|exact (k_snap _ _ _ K)].
      intros y Ey. inversion Ey; subst. auto. }
    cbn [option_map fst snd].
    destruct (agree_change0 P _ bs vs b o _ h (h_set_base o x) _
      (mkSB (Some (mkSpec v (match n with Some s => s_changes s | None => [] end))) r) A Eo H2 G) as (P' & A').
    { destruct n as [s|].
      - destruct B as (p & [R1 R2 R3 R4] & Iv & Sn).
        destruct (step_inv p p s s (OSetBase v) Iv Iv H1) as (p' & q' & Ep & I1 & _).
        cbn [obj_step] in Ep. inversion Ep; subst p' q'. cbn [spec_step fst] in I1. exists (obj_set_base p v).
        split; [|auto]. constructor; auto. exists x. auto.
      - pose proof B as (B1 & B2 & B3 & _). unfold h_set_base. rewrite B2, B3. exact (plain_brel h o None r x v B Sx H1). }
    do 2 eexists. split; [reflexivity|exact A'].
  - (* copy *)
    destruct (agree_in_use _ _ _ _ _ _ _ A H0) as (o & p & Eo & K & R & Iv & Sn).
    cbn [hs_vals hs_heap hs_objs] in *. rewrite Eo.
    destruct (layers_sim P h o p (HV VUndef) VUndef Hcl K R I (shows_leaf _ _)) as (h1 & o1 & h2 & u & E1 & E2 & R1 & R2).
    destruct (layered_ok P _ _ _ _ _ _ (HV VUndef) Hcl K I E1 E2) as (P1 & X & _ & U & _ & _).
    assert (Ec : h_copy h o = Some (h2, o1, mkHObj (h_base o) (HV VUndef) (h_ord o1) u))
      by (unfold h_copy; rewrite E1, E2; reflexivity).
    destruct (copied_kept P _ b o _ _ _ V Eo Ec) as (P' & V' & _). rewrite Ec.
    assert (N : forall a, h_unord o = Some a -> ~ P a) by (intros a Ha; eapply own_notP; eauto).
    do 2 eexists. split; [reflexivity|]. constructor; [exact V'|exact (frame_vals _ _ _ _ _ _ _ A X N)|].
    cbn [fst hs_objs hs_heap]. apply Forall2_app.
    + rewrite <- (replaced_same bs b _ H0), replaced_put by (eapply nth_some_lt; eauto).
      pose proof (a_objs _ _ _ A) as A2. apply forall2_nth in A2 as [A0 _]. cbn [hs_objs fst] in A0. apply forall2_nth.
      split; [rewrite !length_put; auto|]. intros i q y Hq Hy.
      apply nth_put_inv in Hq as [[-> ->]|[N1 Hq]]; apply nth_put_inv in Hy as [[Ei ->]|[N2 Hy]]; try congruence.
      * exists (obj_optimize p). split; auto. split; [apply optimize_inv; auto|]. rewrite (proj2 (optimize_base p)). exact Sn.
      * eapply frame_obj; [exact A|exact X|exact N|exact Hq|exact Hy|].
        intros a Ha Hb. apply N1. eapply (v_apart _ _ V); eauto.
    + constructor; [|constructor]. eexists. split; [exact R2|]. split; [apply copy_inv; auto|reflexivity].
  - (* assign *)
    destruct (agree_obj _ _ _ _ _ _ A H1) as (x & Ex & B & Kx).
    destruct (agree_in_use _ _ _ _ _ _ _ A H2) as (o & p & Eo & K & R & Iv & Sn).
    destruct (brel_snap _ _ _ _ B) as (w & W1 & W2).
    cbn [hs_vals hs_heap hs_objs] in *. destruct (Nat.eqb_spec b c) as [|_]; [contradiction|]. rewrite Ex, Eo.
    destruct (layers_sim P h o p (h_snap x) w Hcl K R (k_snap _ _ _ Kx) W1) as (h1 & o1 & h2 & u & E1 & E2 & R1 & R2).
    destruct (layered_ok P _ _ _ _ _ _ (h_snap x) Hcl K (k_snap _ _ _ Kx) E1 E2) as (P1 & X & _ & U & _ & _).
    assert (Ec : h_assign h x o = Some (h2, mkHObj (h_base o) (h_snap x) (h_ord o1) u, o1))
      by (unfold h_assign; rewrite E1, E2; reflexivity).
    destruct (assigned_kept P _ b c x o _ _ _ V H0 Ex Eo Ec) as (P' & V' & _). rewrite Ec.
    assert (N : forall a, h_unord o = Some a -> ~ P a) by (intros a Ha; eapply own_notP; eauto).
    do 2 eexists. split; [reflexivity|]. constructor; [exact V'|exact (frame_vals _ _ _ _ _ _ _ A X N)|].
    cbn [fst hs_objs hs_heap]. rewrite replaced_put by (eapply nth_some_lt; eauto).
    pose proof (a_objs _ _ _ A) as A2. apply forall2_nth in A2 as [A0 _]. cbn [hs_objs fst] in A0. apply forall2_nth.
    split; [rewrite !length_put; auto|]. intros i q y Hq Hy.
    apply nth_put_inv in Hq as [[-> ->]|[N1 Hq]].
    + apply nth_put_inv in Hy as [[Ei _]|[_ Hy]]; [congruence|]. rewrite H2 in Hy. inversion Hy; subst y.
      exists (obj_optimize p). split; auto. split; [apply optimize_inv; auto|]. rewrite (proj2 (optimize_base p)). exact Sn.
    + apply nth_put_inv in Hq as [[-> ->]|[N3 Hq]]; apply nth_put_inv in Hy as [[Ei ->]|[N2 Hy]]; try congruence.
      * eexists. split; [exact R2|]. split; [apply copy_inv; auto|exact W2].
      * eapply frame_obj; [exact A|exact X|exact N|exact Hq|exact Hy|].
        intros a Ha Hb. apply N1. eapply (v_apart _ _ V); eauto.
  - (* assign to itself *)
    destruct (agree_obj _ _ _ _ _ _ A H0) as (o & Eo & B & K). rewrite Nat.eqb_refl, Eo. eauto.
  - (* move construction *)
    destruct (agree_obj _ _ _ _ _ _ A H0) as (o & Eo & B & K). cbn [hs_vals hs_heap hs_objs] in *. rewrite Eo.
    destruct (moved_new_kept P _ c o V Eo) as (V' & _). do 2 eexists. split; [reflexivity|].
    constructor; [exact V'|exact (a_vals _ _ _ A)|]. cbn [fst hs_objs hs_heap]. rewrite replaced_put by (eapply nth_some_lt; eauto).
    apply Forall2_app.
    + apply forall2_put; [exact (a_objs _ _ _ A)|]. eapply moved_brel; eauto.
    + constructor; [|constructor]. apply (move_brel _ _ _ _ _ VUndef None B); [constructor|reflexivity].
  - (* move assignment *)
    destruct (agree_obj _ _ _ _ _ _ A H1) as (x & Ex & Bx & Kx).
    destruct (agree_obj _ _ _ _ _ _ A H2) as (o & Eo & B & K). cbn [hs_vals hs_heap hs_objs] in *.
    destruct (Nat.eqb_spec b c) as [|_]; [contradiction|]. rewrite Ex, Eo.
    destruct (moved_kept P _ b c x o V H0 Ex Eo) as (V' & _). do 2 eexists. split; [reflexivity|].
    constructor; [exact V'|exact (a_vals _ _ _ A)|]. cbn [fst hs_objs hs_heap].
    rewrite (replaced_put bs b) by (eapply nth_some_lt; eauto).
    rewrite replaced_put by (rewrite length_put; eapply nth_some_lt; eauto).
    destruct (brel_snap _ _ _ _ Bx) as (w & W1 & W2).
    apply forall2_put; [apply forall2_put; [exact (a_objs _ _ _ A)|]|].
    + exact (move_brel _ _ _ _ _ w r B W1 W2).
    + eapply moved_brel; eauto.
  - (* move to itself *)
    destruct (agree_obj _ _ _ _ _ _ A H0) as (o & Eo & B & K). rewrite Nat.eqb_refl, Eo. eauto.
  - (* member *)
    destruct (agree_val _ _ _ _ _ _ A H0) as (x & E & Sx & Kx). cbn [hs_vals hs_heap hs_objs] in *. rewrite E.
    destruct (member_sim _ _ _ k Sx) as (y & Ey & Sy). rewrite Ey. cbn [option_map]. do 2 eexists. split; [reflexivity|].
    rewrite value_member_binding in Sy by auto. apply (agree_value P _ bs vs y _ A); auto. eapply member_ok; eauto.
  - (* item *)
    destruct (agree_val _ _ _ _ _ _ A H0) as (x & E & Sx & Kx). cbn [hs_vals hs_heap hs_objs] in *. rewrite E.
    destruct (view_sim _ _ _ Sx) as (l & El & Rl). rewrite El. cbn [option_map snd]. do 2 eexists. split; [reflexivity|].
    pose proof (view_ok _ _ _ _ _ Hcl Kx El) as Fl. apply forall2_nth in Rl as [L0 Rl].
    apply (agree_value P _ bs vs _ _ A); cbn [hs_heap].
    + destruct (nth_error l n) as [m|] eqn:Em; [|exact I]. rewrite Forall_forall in Fl. apply Fl. eapply nth_error_In; eauto.
    + destruct (nth_error l n) as [m|] eqn:Em; destruct (nth_error (members_of v) n) as [m'|] eqn:Em'.
      * exact (proj2 (Rl _ _ _ Em Em')).
      * apply nth_error_None in Em'. apply nth_some_lt in Em. lia.
      * apply nth_error_None in Em. apply nth_some_lt in Em'. lia.
      * constructor.
  - (* apply a diff *)
    destruct (agree_val _ _ _ _ _ _ A H0) as (x & E & Sx & Kx). destruct (agree_val _ _ _ _ _ _ A H1) as (y & Ey & Sy & Ky).
    cbn [hs_vals hs_heap hs_objs] in *. rewrite E, Ey.
    destruct (apply_diff_sim h x y b d Sx Sy P Hcl Kx Ky) as (h' & z & Ez & Sz). rewrite Ez. cbn [option_map fst snd].
    destruct (apply_diff_ok P h x y h' z None Hcl Kx Ky Ez) as (P' & X & Kz).
    rewrite <- (applied_det _ _ _ _ H4 (apply_content b d H2 H3)) in Sz.
    do 2 eexists. split; [reflexivity|]. exact (agree_value _ _ _ _ _ _ (agree_grown _ _ _ _ _ _ A X) Kz Sz).
Qed.
