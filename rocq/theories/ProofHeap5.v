(** The operations on one builder follow ModelObject. *)
From Verif Require Import Base ModelKeyed SpecKeyed ProofKeyed ModelValue ModelObject SpecObject ProofObject
  ModelHeap SpecHeap ProofHeap ProofHeap2 ProofHeap3 ProofHeap4.

Lemma own_notP : forall P h o a, oko P h o -> h_unord o = Some a -> ~ P a.
Proof. intros P h o a K H. exact (proj1 (k_unord _ _ _ K a H)). Qed.

Lemma set_sim : forall P h o p m q, closed P h -> oko P h o -> repo h o p -> okm P m -> mrel (shows h) m q ->
  exists h' o', h_set h o m = Some (h', o') /\ repo h' o' (obj_set p q).
Proof.
  intros P h o p m q Hc Ho Hr Hm Rm. unfold h_set, obj_set, obj_set_internal.
  (* the unordered container in use *)
  assert (Hst : exists h0 u k cap items ul,
    (match h_unord o with None => h_alloc h (mkCell (Some false) 8 []) | Some u => (h, u) end) = (h0, u) /\
    (match o_unordered p with None => (8, []) | Some cu => cu end) = (cap, ul) /\
    nth_error h0 u = Some (mkCell k cap items) /\ hrel h0 items ul /\
    extends P P h h0 None /\ oko P h0 (mkHObj (h_base o) (HV VUndef) (h_ord o) (Some u)) /\
    repo h0 (mkHObj (h_base o) (HV VUndef) (h_ord o) (Some u)) (mkObj (o_base p) VUndef (o_ordered p) (Some (cap, ul)))).
  { pose proof Ho as [K1 K2 K3 K4]. destruct (h_unord o) as [u|] eqn:Eu.
    - pose proof Hr as [B S1 O1 U1]. rewrite Eu in U1. destruct (o_unordered p) as [[cap ul]|] eqn:Ep; [|contradiction].
      destruct U1 as (k & items & E & R). exists h, u, k, cap, items, ul. do 4 (split; [auto|]). split; [apply extends_refl; auto|]. split.
      + constructor; cbn [h_base h_snap h_ord h_unord]; auto; try exact I.
      + constructor; cbn [h_base h_snap h_ord h_unord o_base o_snap o_ordered o_unordered]; auto.
        * constructor.
        * exists k, items. auto.
    - cbn [h_alloc]. assert (A : extends P P h (h ++ [mkCell (Some false) 8 []]) None) by (apply alloc_own; auto).
      assert (Hr2 : repo (h ++ [mkCell (Some false) 8 []]) o p) by (eapply repo_other; eauto; try discriminate; congruence).
      assert (Ho2 : oko P (h ++ [mkCell (Some false) 8 []]) o) by (eapply oko_other; eauto; discriminate).
      destruct Hr2 as [B S1 O1 U1]. rewrite Eu in U1. destruct (o_unordered p) as [[cap ul]|] eqn:Ep; [contradiction|].
      exists (h ++ [mkCell (Some false) 8 []]), (length h), (Some false), 8, [], [].
      assert (En : nth_error (h ++ [mkCell (Some false) 8 []]) (length h) = Some (mkCell (Some false) 8 [])) by
        (rewrite nth_error_app2, Nat.sub_diag by auto; reflexivity).
      do 5 (split; [auto|]). split.
      + constructor; cbn [h_base h_snap h_ord h_unord]; auto; try exact I.
        intros a Ha. inversion Ha; subst. split; [intros HP; apply (closed_in _ _ _ Hc) in HP; lia|].
        eexists. split; [exact En|constructor].
      + constructor; cbn [h_base h_snap h_ord h_unord o_base o_snap o_ordered o_unordered]; auto.
        * constructor.
        * exists (Some false), []. split; [exact En|constructor]. }
  destruct Hst as (h0 & u & k & cap & items & ul & Q1 & Q2 & Q3 & Q4 & A0 & Ho0 & Hr0).
  rewrite Q1, Q2, Q3. cbn [c_cap c_items c_obj].
  assert (Rm0 : mrel (shows h0) m q).
  { split; [apply Rm|]. eapply val_rel_kept; [exact Hc|exact A0|discriminate|exact Hm|apply Rm]. }
  destruct (cpush_param _ _ _ cap items ul m q Q4 Rm0) as [Pf Pr].
  destruct (cpush cap items m) as [ok items'] eqn:Ec1. destruct (cpush cap ul q) as [ok' ul'] eqn:Ec2.
  cbn [fst snd] in Pf, Pr. subst ok'.
  pose proof (e_closed _ _ _ _ _ A0) as Hc0.
  pose proof (own_notP _ _ _ u Ho0 eq_refl) as Nu.
  assert (Hu : u < length h0) by (apply nth_error_Some; congruence).
  assert (Fi : Forall (okm P) items).
  { destruct (k_unord _ _ _ Ho0 u eq_refl) as (_ & c & E & F). rewrite Q3 in E. inversion E; subst. exact F. }
  destruct ok; cbn [fst].
  - eexists. eexists. split; [reflexivity|].
    set (h1 := h_write h0 u (mkCell k cap items')).
    assert (Fi' : Forall (okm P) items').
    { replace items' with (snd (cpush cap items m)) by (rewrite Ec1; auto). apply cpush_forall; auto. }
    assert (A1 : extends P P h0 h1 (Some u)) by (apply write_own; auto).
    pose proof Hr0 as [(b & B1 & B2) S1 O1 U1]. pose proof Ho0 as [K1 K2 K3 K4]. cbn [h_base h_snap h_ord h_unord o_base o_snap o_ordered o_unordered] in *.
    assert (Nn : forall a, Some u = Some a -> ~ P a) by (intros a E; inversion E; subst; auto).
    constructor; cbn [h_base h_snap h_ord h_unord o_base o_snap o_ordered o_unordered].
    + exists b. split; auto. eapply val_rel_kept; eauto.
    + constructor.
    + destruct (h_ord o) as [a|] eqn:Ea; destruct (o_ordered p) as [[d l]|]; auto.
      destruct O1 as (capa & ia & E1 & R1). pose proof (K3 a eq_refl) as Pa. exists capa, ia. split.
      * rewrite (extends_frozen _ _ _ _ _ _ Hc0 A1 Pa Nn). auto.
      * eapply rel_kept; eauto. exact (frozen_items _ _ _ _ Hc0 Pa E1).
    + exists k, items'. split; [|eapply rel_kept; eauto]. unfold h1. rewrite nth_write, Nat.eqb_refl.
      apply Nat.ltb_lt in Hu. rewrite Hu. reflexivity.
  - cbn [h_alloc]. set (n := length h0). set (cap2 := length items * 2). set (h1 := h0 ++ [mkCell (Some false) cap2 []]).
    set (o1 := mkHObj (h_base o) (HV VUndef) (h_ord o) (Some u)) in *.
    set (p1 := mkObj (o_base p) VUndef (o_ordered p) (Some (cap, ul))) in *.
    assert (A1 : extends P P h0 h1 None) by (apply alloc_own; auto).
    assert (Ho1 : oko P h1 o1) by (eapply oko_other; eauto; discriminate).
    assert (Hr1 : repo h1 o1 p1) by (eapply repo_other; eauto; try discriminate; congruence).
    destruct (optimize_sim _ _ _ _ (e_closed _ _ _ _ _ A1) Ho1 Hr1) as (h2 & o2 & Eo & Hr2). rewrite Eo.
    destruct (optimize_ok _ _ _ _ _ (e_closed _ _ _ _ _ A1) Ho1 Eo) as (P2 & A2 & K2 & U2 & B2 & S2).
    assert (Ln : n < length h1) by (unfold h1; rewrite app_length; simpl; unfold n; lia).
    assert (Ecn : nth_error h2 n = Some (mkCell (Some false) cap2 [])).
    { rewrite (e_same _ _ _ _ _ A2); auto.
      - unfold h1. rewrite nth_error_app2, Nat.sub_diag by auto. reflexivity.
      - cbn [o1 h_unord]. intros E. inversion E. unfold n in *. lia. }
    rewrite Ecn. cbn [c_cap c_items c_obj]. rewrite <- (hrel_length _ _ _ Q4). fold cap2.
    set (cn := mkCell (Some false) cap2 (snd (cpush cap2 [] m))).
    destruct (cpush cap2 [] q) as [ok2 u2] eqn:Ecp. cbn [fst].
    eexists. eexists. split; [reflexivity|].
    assert (Nn : ~ P2 n).
    { intros HP. destruct (e_new _ _ _ _ _ A2 n HP) as [HP'|HP']; [|lia]. apply (closed_in _ _ _ Hc0) in HP'. unfold n in *. lia. }
    assert (A3 : extends P2 P2 h2 (h_write h2 n cn) (Some n)).
    { apply write_own; [apply A2|auto|]. cbn [cn c_items]. apply cpush_forall; [constructor|]. eapply okv_mono; [apply A2|exact Hm]. }
    assert (Nn' : forall a, Some n = Some a -> ~ P2 a) by (intros a E; inversion E; subst; auto).
    pose proof (e_closed _ _ _ _ _ A2) as Hc2.
    destruct Hr2 as [(b & L1 & L2) S1 O1 U1]. destruct K2 as [M1 M2 M3 M4].
    constructor; cbn [h_base h_snap h_ord h_unord o_base o_snap o_ordered o_unordered].
    + exists b. split; auto. eapply val_rel_kept; eauto.
    + constructor.
    + destruct (h_ord o2) as [a|] eqn:Ea; destruct (o_ordered (obj_optimize p1)) as [[d l]|]; auto.
      destruct O1 as (capa & ia & E1 & R1). pose proof (M3 a eq_refl) as Pa. exists capa, ia. split.
      * rewrite (extends_frozen _ _ _ _ _ _ Hc2 A3 Pa Nn'). auto.
      * eapply rel_kept; eauto. exact (frozen_items _ _ _ _ Hc2 Pa E1).
    + exists (Some false), (snd (cpush cap2 [] m)). split.
      * rewrite nth_write, Nat.eqb_refl. replace (n <? length h2) with true by (symmetry; apply Nat.ltb_lt; apply nth_error_Some; congruence).
        reflexivity.
      * assert (Rm2 : mrel (shows (h_write h2 n cn)) m q).
        { split; [apply Rm|]. eapply val_rel_kept; [exact Hc2|exact A3|exact Nn'|eapply okv_mono; [apply A2|exact Hm]|].
          eapply val_rel_kept; [exact (e_closed _ _ _ _ _ A1)|exact A2| |exact Hm|].
          - intros a Ha. eapply own_notP; eauto.
          - eapply val_rel_kept; [exact Hc0|exact A1|discriminate|exact Hm|apply Rm0]. }
        replace u2 with (snd (cpush cap2 [] q)) by (rewrite Ecp; reflexivity).
        exact (proj2 (cpush_param _ _ _ cap2 [] [] m q (Forall2_nil _) Rm2)).
Qed.

Lemma set_all_sim : forall l m P h o p, closed P h -> oko P h o -> repo h o p -> Forall (okm P) l -> hrel h l m ->
  exists h' o', h_set_all h o l = Some (h', o') /\ repo h' o' (fold_left obj_set m p).
Proof.
  induction l as [|x l IH]; intros m P h o p Hc Ho Hr F R; inversion R; subst.
  - exists h, o. simpl. auto.
  - inversion F; subst. cbn [h_set_all fold_left].
    destruct (set_sim _ _ _ _ _ _ Hc Ho Hr H2 H1) as (h1 & o1 & E & Hr1). rewrite E.
    destruct (set_ok _ _ _ _ _ _ Hc Ho H2 E) as (P1 & A & K & _ & _).
    apply (IH l' P1); auto.
    + apply A.
    + eapply okm_mono; [apply A|auto].
    + eapply rel_kept; eauto. intros a Ha. eapply own_notP; eauto.
Qed.

Lemma lift_rel : forall h l, hrel h (lift_items l) l.
Proof. intros h l. induction l as [|[k v] l IH]; simpl; constructor; auto. split; auto. constructor. Qed.

Lemma view_sim : forall h x v, shows h x v -> exists l, h_view h x = Some
    (match v with VObj d _ => Some (Some d) | VArr _ => Some None | _ => None end, l) /\
  hrel h l (members_of v).
Proof.
  intros h x v H. inversion H; subst.
  - destruct v; simpl; eauto using lift_rel; exists []; split; auto; constructor.
  - exists items. simpl. rewrite H0. split; auto. apply shows_items_rel; auto.
  - exists items. simpl. rewrite H0. split; auto. apply shows_items_rel; auto.
Qed.

Lemma member_sim : forall h x v k, shows h x v -> exists y, h_member h x k = Some y /\ shows h y (value_member v k).
Proof.
  intros h x v k H. destruct (view_sim _ _ _ H) as (l & E & R). unfold h_member. rewrite E.
  destruct v as [| | | | |al|d ml]; simpl; try (eexists; split; [reflexivity|constructor]; fail).
  eexists. split; [reflexivity|]. pose proof (find_member_param _ _ _ k _ _ R) as Pm. cbn [members_of] in Pm.
  destruct (find_member l k), (find_member ml k); try contradiction; [apply Pm|constructor].
Qed.

Lemma base_member_sim : forall h o p k, repo h o p -> exists y, h_base_member h o k = Some y /\ shows h y (value_member (o_base p) k).
Proof.
  intros h o p k [(b & B1 & B2) _ _ _]. unfold h_base_member. rewrite B1. apply member_sim; auto.
Qed.

Lemma read_sim : forall P h o p k p' v, closed P h -> oko P h o -> repo h o p -> obj_read p k = Some (p', v) ->
  exists h' o' x, h_read h o k = Some (h', o', x) /\ repo h' o' p' /\ shows h' x v.
Proof.
  intros P h o p k p' v Hc Ho Hr H. unfold h_read. unfold obj_read in H. pose proof Hr as [B S1 O1 U1].
  destruct (h_unord o) as [u|] eqn:Eu; destruct (o_unordered p) as [[cap ul]|] eqn:Ep; try contradiction.
  2:{ inversion H; subst. destruct (base_member_sim _ _ _ k Hr) as (y & E & R). rewrite E. cbn [option_map]. eauto 8. }
  destruct U1 as (kk & items & E & R). rewrite E. cbn [c_items]. rewrite (hrel_length _ _ _ R) in *.
  assert (Et : exists opt, (if 16 <? length ul then match h_ord o with None => None
      | Some a => option_map (fun ca => Nat.div (length (c_items ca)) 2 <? length ul) (nth_error h a) end else Some false) = Some opt /\
    (if 16 <? length ul then match o_ordered p with None => None
      | Some (_, l) => Some (Nat.div (length l) 2 <? length ul) end else Some false) = Some opt).
  { destruct (16 <? length ul); [|eauto].
    destruct (h_ord o) as [a|]; destruct (o_ordered p) as [[d l]|]; try contradiction; [|discriminate].
    destruct O1 as (capa & ia & E1 & R1). rewrite E1. cbn [option_map c_items]. rewrite (hrel_length _ _ _ R1). eauto. }
  destruct Et as (opt & T1 & T2). rewrite T1. rewrite T2 in H.
  assert (Es : exists h1 o1, (if opt then h_optimize h o else Some (h, o)) = Some (h1, o1) /\
    repo h1 o1 (if opt then obj_optimize p else p) /\ (opt = false -> h1 = h)).
  { destruct opt.
    - destruct (optimize_sim _ _ _ _ Hc Ho Hr) as (h1 & o1 & E1 & R1). exists h1, o1. split; auto. split; auto. discriminate.
    - exists h, o. auto. }
  destruct Es as (h1 & o1 & Eo & Hr1 & Hh). rewrite Eo.
  set (p1 := if opt then obj_optimize p else p) in *.
  assert (Rest : forall r1 r2, match r1, r2 with Some x, Some y => mrel (shows h1) x y | None, None => True | _, _ => False end ->
    match r2 with
    | Some m => Some (p1, snd m)
    | None =>
        match o_ordered p1 with
        | Some (_, l) => match find_member l k with Some m => Some (p1, snd m) | None => Some (p1, value_member (o_base p1) k) end
        | None => Some (p1, value_member (o_base p1) k)
        end
    end = Some (p', v) ->
    exists h' o' x,
    match r1 with
    | Some m => Some (h1, o1, snd m)
    | None =>
        match h_ord o1 with
        | Some a =>
            match nth_error h1 a with
            | Some ca =>
                match find_member (c_items ca) k with
                | Some m => Some (h1, o1, snd m)
                | None => option_map (fun v => (h1, o1, v)) (h_base_member h1 o1 k)
                end
            | None => None
            end
        | None => option_map (fun v => (h1, o1, v)) (h_base_member h1 o1 k)
        end
    end = Some (h', o', x) /\ repo h' o' p' /\ shows h' x v).
  { intros r1 r2 Hrr Hp. destruct (base_member_sim _ _ _ k Hr1) as (y & Ey & Ry).
    destruct r1 as [m1|], r2 as [m2|]; try contradiction.
    - inversion Hp; subst. exists h1, o1, (snd m1). split; auto. split; auto. apply Hrr.
    - pose proof Hr1 as [B' S' O' U']. destruct (h_ord o1) as [a|]; destruct (o_ordered p1) as [[d l]|]; try contradiction.
      + destruct O' as (capa & ia & E1 & R1). rewrite E1. cbn [c_items].
        pose proof (find_member_param _ _ _ k _ _ R1) as Pm.
        destruct (find_member ia k) as [m1|], (find_member l k) as [m2|]; try contradiction.
        * inversion Hp; subst. exists h1, o1, (snd m1). split; auto. split; auto. apply Pm.
        * inversion Hp; subst. rewrite Ey. cbn [option_map]. eauto 8.
      + inversion Hp; subst. rewrite Ey. cbn [option_map]. eauto 8. }
  destruct opt.
  - apply (Rest None None); auto.
  - rewrite (Hh eq_refl) in *. apply (Rest _ _ (scan_back_param h k _ _ (lrel_rev _ _ _ _ _ R))). exact H.
Qed.

Lemma apply_diff_sim : forall h b d vb vd, shows h b vb -> shows h d vd -> (forall P, closed P h -> okv P b -> okv P d ->
  exists h' x, h_apply_diff h b d = Some (h', x) /\ shows h' x (apply_diff vb vd)).
Proof.
  intros h b d vb vd Hb Hd P Hc Pb Pd. unfold h_apply_diff, apply_diff, apply_diff_with.
  destruct (view_sim _ _ _ Hb) as (bl & Eb & Rb). destruct (view_sim _ _ _ Hd) as (dl & Ed & Rd). rewrite Ed.
  destruct vd as [| | | | | |dd dm]; try (eexists; eexists; split; [reflexivity|exact Hb]; fail).
  pose proof (view_ok _ _ _ _ _ Hc Pb Eb) as Fb. pose proof (view_ok _ _ _ _ _ Hc Pd Ed) as Fd.
  assert (Hn : forall cd l m, Forall (okm P) l -> hrel h l m ->
    shows (h ++ [happly_cell cd l dl]) (HR (length h)) (VObj cd (apply_impl default_merge cd m dm))).
  { intros cd l m Fl Rl. eapply shows_object.
    - rewrite nth_error_app2, Nat.sub_diag by auto. reflexivity.
    - apply shows_items_rel. eapply (rel_kept P _ h _ None); [auto|apply alloc_frozen; auto; apply happly_forall; auto|discriminate| |].
      + apply happly_forall; auto.
      + apply (happly_cell_param h cd l m dl dm); auto. }
  rewrite Eb. destruct vb as [| | | | | |bd bm]; cbn [h_alloc]; eexists; eexists; (split; [reflexivity|]);
    try (apply (Hn false [] []); constructor; fail). apply Hn; auto.
Qed.

Lemma commit_diff_sim : forall P h o p, closed P h -> oko P h o -> repo h o p ->
  exists h' o' x, h_commit_diff h o = Some (h', o', x) /\ repo h' o' (fst (obj_commit_diff p)) /\
    shows h' x (snd (obj_commit_diff p)).
Proof.
  intros P h o p Hc Ho Hr. destruct (optimize_sim _ _ _ _ Hc Ho Hr) as (h1 & o1 & E & Hr1).
  unfold h_commit_diff, obj_commit_diff. rewrite E. cbn [fst snd]. eexists. eexists. eexists. split; [reflexivity|]. split; auto.
  pose proof Hr1 as [B S1 O1 U1]. destruct (h_ord o1) as [a|]; destruct (o_ordered (obj_optimize p)) as [[d l]|]; try contradiction.
  - destruct O1 as (cap & items & E1 & R1). eapply shows_object; [exact E1|]. apply shows_items_rel. auto.
  - constructor.
Qed.

Lemma commit_sim : forall P h o p, closed P h -> oko P h o -> repo h o p ->
  exists h' o' x, h_commit h o = Some (h', o', x) /\ repo h' o' (fst (obj_commit p)) /\ shows h' x (snd (obj_commit p)).
Proof.
  intros P h o p Hc Ho Hr. destruct (optimize_sim _ _ _ _ Hc Ho Hr) as (h1 & o1 & E & Hr1).
  destruct (optimize_ok _ _ _ _ _ Hc Ho E) as (P1 & A1 & K1 & U1 & _).
  unfold h_commit, obj_commit. rewrite E. pose proof Hr1 as [(b & B1 & B2) S1 O1 _].
  destruct (h_ord o1) as [a|] eqn:Ea; destruct (o_ordered (obj_optimize p)) as [[d l]|] eqn:Eo; try contradiction.
  - destruct (commit_diff_sim _ _ _ _ (e_closed _ _ _ _ _ A1) K1 Hr1) as (h2 & o2 & x & E2 & Hr2 & Sx). rewrite E2, B1.
    destruct (commit_diff_ok _ _ _ _ _ _ (e_closed _ _ _ _ _ A1) K1 E2) as ((P2 & A2 & K2 & _ & Vx) & U2).
    destruct (obj_commit_diff (obj_optimize p)) as [p2 dv] eqn:Ed. cbn [fst snd] in Hr2, Sx |- *.
    pose proof Hr2 as [(b2 & C1 & C2) _ _ _].
    assert (b2 = b) as ->.
    { unfold h_commit_diff in E2. destruct (h_optimize h1 o1) as [[h3 o3]|] eqn:E3; [|discriminate]. inversion E2; subst.
      destruct (optimize_ok _ _ _ _ _ (e_closed _ _ _ _ _ A1) K1 E3) as (P3 & _ & _ & _ & X & _). congruence. }
    pose proof (k_base _ _ _ K2 b C1) as Vb.
    destruct (apply_diff_sim _ _ _ _ _ C2 Sx P2 (e_closed _ _ _ _ _ A2) Vb Vx) as (h3 & y & E3 & Sy).
    rewrite E3. cbn [option_map fst snd]. eexists. eexists. eexists. split; [reflexivity|]. split; auto.
    destruct (apply_diff_ok _ _ _ _ _ _ None (e_closed _ _ _ _ _ A2) Vb Vx E3) as (P3 & A3 & _).
    eapply repo_other; [exact (e_closed _ _ _ _ _ A2)|exact K2|exact Hr2|exact A3|discriminate|discriminate].
  - rewrite B1. cbn [option_map fst snd]. eexists. eexists. eexists. split; [reflexivity|]. auto.
Qed.

Lemma iterate_sim : forall P h o p, closed P h -> oko P h o -> repo h o p ->
  exists h' o' x, h_iterate h o = Some (h', o', x) /\ repo h' o' (fst (obj_iterate p)) /\
    shows h' x (o_snap (fst (obj_iterate p))).
Proof.
  intros P h o p Hc Ho Hr. unfold h_iterate, obj_iterate. rewrite (shows_undef _ _ _ (r_snap _ _ _ Hr)).
  destruct (is_undef (o_snap p)).
  - destruct (commit_sim _ _ _ _ Hc Ho Hr) as (h1 & o1 & x & E & Hr1 & Sx). rewrite E.
    destruct (obj_commit p) as [p1 v] eqn:Ec. cbn [fst snd o_snap] in *. eexists. eexists. eexists. split; [reflexivity|].
    split; auto. destruct Hr1 as [B S1 O1 U1]. constructor; auto.
  - exists h, o, (h_snap o). split; auto. split; auto. apply Hr.
Qed.

Lemma layers_sim : forall P h o p snap vs, closed P h -> oko P h o -> repo h o p -> okv P snap -> shows h snap vs ->
  exists h1 o1 h2 u, h_optimize h o = Some (h1, o1) /\ h_layers h1 (h_ord o1) = Some (h2, u) /\
    repo h2 o1 (obj_optimize p) /\
    repo h2 (mkHObj (h_base o) snap (h_ord o1) u)
      (mkObj (o_base p) vs (o_ordered (obj_optimize p))
        (match o_ordered (obj_optimize p) with Some (_, l) => Some (length l, []) | None => None end)).
Proof.
  intros P h o p snap vs Hc Ho Hr Hs Sv. destruct (optimize_sim _ _ _ _ Hc Ho Hr) as (h1 & o1 & E & Hr1).
  destruct (optimize_ok _ _ _ _ _ Hc Ho E) as (P1 & A1 & K1 & U1 & B1 & S1).
  pose proof Hr1 as [(b & C1 & C2) T1 O1 W1]. exists h1, o1.
  assert (Sv1 : shows h1 snap vs) by (eapply val_rel_kept; eauto; intros a Ha; eapply own_notP; eauto).
  pose proof (e_closed _ _ _ _ _ A1) as Hc1. assert (Hs1 : okv P1 snap) by (eapply okv_mono; [apply A1|auto]).
  destruct (optimize_base p) as [Eb _]. rewrite Eb in C2.
  destruct (h_ord o1) as [a|] eqn:Ea; destruct (o_ordered (obj_optimize p)) as [[d l]|] eqn:Eo; try contradiction.
  - destruct O1 as (cap & items & E1 & R1). cbn [h_layers]. rewrite E1. cbn [h_alloc c_items].
    eexists. eexists. split; [exact E|]. split; [reflexivity|].
    set (h2 := h1 ++ [mkCell (Some false) (length items) []]).
    assert (A2 : extends P1 P1 h1 h2 None) by (apply alloc_own; auto).
    assert (Hr2 : repo h2 o1 (obj_optimize p)) by (eapply repo_other; eauto; discriminate).
    split; auto. constructor; cbn [h_base h_snap h_ord h_unord o_base o_snap o_ordered o_unordered].
    + exists b. split; [congruence|]. apply (val_rel_kept P1 P1 h1 h2 None); auto; [discriminate|]. exact (k_base _ _ _ K1 b C1).
    + apply (val_rel_kept P1 P1 h1 h2 None); auto. discriminate.
    + destruct Hr2 as [_ _ O2 _]. rewrite Ea, Eo in O2. exact O2.
    + exists (Some false), []. split; [|constructor]. unfold h2. rewrite nth_error_app2, Nat.sub_diag by auto.
      rewrite (hrel_length _ _ _ R1). reflexivity.
  - cbn [h_layers]. exists h1, None. split; auto. split; auto. split; auto.
    constructor; cbn [h_base h_snap h_ord h_unord o_base o_snap o_ordered o_unordered]; auto.
    exists b. split; congruence || auto.
Qed.
