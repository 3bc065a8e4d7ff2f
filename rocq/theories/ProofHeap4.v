(** Stability of handed-out values; the memory follows the builders of
    ModelObject. *)
From Verif Require Import Base ModelKeyed SpecKeyed ProofKeyed ModelValue ModelObject SpecObject ProofObject
  ModelHeap SpecHeap ProofHeap ProofHeap2 ProofHeap3.

Lemma shows_kept : forall P h h', closed P h -> (forall a, P a -> nth_error h' a = nth_error h a) ->
  (forall x v, shows h x v -> okv P x -> shows h' x v) /\
  (forall l m, shows_items h l m -> Forall (okm P) l -> shows_items h' l m).
Proof.
  intros P h h' Hc He. apply shows_both.
  - intros v _. constructor.
  - intros a d cap items l E _ IH Ha. simpl in Ha. econstructor.
    + rewrite He by auto. exact E.
    + apply IH. exact (frozen_items _ _ _ _ Hc Ha E).
  - intros a cap items l E _ IH Ha. simpl in Ha. eapply shows_array.
    + rewrite He by auto. exact E.
    + apply IH. exact (frozen_items _ _ _ _ Hc Ha E).
  - constructor.
  - intros k x v items l _ IH1 _ IH2 H. inversion H; subst. constructor; auto.
Qed.

Lemma shows_exists : forall P h, closed P h -> forall x, okv P x -> exists v, shows h x v.
Proof.
  intros P h Hc.
  assert (H : forall n a, a < n -> P a -> exists v, shows h (HR a) v).
  { induction n as [|n IH]; intros a Hn Ha; [lia|]. destruct (Hc a Ha) as ([k cap items] & E & F). cbn [c_items] in F.
    assert (exists l, shows_items h items l) as (l & Hl).
    { clear E. induction F as [|[k' x] items Hx F IHF]; [exists []; constructor|].
      destruct IHF as (l & Hl). unfold okm in Hx. cbn [snd] in Hx. destruct x as [v|b].
      - exists ((k', v) :: l). constructor; auto. constructor.
      - destruct Hx as [Hb Hlt]. destruct (IH b ltac:(lia) Hb) as (v & Hv). exists ((k', v) :: l). constructor; auto. }
    destruct k as [d|]; eexists; [eapply shows_object|eapply shows_array]; eauto. }
  intros [v|a] Ha; [exists v; constructor|]. apply (H (S a)); auto.
Qed.

Lemma shows_det : forall h, (forall x v, shows h x v -> forall w, shows h x w -> v = w) /\
  (forall l m, shows_items h l m -> forall m', shows_items h l m' -> m = m').
Proof.
  intros h. apply shows_both.
  - intros v w H. inversion H; auto.
  - intros a d cap items l E _ IH w H. inversion H; subst; [|congruence].
    assert (items0 = items /\ d0 = d) as [-> ->] by (split; congruence). f_equal. auto.
  - intros a cap items l E _ IH w H. inversion H; subst; [congruence|].
    assert (items0 = items) as -> by congruence. f_equal. auto.
  - intros m' H. inversion H; auto.
  - intros k x v items l _ IH1 _ IH2 m' H. inversion H; subst. f_equal; [f_equal|]; auto.
Qed.

Lemma run_kept : forall ops P s s', sinv P s -> h_run s ops = Some s' -> exists P', kept P P' s s'.
Proof.
  induction ops as [|op ops IH]; intros P s s' V H; simpl in H.
  - inversion H; subst. exists P. apply (kept_ext P P s' s' None); auto; [apply extends_refl; apply V|discriminate|].
    exists []. rewrite app_nil_r. reflexivity.
  - destruct (h_step s op) as [s1|] eqn:E; [|discriminate].
    destruct (step_kept _ _ _ _ V E) as (P1 & V1 & K1 & (l1 & L1) & C1).
    destruct (IH _ _ _ V1 H) as (P2 & V2 & K2 & (l2 & L2) & C2).
    exists P2. split; auto. split; [|split].
    + intros a Ha. destruct (K1 a Ha) as [A1 A2]. destruct (K2 a A1) as [A3 A4]. split; auto. congruence.
    + exists (l1 ++ l2). rewrite L2, L1, app_assoc. reflexivity.
    + intros a c Hc. destruct (C2 a c Hc) as [Hc1|]; auto. destruct (C1 a c Hc1) as [|F]; auto.
      right. eapply okm_mono; [|exact F]. intros b Hb. apply K2. auto.
Qed.

Lemma init_ok : sinv (fun _ => False) hs_init.
Proof.
  constructor; cbn [hs_init hs_heap hs_objs hs_vals].
  - intros a [].
  - constructor.
  - intros [|b] o H; discriminate.
  - intros [|b] c x y a H; discriminate.
Qed.

Theorem values_stable : forall ops1 ops2 st1 st2 i x v,
  h_run hs_init ops1 = Some st1 -> h_run st1 ops2 = Some st2 ->
  nth_error (hs_vals st1) i = Some x -> shows (hs_heap st1) x v ->
  nth_error (hs_vals st2) i = Some x /\ shows (hs_heap st2) x v.
Proof.
  intros ops1 ops2 st1 st2 i x v H1 H2 Hi Hx.
  destruct (run_kept _ _ _ _ init_ok H1) as (P1 & V1 & _). destruct (run_kept _ _ _ _ V1 H2) as (P2 & V2 & K2 & (l & L) & _).
  split.
  - rewrite L, nth_error_app1; auto. apply nth_error_Some. congruence.
  - eapply (proj1 (shows_kept P1 _ _ (v_closed _ _ V1) (fun a Ha => proj2 (K2 a Ha)))); eauto. eapply val_ok; eauto.
Qed.

Theorem values_shown : forall ops st, h_run hs_init ops = Some st ->
  Forall (fun x => exists! v, shows (hs_heap st) x v) (hs_vals st).
Proof.
  intros ops st H. destruct (run_kept _ _ _ _ init_ok H) as (P & V & _). eapply Forall_impl; [|exact (v_vals _ _ V)].
  intros x Hx. destruct (shows_exists P _ (v_closed _ _ V) x Hx) as (v & Hv). exists v. split; auto.
  intros w Hw. exact (proj1 (shows_det _) _ _ Hv _ Hw).
Qed.

(** *** Builders *)
Record repo (h : heap) (o : hobj) (p : obj) : Prop := mkRepo {
  r_base : exists b, h_base o = Some b /\ shows h b (o_base p);
  r_snap : shows h (h_snap o) (o_snap p);
  r_ord : match h_ord o, o_ordered p with
          | None, None => True
          | Some a, Some (d, l) => exists cap items, nth_error h a = Some (mkCell (Some d) cap items) /\ hrel h items l
          | _, _ => False
          end;
  r_unord : match h_unord o, o_unordered p with
          | None, None => True
          | Some a, Some (cap, l) => exists k items, nth_error h a = Some (mkCell k cap items) /\ hrel h items l
          | _, _ => False
          end
}.

Lemma rel_kept : forall P P' h h' own l m, closed P h -> extends P P' h h' own -> (forall a, own = Some a -> ~ P a) ->
  Forall (okm P) l -> hrel h l m -> hrel h' l m.
Proof.
  intros P P' h h' own l m Hc E N F H. apply shows_items_rel. apply shows_items_rel in H.
  apply (proj2 (shows_kept P h h' Hc (fun a Ha => extends_frozen _ _ _ _ _ _ Hc E Ha N))); auto.
Qed.
Lemma val_rel_kept : forall P P' h h' own x v, closed P h -> extends P P' h h' own -> (forall a, own = Some a -> ~ P a) ->
  okv P x -> shows h x v -> shows h' x v.
Proof.
  intros P P' h h' own x v Hc E N F H.
  apply (proj1 (shows_kept P h h' Hc (fun a Ha => extends_frozen _ _ _ _ _ _ Hc E Ha N))); auto.
Qed.

Lemma repo_other : forall P P' h h' own q p, closed P h -> oko P h q -> repo h q p -> extends P P' h h' own ->
  (forall a, own = Some a -> ~ P a) -> (forall a, h_unord q = Some a -> own <> Some a) -> repo h' q p.
Proof.
  intros P P' h h' own q p Hc K [(b & B1 & B2) S1 O1 U1] E N D. constructor.
  - exists b. split; auto. eapply val_rel_kept; eauto. exact (k_base _ _ _ K b B1).
  - eapply val_rel_kept; eauto. exact (k_snap _ _ _ K).
  - destruct (h_ord q) as [a|] eqn:Ea; destruct (o_ordered p) as [[d l]|]; auto.
    destruct O1 as (cap & items & E1 & R1). pose proof (k_ord _ _ _ K a Ea) as Pa. exists cap, items. split.
    + rewrite (extends_frozen _ _ _ _ _ _ Hc E Pa N). auto.
    + eapply rel_kept; eauto. exact (frozen_items _ _ _ _ Hc Pa E1).
  - destruct (h_unord q) as [a|] eqn:Ea; destruct (o_unordered p) as [[cap l]|]; auto.
    destruct U1 as (k & items & E1 & R1). destruct (k_unord _ _ _ K a Ea) as (Na & c & Ec & Fc). exists k, items.
    assert (a < length h) by (apply nth_error_Some; congruence). split.
    + rewrite (e_same _ _ _ _ _ E); auto.
    + eapply rel_kept; eauto. rewrite E1 in Ec. inversion Ec; subst. exact Fc.
Qed.

Lemma hrel_length : forall h l m, hrel h l m -> length l = length m.
Proof. intros h l m H. exact (lrel_length _ _ _ _ _ H). Qed.

Lemma optimize_sim : forall P h o p, closed P h -> oko P h o -> repo h o p ->
  exists h' o', h_optimize h o = Some (h', o') /\ repo h' o' (obj_optimize p).
Proof.
  intros P h o p Hc Ho Hr. pose proof Hr as [(b & B1 & B2) S1 O1 U1].
  destruct (h_unord o) as [u|] eqn:Eu; destruct (o_unordered p) as [[cap ul]|] eqn:Ep; try contradiction.
  2:{ exists h, o. unfold h_optimize, obj_optimize. rewrite Eu, Ep. auto. }
  destruct U1 as (k & items & Ec & Ru).
  destruct (k_unord _ _ _ Ho u Eu) as (Nu & c & Ec' & Fc). assert (c = mkCell k cap items) by congruence. subst c. cbn [c_items] in Fc.
  destruct (h_optimize h o) as [[h' o']|] eqn:Eopt.
  - (* what was made *)
    exists h', o'. split; auto.
    destruct (optimize_ok _ _ _ _ _ Hc Ho Eopt) as (P' & E & K' & U' & B' & S').
    unfold h_optimize in Eopt. rewrite Eu, Ec in Eopt. cbn [c_items c_obj c_cap] in Eopt.
    unfold obj_optimize. rewrite Ep. rewrite <- (hrel_length _ _ _ Ru).
    destruct (length items =? 0) eqn:El; [inversion Eopt; subst; auto|].
    set (ns := obj_sort items) in *. set (h1 := h_write h u (mkCell k cap ns)) in *.
    assert (Rs : hrel h ns (obj_sort ul)) by (apply obj_sort_param; auto).
    assert (Fs : Forall (okm P) ns) by (apply sort_forall; auto).
    assert (N : forall a, h_unord o = Some a -> ~ P a) by (intros a Ha; rewrite Eu in Ha; inversion Ha; subst; auto).
    set (made := match h_ord o with None => _ | Some _ => _ end) in Eopt.
    destruct made as [new|] eqn:Em; [|discriminate]. cbn [h_alloc] in Eopt.
    assert (Hu : u < length h) by (apply nth_error_Some; congruence).
    assert (Ll : length h1 = length h) by (apply length_write).
    inversion Eopt; subst h' o'. clear Eopt.
    cbn [h_base h_snap h_ord h_unord] in *.
    assert (Hnew : exists cap' d l, c_obj new = Some d /\ new = mkCell (Some d) cap' (c_items new) /\ Forall (okm P) (c_items new) /\ hrel h (c_items new) l /\
      match o_ordered p with None => (true, cassign (length (obj_sort ul)) (obj_sort ul))
        | Some (d, l) => (d, apply_impl default_merge d l (obj_sort ul)) end = (d, l)).
    { subst made. destruct (h_ord o) as [a|] eqn:Ea; destruct (o_ordered p) as [[d l]|] eqn:Eo; try contradiction.
      - destruct O1 as (capa & ia & Ea1 & Ra). pose proof (k_ord _ _ _ Ho a Ea) as Pa.
        assert (nth_error h1 a = Some (mkCell (Some d) capa ia)) as Ea2.
        { unfold h1. rewrite nth_write. destruct (Nat.eqb_spec a u); [subst; contradiction|auto]. }
        rewrite Ea2 in Em. cbn [c_obj c_items] in Em. inversion Em; subst new.
        exists (length ia + length ns), d, (apply_impl default_merge d l (obj_sort ul)). repeat (split; [reflexivity|]).
        split; [|split; [apply happly_cell_param; auto|reflexivity]].
        apply happly_forall; auto. exact (frozen_items _ _ _ _ Hc Pa Ea1).
      - inversion Em; subst new. exists (length ns), true, (cassign (length (obj_sort ul)) (obj_sort ul)).
        repeat (split; [reflexivity|]). cbn [c_items].
        split; [apply fold_forall; auto; intros; apply cpush_forall; auto|]. split; [|reflexivity].
        unfold cassign. rewrite <- (hrel_length _ _ _ Rs). apply (fold_param _ _ (shows h)); auto.
        intros l m x y Hl Hx. exact (proj2 (cpush_param _ _ _ (length ns) _ _ _ _ Hl Hx)). }
    destruct Hnew as (cap' & d & l & D1 & D2 & D3 & D4 & D5). rewrite D5.
    constructor; cbn [h_base h_snap h_ord h_unord o_base o_snap o_ordered o_unordered].
    + exists b. split; auto. eapply val_rel_kept; eauto. exact (k_base _ _ _ Ho b B1).
    + eapply val_rel_kept; eauto. exact (k_snap _ _ _ Ho).
    + exists cap', (c_items new). split; [|eapply rel_kept; eauto].
      rewrite nth_write. destruct (Nat.eqb_spec (length h1) u); [lia|].
      rewrite nth_error_app2, Nat.sub_diag by auto. rewrite D2 at 1. reflexivity.
    + exists k, []. split; [|constructor]. rewrite nth_write, Nat.eqb_refl, app_length.
      replace (u <? length h1 + length [new]) with true by (symmetry; apply Nat.ltb_lt; lia). reflexivity.
  - (* it does not fail *)
    exfalso. unfold h_optimize in Eopt. rewrite Eu, Ec in Eopt. cbn [c_items c_obj c_cap] in Eopt.
    destruct (length items =? 0); [discriminate|].
    destruct (h_ord o) as [a|] eqn:Ea; destruct (o_ordered p) as [[d l]|] eqn:Eo; try contradiction.
    + destruct O1 as (capa & ia & Ea1 & Ra). pose proof (k_ord _ _ _ Ho a Ea) as Pa.
      rewrite nth_write in Eopt. destruct (Nat.eqb_spec a u); [subst; contradiction|]. rewrite Ea1 in Eopt.
      cbn [c_obj h_alloc] in Eopt. discriminate.
    + cbn [h_alloc] in Eopt. discriminate.
Qed.
