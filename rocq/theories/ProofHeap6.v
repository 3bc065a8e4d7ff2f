(** Whole programs: the memory follows value semantics. *)
From Verif Require Import Base ModelKeyed SpecKeyed ProofKeyed ModelValue ModelObject SpecObject ProofObject
  ModelHeap SpecHeap ProofHeap ProofHeap2 ProofHeap3 ProofHeap4 ProofHeap5.

(** *** The specification's relations have exactly one result. *)
Lemma same_members : forall (l1 l2 : list member), keys_increasing l1 -> keys_increasing l2 ->
  (forall k x, In (k, x) l1 <-> In (k, x) l2) -> l1 = l2.
Proof.
  intros l1 l2 S1 S2 H. apply increasing_ext; auto. intros k. destruct (binding k l1) as [x|] eqn:E.
  - apply binding_in, H, (in_binding _ _ _ (keys_increasing_nodup _ S2)) in E. auto.
  - destruct (binding k l2) as [x|] eqn:E2; auto.
    apply binding_in, H, (in_binding _ _ _ (keys_increasing_nodup _ S1)) in E2. congruence.
Qed.

Lemma committed_diff_det : forall s v w, committed_diff s v -> committed_diff s w -> v = w.
Proof.
  intros s v w. unfold committed_diff. destruct (s_changes s); [congruence|].
  intros (l1 & -> & S1 & H1) (l2 & -> & S2 & H2). f_equal. apply same_members; auto. intros k x. rewrite H1, H2. tauto.
Qed.
Lemma applied_det : forall b d v w, applied b d v -> applied b d w -> v = w.
Proof.
  intros b d v w. unfold applied. destruct d; try congruence.
  intros (l1 & -> & S1 & H1) (l2 & -> & S2 & H2). f_equal. apply same_members; auto. intros k x. rewrite H1, H2. tauto.
Qed.
Lemma listed_det : forall l v w, listed l v -> listed l w -> v = w.
Proof.
  intros l v w (l1 & -> & S1 & H1) (l2 & -> & S2 & H2). f_equal. apply same_members; auto. intros k x. rewrite H1, H2. tauto.
Qed.

Lemma commit_diff_content : forall o s, inv o s -> committed_diff s (snd (obj_commit_diff o)).
Proof.
  intros o s Hi. pose proof (optimize_inv _ _ Hi) as Hi2. pose proof (optimize_clears o) as Hcl.
  unfold obj_commit_diff, committed_diff. cbn [snd]. set (o2 := obj_optimize o) in *.
  assert (Hov : forall k, binding k (ord_list o2) = last_binding k (s_changes s)).
  { intros k. rewrite <- (i_over _ _ Hi2). unfold overlay. rewrite Hcl. reflexivity. }
  unfold ord_list in Hov. destruct (o_ordered o2) as [[d l]|] eqn:Eo.
  - destruct (i_ord _ _ Hi2 _ _ Eo) as (-> & Hl & Hn). destruct (s_changes s) as [|c0 cs] eqn:Ec.
    + exfalso. destruct l as [|[k v] l]; [congruence|]. specialize (Hov k). cbn in Hov. rewrite beqb_refl in Hov. discriminate.
    + exists l. split; auto. split; auto. intros k x. rewrite <- Hov.
      split; [apply in_binding, keys_increasing_nodup; auto|apply binding_in].
  - destruct (s_changes s) as [|[k v] cs] eqn:Ec; [reflexivity|]. exfalso. specialize (Hov k). cbn [binding] in Hov.
    symmetry in Hov. apply last_binding_none in Hov. simpl in Hov. tauto.
Qed.

Lemma apply_content : forall b d, base_ok b -> base_ok d -> applied b d (apply_diff b d).
Proof.
  intros b d Hb Hd. unfold applied, apply_diff, apply_diff_with. destruct d as [| | | | | |dd dl]; auto.
  destruct Hd as [Hd _]. set (bl := obj_members b). set (bd := is_diff b).
  assert (Hbl : keys_increasing bl /\ (bd = false -> forall k v, In (k, v) bl -> is_undef v = false)).
  { unfold bl, bd, obj_members, is_diff. unfold base_ok in Hb. destruct b; auto; (split; [constructor|intros _ ? ? []]). }
  destruct Hbl as [Hbl Hbu].
  assert (Hv : match b with
       | VObj bd bl => VObj bd (apply_impl default_merge bd bl dl)
       | _ => VObj false (apply_impl default_merge false [] dl) end =
       VObj bd (apply_impl default_merge bd bl dl)).
  { unfold bl, bd, obj_members, is_diff. destruct b; auto. }
  rewrite Hv. eexists. split; [reflexivity|].
  destruct (apply_impl_spec default_merge bd bl dl Hbl Hd) as [A1 A2]. split; auto.
  intros k x. assert (Hin : In (k, x) (apply_impl default_merge bd bl dl) <->
    merged default_merge bd (binding k bl) (binding k dl) = Some x).
  { rewrite <- A2. split; [apply in_binding, keys_increasing_nodup; auto|apply binding_in]. }
  rewrite Hin. unfold spec_get. cbn [s_changes s_base]. fold bl.
  rewrite <- (binding_last k dl) by (apply keys_increasing_nodup; auto). unfold merged.
  destruct (binding k dl) as [v|].
  - unfold default_merge. destruct (is_undef v) eqn:Eu; cbn [negb].
    + destruct bd; (split; [try discriminate; intros E; split; auto|]); intros [E [E2|E2]]; auto; congruence.
    + destruct (binding k bl); (split; [intros E; inversion E; subst; auto|intros [E _]; auto]).
  - split; [|intros [E _]; auto]. intros E. split; auto. destruct bd; [auto|]. left. apply binding_in in E. eauto.
Qed.

Lemma listed_content : forall l, listed l (o_base (obj_of_list l)) /\ base_ok (o_base (obj_of_list l)).
Proof.
  intros l. destruct (object_of_list l) as [H1 H2]. split; auto.
  eexists. split; [reflexivity|]. split; [apply H1|exact H2].
Qed.

(** *** Lists by position *)
Lemma forall2_nth : forall {A B} (R : A -> B -> Prop) l m, Forall2 R l m <->
  length l = length m /\ forall i x y, nth_error l i = Some x -> nth_error m i = Some y -> R x y.
Proof.
  intros A B R l m. split.
  - intros H. split; [induction H; simpl; congruence|].
    induction H; intros [|i] a b Ha Hb; simpl in *; try discriminate; [congruence|eauto].
  - revert m. induction l as [|x l IH]; intros [|y m] [E H]; try discriminate; constructor.
    + apply (H 0); reflexivity.
    + apply IH. split; [simpl in E; lia|]. intros i a b Ha Hb. apply (H (S i)); auto.
Qed.

Lemma replaced_put : forall {A} (l : list A) i x, i < length l -> replaced l i x = h_put l i x.
Proof.
  intros A. unfold replaced. induction l as [|y l IH]; intros i x H; simpl in H; [lia|].
  destruct i as [|i]; [reflexivity|]. cbn [firstn app h_put]. f_equal. apply IH. lia.
Qed.
Lemma replaced_same : forall {A} (l : list A) i x, nth_error l i = Some x -> replaced l i x = l.
Proof.
  intros A. unfold replaced. induction l as [|y l IH]; intros [|i] x H; simpl in H; try discriminate.
  - inversion H; subst. reflexivity.
  - cbn [firstn app]. f_equal. apply IH. auto.
Qed.

Lemma nth_some_lt : forall {A} (l : list A) i x, nth_error l i = Some x -> i < length l.
Proof. intros A l i x H. apply nth_error_Some. congruence. Qed.

Lemma forall2_put : forall {A B} (R : A -> B -> Prop) l m i x y, Forall2 R l m -> R x y ->
  Forall2 R (h_put l i x) (h_put m i y).
Proof. intros A B R l m i x y H Hx. revert i. induction H; intros [|i]; simpl; auto. Qed.

(** *** Builders and their meaning *)
Definition snap_val (w : value) (r : option ospec) : Prop :=
  match r with None => w = VUndef | Some s => committed s w /\ is_undef w = false end.
Definition brel (h : heap) (o : hobj) (b : sbuilder) : Prop :=
  match sb_now b with
  | Some s => exists p, repo h o p /\ inv p s /\ snap_val (o_snap p) (sb_seen b)
  | None => h_base o = None /\ h_ord o = None /\ h_unord o = None /\
      exists w, shows h (h_snap o) w /\ snap_val w (sb_seen b)
  end.

Lemma brel_other : forall P P' h h' own q sb, closed P h -> oko P h q -> brel h q sb -> extends P P' h h' own ->
  (forall a, own = Some a -> ~ P a) -> (forall a, h_unord q = Some a -> own <> Some a) -> brel h' q sb.
Proof.
  intros P P' h h' own q [n r] Hc K H E N D. unfold brel in *. cbn [sb_now sb_seen] in *. destruct n as [s|].
  - destruct H as (p & H1 & H2). exists p. split; auto. eapply repo_other; eauto.
  - destruct H as (H1 & H2 & H3 & w & H4 & H5). split; auto. split; auto. split; auto. exists w. split; auto.
    eapply val_rel_kept; eauto. exact (k_snap _ _ _ K).
Qed.

Lemma brel_snap : forall h o n r, brel h o (mkSB n r) -> exists w, shows h (h_snap o) w /\ snap_val w r.
Proof.
  intros h o n r H. unfold brel in H. cbn [sb_now sb_seen] in H. destruct n.
  - destruct H as (p & H1 & H2 & H3). exists (o_snap p). split; auto. apply H1.
  - destruct H as (_ & _ & _ & H). exact H.
Qed.

Record agree (P : nat -> Prop) (st : hstate) (ss : sstate) : Prop := mkAgree {
  a_inv : sinv P st;
  a_vals : Forall2 (shows (hs_heap st)) (hs_vals st) (snd ss);
  a_objs : Forall2 (brel (hs_heap st)) (hs_objs st) (fst ss)
}.

Lemma agree_val : forall P st bs vs i v, agree P st (bs, vs) -> nth_error vs i = Some v ->
  exists x, nth_error (hs_vals st) i = Some x /\ shows (hs_heap st) x v /\ okv P x.
Proof.
  intros P st bs vs i v [V A _] H. apply forall2_nth in A as [L A]. cbn [snd] in *.
  destruct (nth_error (hs_vals st) i) as [x|] eqn:E.
  - exists x. split; auto. split; [eapply A; eauto|eapply val_ok; eauto].
  - apply nth_error_None in E. apply nth_some_lt in H. lia.
Qed.
Lemma agree_obj : forall P st bs vs b sb, agree P st (bs, vs) -> nth_error bs b = Some sb ->
  exists o, nth_error (hs_objs st) b = Some o /\ brel (hs_heap st) o sb /\ oko P (hs_heap st) o.
Proof.
  intros P st bs vs b sb [V _ A] H. apply forall2_nth in A as [L A]. cbn [fst] in *.
  destruct (nth_error (hs_objs st) b) as [x|] eqn:E.
  - exists x. split; auto. split; [eapply A; eauto|eapply v_objs; eauto].
  - apply nth_error_None in E. apply nth_some_lt in H. lia.
Qed.
Lemma agree_in_use : forall P st bs vs b s r, agree P st (bs, vs) -> nth_error bs b = Some (mkSB (Some s) r) ->
  exists o p, nth_error (hs_objs st) b = Some o /\ oko P (hs_heap st) o /\ repo (hs_heap st) o p /\ inv p s /\ snap_val (o_snap p) r.
Proof.
  intros P st bs vs b s r A H. destruct (agree_obj _ _ _ _ _ _ A H) as (o & E & (p & R & I & S0) & K).
  exists o, p. auto.
Qed.

(** One builder changes, and possibly one value is added. *)
Lemma agree_change : forall P st bs vs b o sb h' o' x sb' l, agree P st (bs, vs) ->
  nth_error (hs_objs st) b = Some o -> nth_error bs b = Some sb ->
  good P (hs_heap st) o h' o' x -> brel h' o' sb' ->
  (l = [] \/ exists v, l = [(x, v)] /\ shows h' x v) ->
  exists P', agree P' (mkHState h' (h_put (hs_objs st) b o') (hs_vals st ++ map fst l)) (replaced bs b sb', vs ++ map snd l).
Proof.
  intros P st bs vs b o sb h' o' x sb' l A Ho Hs G B L. pose proof A as [V A1 A2]. cbn [fst snd] in *.
  destruct (one_changes _ _ _ _ _ _ _ V Ho G) as (P' & V' & Hx & E).
  assert (N : forall a, h_unord o = Some a -> ~ P a) by (intros a Ha; eapply own_not; eauto).
  exists P'. constructor; cbn [hs_heap hs_objs hs_vals fst snd].
  - destruct L as [->|(v & -> & Hv)]; cbn [map fst]; [rewrite app_nil_r; exact V'|]. exact (one_value _ _ _ V' Hx).
  - apply Forall2_app.
    + apply forall2_nth in A1 as [A0 A1]. apply forall2_nth. split; auto. intros i y v Hy Hv.
      eapply (val_rel_kept P P'); [exact (v_closed _ _ V)|exact E|exact N|eapply val_ok; eauto|eauto].
    + destruct L as [->|(v & -> & Hv)]; cbn [map fst snd]; repeat constructor; auto.
  - rewrite replaced_put by (eapply nth_some_lt; eauto). apply forall2_nth in A2 as [A0 A2]. apply forall2_nth.
    split; [rewrite !length_put; auto|]. intros i q y Hq Hy.
    apply nth_put_inv in Hq as [[-> ->]|[N1 Hq]]; apply nth_put_inv in Hy as [[E1 ->]|[N2 Hy]]; try congruence; auto.
    eapply brel_other; [exact (v_closed _ _ V)|eapply v_objs; eauto|eauto|exact E|exact N|].
    intros a Ha Hb. apply N1. eapply (v_apart _ _ V); eauto.
Qed.

Lemma agree_change0 : forall P st bs vs b o sb h' o' x sb', agree P st (bs, vs) ->
  nth_error (hs_objs st) b = Some o -> nth_error bs b = Some sb ->
  good P (hs_heap st) o h' o' x -> brel h' o' sb' ->
  exists P', agree P' (mkHState h' (h_put (hs_objs st) b o') (hs_vals st)) (replaced bs b sb', vs).
Proof.
  intros. destruct (agree_change P st bs vs b o sb h' o' x sb' [] H H0 H1 H2 H3 (or_introl eq_refl)) as (P' & A).
  cbn [map] in A. rewrite !app_nil_r in A. eauto.
Qed.
Lemma agree_change1 : forall P st bs vs b o sb h' o' x sb' v, agree P st (bs, vs) ->
  nth_error (hs_objs st) b = Some o -> nth_error bs b = Some sb ->
  good P (hs_heap st) o h' o' x -> brel h' o' sb' -> shows h' x v ->
  exists P', agree P' (mkHState h' (h_put (hs_objs st) b o') (hs_vals st ++ [x])) (replaced bs b sb', vs ++ [v]).
Proof.
  intros. exact (agree_change P st bs vs b o sb h' o' x sb' [(x, v)] H H0 H1 H2 H3
    (or_intror (ex_intro _ v (conj eq_refl H4)))).
Qed.

Lemma agree_value : forall P st bs vs x v, agree P st (bs, vs) -> okv P x -> shows (hs_heap st) x v ->
  agree P (mkHState (hs_heap st) (hs_objs st) (hs_vals st ++ [x])) (bs, vs ++ [v]).
Proof.
  intros P st bs vs x v [V A1 A2] Hx Hv. constructor; cbn [hs_heap hs_objs hs_vals fst snd] in *; auto.
  - apply one_value; auto.
  - apply Forall2_app; auto.
Qed.

(** Containers are added. *)
Lemma agree_grown : forall P P' st bs vs h', agree P st (bs, vs) -> extends P P' (hs_heap st) h' None ->
  agree P' (mkHState h' (hs_objs st) (hs_vals st)) (bs, vs).
Proof.
  intros P P' st bs vs h' [V A1 A2] E. constructor; cbn [hs_heap hs_objs hs_vals fst snd] in *.
  - eapply grown; eauto.
  - apply forall2_nth in A1 as [A0 A1]. apply forall2_nth. split; auto. intros i y v Hy Hv.
    eapply (val_rel_kept P P'); [exact (v_closed _ _ V)|exact E|discriminate|eapply val_ok; eauto|eauto].
  - apply forall2_nth in A2 as [A0 A2]. apply forall2_nth. split; auto. intros i q y Hq Hy.
    eapply brel_other; [exact (v_closed _ _ V)|eapply v_objs; eauto|eauto|exact E|discriminate|discriminate].
Qed.

Lemma agree_builder : forall P st bs vs n sb, agree P st (bs, vs) -> oko P (hs_heap st) n -> h_unord n = None ->
  brel (hs_heap st) n sb -> agree P (mkHState (hs_heap st) (hs_objs st ++ [n]) (hs_vals st)) (bs ++ [sb], vs).
Proof.
  intros P st bs vs n sb [V A1 A2] K U B. constructor; cbn [hs_heap hs_objs hs_vals fst snd] in *; auto.
  - apply (one_more P st (hs_heap st) n P None V); [apply extends_refl; apply V|apply (v_objs _ _ V)|auto|congruence].
  - apply Forall2_app; auto.
Qed.

Lemma new_brel : forall P h x v, okv P x -> shows h x v -> base_ok v ->
  brel h (h_new x) (mkSB (Some (mkSpec v [])) None).
Proof.
  intros P h x v Hx Hv Hok. exists (obj_new v). split; [|split; [apply new_inv; auto|reflexivity]].
  constructor; cbn [h_new h_base h_snap h_ord h_unord obj_new o_base o_snap o_ordered o_unordered]; auto; [|constructor].
  exists x. auto.
Qed.
