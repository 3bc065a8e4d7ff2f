From Coq Require Import Sorted.
From Verif Require Import Base ModelKeyed SpecKeyed ProofKeyed ModelValue ModelObject SpecObject ProofObject ModelArray ModelObjSize SpecObjSize.

Lemma size_layers : forall o, obj_size o = vsize (o_base o) + length (ord_list o) + length (unord_list o).
Proof. intros o. unfold obj_size, ord_list, unord_list. destruct (o_ordered o) as [[]|], (o_unordered o) as [[]|]; reflexivity. Qed.

Lemma over_in : forall o k v, overlay k o = Some v -> In k (map fst (ord_list o) ++ map fst (unord_list o)).
Proof.
  intros o k v H. apply in_or_app. unfold overlay in H.
  destruct (last_binding k (unord_list o)) eqn:E.
  - right. destruct (in_dec (list_eq_dec Z.eq_dec) k (map fst (unord_list o))) as [Hi|Hi]; [exact Hi|].
    apply last_binding_none in Hi. congruence.
  - left. destruct (in_dec (list_eq_dec Z.eq_dec) k (map fst (ord_list o))) as [Hi|Hi]; [exact Hi|].
    apply binding_none in Hi. congruence.
Qed.

Lemma ord_inc : forall o s, inv o s -> keys_increasing (ord_list o).
Proof. intros o s Hi. apply overlay_ordered. intros d l E. apply (i_ord _ _ Hi d l E). Qed.

Lemma optimize_len : forall o s, inv o s -> length (ord_list (obj_optimize o)) <= length (ord_list o) + length (unord_list o).
Proof.
  intros o s Hi. assert (Hi2 := optimize_inv _ _ Hi).
  rewrite <- (map_length fst (ord_list (obj_optimize o))), <- (map_length fst (ord_list o)), <- (map_length fst (unord_list o)), <- app_length.
  apply NoDup_incl_length; [eapply keys_increasing_nodup, ord_inc; eauto|].
  intros k Hk. destruct (binding k (ord_list (obj_optimize o))) as [v|] eqn:E.
  - apply (over_in o k v). rewrite (i_over _ _ Hi), <- (i_over _ _ Hi2). unfold overlay.
    rewrite optimize_clears. cbn [last_binding]. exact E.
  - apply binding_none in E. contradiction.
Qed.

(** The changes recorded are at most those made. *)
Definition few (o : obj) (s : ospec) : Prop := length (ord_list o) + length (unord_list o) <= length (s_changes s).

Lemma few_optimize : forall o s, inv o s -> few o s -> few (obj_optimize o) s.
Proof. intros o s Hi F. unfold few in *. rewrite optimize_clears. cbn [length]. pose proof (optimize_len o s Hi). lia. Qed.

Lemma few_set : forall o s m, inv o s -> few o s -> few (obj_set o m) (spec_add s [m]).
Proof.
  intros o s m Hi F. unfold obj_set, obj_set_internal.
  set (cu := match o_unordered o with None => (8, []) | Some cu => cu end).
  assert (Hcu : snd cu = unord_list o) by (unfold cu, unord_list; destruct (o_unordered o) as [[]|]; reflexivity).
  assert (Hc1 : length (snd cu) <= fst cu).
  { unfold cu. destruct (o_unordered o) as [[cap u]|] eqn:E; [|cbn; lia]. apply (i_cap _ _ Hi _ _ E). }
  destruct cu as [cap u]. cbn [fst snd] in Hcu, Hc1. subst u.
  unfold cpush at 1. destruct (length (unord_list o) <? cap) eqn:El; unfold few in *.
  - cbn [fst s_changes spec_add].
    change (length (ord_list o) + length (unord_list o ++ [m]) <= length (s_changes s ++ [m])).
    rewrite !app_length. cbn [length]. lia.
  - set (o1 := mkObj (o_base o) VUndef (o_ordered o) (Some (cap, unord_list o))).
    assert (Hl : length (ord_list (obj_optimize o1)) <= length (ord_list o) + length (unord_list o)).
    { clear El. unfold o1.
      unfold obj_optimize. cbn [o_unordered o_ordered]. 
      destruct (Nat.eqb (length (unord_list o)) 0); [unfold ord_list; cbn [o_ordered]; lia|].
      destruct (o_ordered o) as [[d l]|] eqn:Eo.
      - assert (Elo : ord_list o = l) by (unfold ord_list; rewrite Eo; reflexivity). rewrite Elo. unfold ord_list at 1. cbn [o_ordered].
        destruct (obj_sort_spec (unord_list o)) as [S1 S2].
        destruct (i_ord _ _ Hi d l Eo) as (-> & Hl & _).
        destruct (apply_impl_spec default_merge true l (obj_sort (unord_list o)) Hl S1) as [A1 A2].
        rewrite <- (map_length fst l), <- (map_length fst (unord_list o)), <- app_length, <- (map_length fst (apply_impl _ _ _ _)).
        apply NoDup_incl_length; [apply keys_increasing_nodup; exact A1|].
        intros k Hk. apply in_or_app.
        destruct (in_dec (list_eq_dec Z.eq_dec) k (map fst l)) as [Hi1|Hi1]; [left; exact Hi1|].
        destruct (in_dec (list_eq_dec Z.eq_dec) k (map fst (unord_list o))) as [Hi2|Hi2]; [right; exact Hi2|].
        exfalso. apply binding_none in Hi1. apply last_binding_none in Hi2.
        specialize (A2 k). rewrite S2, Hi1, Hi2 in A2. cbn in A2. apply binding_none in A2. contradiction.
      - rewrite cassign_id. unfold ord_list at 1. cbn [o_ordered]. destruct (obj_sort_spec (unord_list o)) as [S1 S2].
        enough (length (obj_sort (unord_list o)) <= length (unord_list o)) by lia.
        rewrite <- (map_length fst (unord_list o)), <- (map_length fst (obj_sort _)).
        apply NoDup_incl_length; [apply keys_increasing_nodup; exact S1|].
        intros k Hk. destruct (in_dec (list_eq_dec Z.eq_dec) k (map fst (unord_list o))) as [Hi2|Hi2]; [exact Hi2|].
        exfalso. apply last_binding_none in Hi2. rewrite <- S2 in Hi2. apply binding_none in Hi2. contradiction. }
    cbn [fst snd]. unfold cpush.
    destruct (length (@nil member) <? length (unord_list o) * 2); cbn [fst s_changes spec_add].
    + change (length (ord_list (obj_optimize o1)) + length ([] ++ [m]) <= length (s_changes s ++ [m])).
      rewrite !app_length. cbn [length app]. lia.
    + change (length (ord_list (obj_optimize o1)) + length (@nil member) <= length (s_changes s ++ [m])).
      rewrite !app_length. cbn [length app]. lia.
Qed.

Lemma few_set_all : forall l o s, inv o s -> few o s -> few (fold_left obj_set l o) (spec_add s l).
Proof.
  induction l as [|m l IH]; intros o s Hi F; cbn [fold_left].
  - unfold few, spec_add in *. cbn [s_changes]. rewrite app_nil_r. exact F.
  - replace (spec_add s (m :: l)) with (spec_add (spec_add s [m]) l).
    + apply IH; [apply set_inv; exact Hi|apply few_set; assumption].
    + unfold spec_add. cbn [s_base s_changes]. rewrite <- app_assoc. reflexivity.
Qed.

Lemma few_same : forall o o' s, ord_list o = ord_list o' -> unord_list o = unord_list o' -> few o s -> few o' s.
Proof. unfold few. intros o o' s -> ->. auto. Qed.

Lemma few_copy : forall o s b snap, inv o s -> few o s ->
  few (mkObj b snap (o_ordered (obj_optimize o))
       (match o_ordered (obj_optimize o) with Some (_, l) => Some (length l, []) | None => None end)) s.
Proof.
  intros o s b snap Hi F. eapply few_same; [| |exact (few_optimize o s Hi F)].
  - reflexivity.
  - rewrite optimize_clears. unfold unord_list. cbn [o_unordered]. destruct (o_ordered (obj_optimize o)) as [[]|]; reflexivity.
Qed.

Lemma read_state : forall o k o' v, obj_read o k = Some (o', v) -> o' = o \/ o' = obj_optimize o.
Proof.
  intros o k o' v. unfold obj_read. destruct (o_unordered o) as [[cap u]|]; [|intros H; injection H as <- _; auto].
  destruct (if 16 <? length u then _ else _) as [b|]; [|discriminate].
  destruct (if b then None else scan_back (rev u) k); [intros H; injection H as <- _; destruct b; auto|].
  destruct (o_ordered (if b then obj_optimize o else o)) as [[d l]|].
  - destruct (find_member l k); intros H; injection H as <- _; destruct b; auto.
  - intros H; injection H as <- _; destruct b; auto.
Qed.

Lemma few_step : forall x y sx sy op x' y', inv x sx -> inv y sy -> few x sx -> few y sy ->
  obj_step (x, y) op = Some (x', y') ->
  few x' (fst (spec_step (sx, sy) op)) /\ few y' (snd (spec_step (sx, sy) op)).
Proof.
  intros x y sx sy op x' y' Hx Hy Fx Fy E.
  destruct op; cbn [obj_step spec_step fst snd] in *.
  - injection E as <- <-. split; [apply few_set; assumption|assumption].
  - injection E as <- <-. split; [apply few_set; assumption|assumption].
  - injection E as <- <-. split; [apply few_set_all; assumption|assumption].
  - injection E as <- <-. split; [apply few_optimize; assumption|assumption].
  - destruct (obj_read x k) as [[x1 v]|] eqn:Er; [|discriminate]. injection E as <- <-. split; [|assumption].
    destruct (read_state _ _ _ _ Er) as [->| ->]; [assumption|apply few_optimize; assumption].
  - injection E as <- <-. split; [rewrite commit_state; apply few_optimize; assumption|assumption].
  - injection E as <- <-. split; [apply few_optimize; assumption|assumption].
  - injection E as <- <-. split; [|assumption]. destruct (is_undef (o_snap x)); [|assumption].
    pose proof (commit_state x) as C. destruct (obj_commit x) as [x1 v]. cbn [fst] in C |- *. subst x1.
    eapply few_same; [| |apply few_optimize; eassumption]; reflexivity.
  - injection E as <- <-. split; [unfold few; cbn; lia|assumption].
  - injection E as <- <-. split; [unfold few; cbn; lia|assumption].
  - injection E as <- <-. split; assumption.
  - injection E as <- <-. split; [apply few_copy; assumption|apply few_optimize; assumption].
  - injection E as <- <-. split; [exact Fy|unfold few; cbn; lia].
  - injection E as <- <-. split; [apply few_optimize; assumption|apply few_copy; assumption].
  - injection E as <- <-. split; assumption.
Qed.

Lemma few_run : forall ops x y sx sy x' y', inv x sx -> inv y sy -> few x sx -> few y sy -> Forall op_ok ops ->
  obj_run (x, y) ops = Some (x', y') -> few x' (fst (spec_run (sx, sy) ops)).
Proof.
  induction ops as [|op ops IH]; intros x y sx sy x' y' Hx Hy Fx Fy Hops E.
  - injection E as <- <-. exact Fx.
  - inversion_clear Hops as [|? ? Hop Hops'].
    destruct (step_inv x y sx sy op Hx Hy Hop) as (x1 & y1 & E1 & H1 & H2).
    destruct (few_step x y sx sy op x1 y1 Hx Hy Fx Fy E1) as [F1 F2].
    cbn [obj_run] in E. rewrite E1 in E. unfold spec_run. cbn [fold_left]. fold (spec_run (spec_step (sx, sy) op) ops).
    destruct (spec_step (sx, sy) op) as [sx1 sy1]. eapply IH; eauto.
Qed.

Lemma obj_members_incl : forall v, length (obj_members v) <= vsize v.
Proof. intros v. destruct v; cbn; unfold vsize; cbn; lia. Qed.

Lemma lower : forall o s, inv o s -> length (members_of (snd (obj_commit o))) <= obj_size o.
Proof.
  intros o s Hi. pose proof (commit_content o s Hi) as C. rewrite size_layers. rewrite (i_base _ _ Hi). unfold committed in C.
  destruct (s_changes s) as [|c cs] eqn:Ec; [rewrite C; unfold vsize; lia|].
  destruct C as (l & -> & Hl & Hin). cbn [members_of].
  pose proof (obj_members_incl (s_base s)) as Hb.
  enough (length l <= length (obj_members (s_base s)) + length (ord_list o) + length (unord_list o)) by lia.
  rewrite <- (map_length fst l), <- (map_length fst (obj_members _)), <- (map_length fst (ord_list o)), <- (map_length fst (unord_list o)).
  rewrite <- !app_length. apply NoDup_incl_length; [apply keys_increasing_nodup; exact Hl|].
  intros k Hk. apply in_map_iff in Hk as ([k' v] & E & Hkv). cbn in E. subst k'.
  apply Hin in Hkv. destruct Hkv as [Hg _]. rewrite <- app_assoc. apply in_or_app. unfold spec_get in Hg.
  destruct (last_binding k (s_changes s)) eqn:El.
  - right. apply (over_in o k v0). rewrite (i_over _ _ Hi). exact El.
  - left. apply binding_in in Hg. apply (in_map fst) in Hg. exact Hg.
Qed.

Lemma size_bounds : forall b1 b2 ops, base_ok b1 -> base_ok b2 -> Forall op_ok ops ->
  exists x y, obj_run (obj_new b1, obj_new b2) ops = Some (x, y) /\
    let s := fst (spec_run (mkSpec b1 [], mkSpec b2 []) ops) in
    length (members_of (snd (obj_commit x))) <= obj_size x <= vsize (s_base s) + length (s_changes s).
Proof.
  intros b1 b2 ops H1 H2 Hops.
  destruct (run_inv ops _ _ _ _ (new_inv b1 H1) (new_inv b2 H2) Hops) as (x & y & E & Hx & _).
  exists x, y. split; [exact E|]. cbv zeta. split; [eapply lower; eauto|].
  rewrite size_layers, (i_base _ _ Hx).
  assert (F : few x (fst (spec_run (mkSpec b1 [], mkSpec b2 []) ops))).
  { eapply few_run with (x := obj_new b1) (y := obj_new b2); eauto using new_inv; unfold few; cbn; lia. }
  unfold few in F. lia.
Qed.

Lemma size_exact : forall b1 b2 ops, base_ok b1 -> base_ok b2 -> Forall op_ok ops ->
  let s := fst (spec_run (mkSpec b1 [], mkSpec b2 []) ops) in
  (s_changes s <> [] -> exists d l, s_base s = VObj d l) -> only_new s ->
  exists x y, obj_run (obj_new b1, obj_new b2) ops = Some (x, y) /\
    obj_size x = length (members_of (snd (obj_commit x))).
Proof.
  intros b1 b2 ops H1 H2 Hops s Hb [Nd Hn].
  destruct (size_bounds b1 b2 ops H1 H2 Hops) as (x & y & E & B). fold s in B. cbv zeta in B.
  destruct (run_inv ops _ _ _ _ (new_inv b1 H1) (new_inv b2 H2) Hops) as (x1 & y1 & E1 & Hx & _).
  rewrite E in E1. injection E1 as <- <-. fold s in Hx.
  exists x, y. split; [exact E|].
  enough (vsize (s_base s) + length (s_changes s) <= length (members_of (snd (obj_commit x)))) by lia.
  pose proof (commit_content x s Hx) as C. pose proof (i_ok _ _ Hx) as Ok. unfold committed in C.
  destruct (s_changes s) as [|c cs] eqn:Ec; [rewrite C; unfold vsize; cbn; lia|].
  destruct C as (l & -> & Hl & Hin). cbn [members_of].
  destruct (Hb ltac:(discriminate)) as (d & bl & Eb). rewrite Eb in *. unfold vsize. cbn [members_of obj_members] in *.
  rewrite <- Ec in *. destruct Ok as [Inc Und].
  rewrite <- (map_length fst l), <- (map_length fst bl), <- (map_length fst (s_changes s)), <- app_length.
  assert (Get : forall k v, In (k, v) (s_changes s) -> spec_get s k = Some v).
  { intros k v Hi. unfold spec_get. rewrite <- binding_last by exact Nd. rewrite (in_binding k v _ Nd Hi). reflexivity. }
  apply NoDup_incl_length.
  - assert (Nb := keys_increasing_nodup _ Inc). revert Nd Hn. generalize (s_changes s) as ch. intros ch Nd Hn.
    induction bl as [|[k v] bl IH] in Nb, Hn |- *; [exact Nd|]. cbn [map app fst] in *. inversion_clear Nb as [|? ? N1 N2].
    constructor.
    + intros Hi. apply in_app_or in Hi as [Hi|Hi]; [contradiction|].
      apply in_map_iff in Hi as ([k' v'] & Ek & Hi). cbn in Ek. subst k'. destruct (Hn k v' Hi) as [_ C]. apply C. left. reflexivity.
    + apply IH; [exact N2|]. intros k' v' Hi. destruct (Hn k' v' Hi) as [U C]. split; [exact U|]. intros C'. apply C. right. exact C'.
  - intros k Hk. apply in_app_or in Hk as [Hk|Hk]; apply in_map_iff in Hk as ([k' v] & Ek & Hk); cbn in Ek; subst k'.
    + apply (in_map fst _ (k, v)). apply Hin. split.
      * unfold spec_get. replace (last_binding k (s_changes s)) with (@None value).
        -- rewrite Eb. cbn [obj_members]. apply in_binding; [apply keys_increasing_nodup; exact Inc|exact Hk].
        -- symmetry. apply last_binding_none. intros C. apply in_map_iff in C as ([k' v'] & Ek & C). cbn in Ek. subst k'.
           destruct (Hn k v' C) as [_ C2]. apply C2. apply (in_map fst _ (k, v)). exact Hk.
      * destruct d; [right; reflexivity|]. left. exact (Und eq_refl k v Hk).
    + apply (in_map fst _ (k, v)). apply Hin. split; [apply Get; exact Hk|]. left. exact (proj1 (Hn k v Hk)).
Qed.
