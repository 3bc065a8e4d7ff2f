(** Lemmas about object diffs. *)
From Verif Require Import Base ModelKeyed SpecKeyed ProofKeyed ModelValue ProofValue ModelObject SpecObject ProofObject
  ModelEq SpecEq ProofEq ModelDiff SpecDiff.

Lemma sets_as_diff_spec : forall c, exists d l, sets_as_diff c = VObj d l /\ keys_increasing l /\
  forall k, binding k l = last_binding k c.
Proof.
  intros c. unfold sets_as_diff.
  pose proof (set_all_inv c _ _ (new_inv empty_object empty_ok)) as Hi. unfold spec_add in Hi. cbn [s_base s_changes app] in Hi.
  set (o := fold_left obj_set c (obj_new empty_object)) in *.
  pose proof (optimize_inv _ _ Hi) as Hi2. pose proof (optimize_clears o) as Hcl.
  unfold obj_commit_diff. cbn [snd]. set (o2 := obj_optimize o) in *.
  assert (Hd : keys_increasing (ord_list o2)) by (apply overlay_ordered; intros; eapply (i_ord _ _ Hi2); eauto).
  assert (Hb : forall k, binding k (ord_list o2) = last_binding k c).
  { intros k. change c with (s_changes {| s_base := empty_object; s_changes := c |}).
    rewrite <- (i_over _ _ Hi2). unfold overlay. rewrite Hcl. reflexivity. }
  unfold ord_list in *. destruct (o_ordered o2) as [[d l]|]; [eauto|]. exists false, []. auto.
Qed.

(** What the change list binds. *)
Definition no_undef (l : list member) : Prop := forall k v, In (k, v) l -> is_undef v = false.

Lemma last_binding_cons_ne : forall A k k' (v : A) l, k' <> k -> last_binding k ((k', v) :: l) = last_binding k l.
Proof.
  intros A k k' v l H. change ((k', v) :: l) with ([(k', v)] ++ l). rewrite last_binding_app. cbn [last_binding].
  apply beqb_neq in H. rewrite H. destruct (last_binding k l); reflexivity.
Qed.
Lemma last_binding_cons_eq : forall A k (v : A) l, last_binding k l = None -> last_binding k ((k, v) :: l) = Some v.
Proof.
  intros A k v l H. change ((k, v) :: l) with ([(k, v)] ++ l). rewrite last_binding_app, H. cbn [last_binding].
  rewrite beqb_refl. reflexivity.
Qed.

Section Loop.
Variable item : member -> member -> list member.

Lemma diff_loop_nil_l : forall d, diff_loop item [] d = d.
Proof. destruct d; reflexivity. Qed.
Lemma diff_loop_nil_r : forall x b, diff_loop item (x :: b) [] = map (fun x => (fst x, VUndef)) (x :: b).
Proof. reflexivity. Qed.
Lemma diff_loop_cons : forall x b y d, diff_loop item (x :: b) (y :: d) =
  match kcmp (fst x) (fst y) with
  | Lt => (fst x, VUndef) :: diff_loop item b (y :: d)
  | Gt => y :: diff_loop item (x :: b) d
  | Eq => item x y ++ diff_loop item b d
  end.
Proof. reflexivity. Qed.

(** [P k]: a key about which [item] behaves: it only mentions its own key. *)
Variable k : bytes.
Hypothesis Hitem : forall x y k', In k' (map fst (item x y)) -> k' = k -> fst x = k /\ fst y = k.

Lemma diff_loop_keys : forall b d, In k (map fst (diff_loop item b d)) -> In k (map fst b) \/ In k (map fst d).
Proof.
  apply (two_lists_ind (fun b d => In k (map fst (diff_loop item b d)) -> In k (map fst b) \/ In k (map fst d))).
  - intros d H. rewrite diff_loop_nil_l in H. auto.
  - intros x b H. rewrite diff_loop_nil_r, map_map in H. auto.
  - intros x b y d I1 I2 I3 H. rewrite diff_loop_cons in H. destruct (kcmp (fst x) (fst y)).
    + rewrite map_app, in_app_iff in H. destruct H as [H|H].
      * destruct (Hitem _ _ _ H eq_refl). left. left. auto.
      * simpl. tauto.
    + destruct H as [H|H]; [left; left; exact H|]. apply I1 in H. simpl in *. tauto.
    + destruct H as [H|H]; [right; left; exact H|]. apply I2 in H. simpl in *. tauto.
Qed.

Lemma binding_inc_none : forall k' (l : list member), (forall k0, In k0 (map fst l) -> klt k' k0) -> binding k' l = None.
Proof. apply lb_not_in. Qed.

Lemma last_none_lb : forall b d k0, k0 = k -> (forall k', In k' (map fst b) -> klt k0 k') ->
  (forall k', In k' (map fst d) -> klt k0 k') -> last_binding k0 (diff_loop item b d) = None.
Proof.
  intros b d k0 -> Hb Hd. apply last_binding_none. intros H. apply diff_loop_keys in H.
  destruct H as [H|H]; [apply Hb in H|apply Hd in H]; exact (klt_irrefl _ H).
Qed.

Lemma diff_loop_binding : forall b d, keys_increasing b -> keys_increasing d ->
  last_binding k (diff_loop item b d) =
  match binding k b, binding k d with
  | Some v, Some w => last_binding k (item (k, v) (k, w))
  | Some _, None => Some VUndef
  | None, r => r
  end.
Proof.
  apply (two_lists_ind (fun b d => keys_increasing b -> keys_increasing d ->
    last_binding k (diff_loop item b d) =
    match binding k b, binding k d with
    | Some v, Some w => last_binding k (item (k, v) (k, w))
    | Some _, None => Some VUndef
    | None, r => r
    end)).
  - intros d _ Hd. rewrite diff_loop_nil_l. cbn [binding]. symmetry. apply binding_last.
    apply keys_increasing_nodup; auto.
  - intros x b Hb _. rewrite diff_loop_nil_r.
    assert (H : forall l : list member, NoDup (map fst l) ->
      last_binding k (map (fun x => (fst x, VUndef)) l) = match binding k l with Some _ => Some VUndef | None => None end).
    { clear. intros l Hl. rewrite <- binding_last by (rewrite map_map; exact Hl).
      induction l as [|[k' v] l IH]; auto. cbn [map binding fst]. destruct (beqb k' k); auto. apply IH. inversion Hl; auto. }
    rewrite H by (apply keys_increasing_nodup; auto). reflexivity.
  - intros x b y d I1 I2 I3 Hb Hd. pose proof Hb as Hb0. pose proof Hd as Hd0.
    apply inc_cons in Hb as [Hb Hx]. apply inc_cons in Hd as [Hd Hy]. destruct x as [kx vx], y as [ky vy].
    rewrite diff_loop_cons. cbn [fst] in *. destruct (kcmp kx ky) eqn:E.
    + apply kcmp_eq in E. subst ky. rewrite last_binding_app, I3 by auto. cbn [binding].
      destruct (beqb kx k) eqn:Ek.
      * apply beqb_eq in Ek. subst kx. rewrite (lb_not_in k b), (lb_not_in k d) by auto. reflexivity.
      * apply beqb_neq in Ek. assert (last_binding k (item (kx, vx) (kx, vy)) = None) as ->.
        { apply last_binding_none. intros H. destruct (Hitem _ _ _ H eq_refl). simpl in *. congruence. }
        destruct (binding k b), (binding k d); auto;
          match goal with |- match ?r with _ => _ end = _ => destruct r; reflexivity end.
    + destruct (bytes_eq_dec kx k) as [->|Hn].
      * rewrite last_binding_cons_eq.
        -- change (binding k ((k, vx) :: b)) with (if beqb k k then Some vx else binding k b). rewrite beqb_refl.
           rewrite (lb_not_in k ((ky, vy) :: d)); auto. intros k' [H|H]; [rewrite <- H; exact E|].
           eapply klt_trans; [exact E|auto].
        -- apply last_none_lb; auto. intros k' [H|H]; [rewrite <- H; exact E|]. eapply klt_trans; [exact E|auto].
      * rewrite last_binding_cons_ne by auto. rewrite I1 by auto.
        change (binding k ((kx, vx) :: b)) with (if beqb kx k then Some vx else binding k b).
        apply beqb_neq in Hn. rewrite Hn. reflexivity.
    + apply kcmp_gt_lt in E. destruct (bytes_eq_dec ky k) as [->|Hn].
      * rewrite last_binding_cons_eq.
        -- change (binding k ((k, vy) :: d)) with (if beqb k k then Some vy else binding k d). rewrite beqb_refl.
           rewrite (lb_not_in k ((kx, vx) :: b)); auto. intros k' [H|H]; [rewrite <- H; exact E|].
           eapply klt_trans; [exact E|auto].
        -- apply last_none_lb; auto. intros k' [H|H]; [rewrite <- H; exact E|]. eapply klt_trans; [exact E|auto].
      * rewrite last_binding_cons_ne by auto. rewrite I2 by auto.
        change (binding k ((ky, vy) :: d)) with (if beqb ky k then Some vy else binding k d).
        apply beqb_neq in Hn. rewrite Hn. reflexivity.
Qed.
End Loop.

Definition plain_item (ne : value -> value -> bool) (x y : member) : list member :=
  if ne (snd y) (snd x) then [y] else [].

Lemma create_diff_zero : forall ne od ol nd nl,
  create_diff ne 0 (VObj od ol) (VObj nd nl) = Some (diff_loop (plain_item ne) ol nl).
Proof. reflexivity. Qed.

(** Version of [diff_loop_binding] with the item restricted to equal keys. *)
Definition guard (item : member -> member -> list member) (x y : member) : list member :=
  if beqb (fst x) (fst y) then item x y else [].

Lemma diff_loop_guard : forall item b d, diff_loop item b d = diff_loop (guard item) b d.
Proof.
  intros item. apply (two_lists_ind (fun b d => diff_loop item b d = diff_loop (guard item) b d)).
  - intros d. rewrite !diff_loop_nil_l. reflexivity.
  - reflexivity.
  - intros x b y d I1 I2 I3. rewrite !diff_loop_cons, I1, I2, I3. destruct (kcmp (fst x) (fst y)) eqn:E; auto.
    unfold guard at 2. apply kcmp_eq in E. rewrite E, beqb_refl. reflexivity.
Qed.

Lemma plain_loop_binding : forall ne k b d, keys_increasing b -> keys_increasing d ->
  last_binding k (diff_loop (plain_item ne) b d) =
  match binding k b, binding k d with
  | Some v, Some w => if ne w v then Some w else None
  | Some _, None => Some VUndef
  | None, r => r
  end.
Proof.
  intros ne k b d Hb Hd. rewrite diff_loop_guard, diff_loop_binding; auto.
  - destruct (binding k b), (binding k d); auto. unfold guard, plain_item. cbn [fst snd]. rewrite beqb_refl.
    destruct (ne v0 v); [|reflexivity]. cbn [last_binding]. rewrite beqb_refl. reflexivity.
  - intros x y k' H ->. unfold guard in H. destruct (beqb (fst x) (fst y)) eqn:E; [|destruct H].
    apply beqb_eq in E. unfold plain_item in H. destruct (ne (snd y) (snd x)); [|destruct H].
    destruct H as [H|[]]. split; congruence.
Qed.

(** Two sorted member lists agree key by key. *)
Lemma increasing_forall2 : forall (R : value -> value -> Prop) l m, keys_increasing l -> keys_increasing m ->
  (forall k, match binding k l, binding k m with
             | Some v, Some w => R v w | None, None => True | _, _ => False end) ->
  Forall2 (fun x y => fst x = fst y /\ R (snd x) (snd y)) l m.
Proof.
  intros R. induction l as [|[k v] l IH]; intros [|[k' v'] m] Hl Hm H.
  - constructor.
  - specialize (H k'). cbn [binding] in H. rewrite beqb_refl in H. destruct H.
  - specialize (H k). cbn [binding] in H. rewrite beqb_refl in H. destruct H.
  - apply inc_cons in Hl as [Hl Hk]. apply inc_cons in Hm as [Hm Hk']. cbn [fst] in *.
    assert (k = k') as <-.
    { destruct (kcmp k k') eqn:E.
      - apply kcmp_eq; auto.
      - exfalso. specialize (H k). cbn [binding] in H. rewrite beqb_refl in H.
        assert (beqb k' k = false) as Hf by (apply beqb_neq; intros ->; exact (klt_irrefl _ E)). rewrite Hf in H.
        rewrite (lb_not_in k m) in H; [exact H|]. intros k0 H0. eapply klt_trans; [exact E|auto].
      - exfalso. apply kcmp_gt_lt in E. specialize (H k'). cbn [binding] in H. rewrite beqb_refl in H.
        assert (beqb k k' = false) as Hf by (apply beqb_neq; intros ->; exact (klt_irrefl _ E)). rewrite Hf in H.
        rewrite (lb_not_in k' l) in H; [exact H|]. intros k0 H0. eapply klt_trans; [exact E|auto]. }
    constructor.
    + specialize (H k). cbn [binding] in H. rewrite beqb_refl in H. auto.
    + apply IH; auto. intros k0. specialize (H k0). cbn [binding] in H.
      destruct (beqb k k0) eqn:E; auto. apply beqb_eq in E. subst k0.
      rewrite (lb_not_in k l), (lb_not_in k m) by auto. exact I.
Qed.

Lemma plain_defined : forall l k v, plain_object l -> binding k l = Some v -> is_undef v = false.
Proof. intros l k v [_ H] E. apply binding_in in E. eauto. Qed.

Lemma diff_apply : forall L ne la lb, ne_ok L ne -> plain_object la -> plain_object lb ->
  exists lr, apply_diff (VObj false la) (diff_of ne 0 (VObj false la) (VObj false lb)) = VObj false lr /\
    keys_increasing lr /\
    Forall2 (fun x y => fst x = fst y /\ (snd x = snd y \/ op_eq L (snd y) (snd x) true)) lr lb.
Proof.
  intros L ne la lb Hne Ha Hb. unfold diff_of. rewrite create_diff_zero.
  destruct (sets_as_diff_spec (diff_loop (plain_item ne) la lb)) as (d & l & -> & Hl & Hbd).
  unfold apply_diff, apply_diff_with. eexists. split; [reflexivity|].
  destruct (apply_impl_spec default_merge false la l (proj1 Ha) Hl) as [A1 A2]. split; auto.
  apply (increasing_forall2 (fun v w => v = w \/ op_eq L w v true)); auto; [apply Hb|].
  intros k. rewrite A2, Hbd, plain_loop_binding by (apply Ha || apply Hb).
  destruct (binding k la) as [v|] eqn:Ea, (binding k lb) as [w|] eqn:Eb; cbn [merged].
  - pose proof (plain_defined _ _ _ Hb Eb) as Hu. destruct (ne w v) eqn:En; cbn [merged].
    + rewrite Hu. cbn [negb]. auto.
    + right. specialize (Hne w v). rewrite En in Hne. exact Hne.
  - reflexivity || exact I.
  - pose proof (plain_defined _ _ _ Hb Eb) as Hu. rewrite Hu. cbn [negb]. auto.
  - exact I.
Qed.

Lemma diff_apply_equal : forall L ne la lb, ne_ok L ne -> plain_object la -> plain_object lb ->
  proper L (VObj false la) -> proper L (VObj false lb) ->
  veq L (apply_diff (VObj false la) (diff_of ne 0 (VObj false la) (VObj false lb))) (VObj false lb) = true.
Proof.
  intros L ne la lb Hne Ha Hb Pa Pb. unfold diff_of. rewrite create_diff_zero.
  destruct (sets_as_diff_spec (diff_loop (plain_item ne) la lb)) as (d & l & -> & Hl & Hbd).
  unfold apply_diff, apply_diff_with.
  destruct (apply_impl_spec default_merge false la l (proj1 Ha) Hl) as [A1 A2].
  set (lr := apply_impl default_merge false la l) in *. rewrite (veq_obj L false false).
  assert (HF : Forall2 (fun x y => fst x = fst y /\ veq L (snd x) (snd y) = true) lr lb).
  { apply (increasing_forall2 (fun v w => veq L v w = true)); auto; [apply Hb|].
    intros k. rewrite A2, Hbd, plain_loop_binding by (apply Ha || apply Hb).
    assert (Hp : forall l0 v, proper L (VObj false l0) -> binding k l0 = Some v -> proper L v).
    { intros l0 v Hp Hin. apply binding_in in Hin. apply proper_obj in Hp. rewrite Forall_forall in Hp.
      apply (Hp _ Hin). }
    destruct (binding k la) as [v|] eqn:Ea, (binding k lb) as [w|] eqn:Eb; cbn [merged].
    - pose proof (plain_defined _ _ _ Hb Eb) as Hu. destruct (ne w v) eqn:En; cbn [merged].
      + rewrite Hu. cbn [negb]. apply veq_refl. eauto.
      + specialize (Hne w v). rewrite En in Hne. rewrite veq_sym. symmetry.
        eapply (proj2 (op_eq_veq L w v (Hp lb w Pb Eb) (Hp la v Pa Ea))). exact Hne.
    - exact I.
    - pose proof (plain_defined _ _ _ Hb Eb) as Hu. rewrite Hu. cbn [negb]. apply veq_refl. eauto.
    - exact I. }
  clear - HF. induction HF as [|x y l1 m1 [H1 H2] _ IH]; auto. cbn [veq_items negb orb].
  rewrite H1, beqb_refl, H2. exact IH.
Qed.

Lemma diff_self : forall L ne la, ne_ok L ne -> proper L (VObj false la) -> plain_object la ->
  create_diff ne 0 (VObj false la) (VObj false la) = Some [] /\
  diff_of ne 0 (VObj false la) (VObj false la) = empty_object.
Proof.
  intros L ne la Hne Hp Ha.
  assert (H : diff_loop (plain_item ne) la la = []).
  { apply proper_obj in Hp. clear Ha. induction Hp as [|x l Hx _ IH]; auto.
    rewrite diff_loop_cons, kcmp_refl, IH. unfold plain_item. specialize (Hne (snd x) (snd x)).
    apply (op_eq_veq L (snd x) (snd x) Hx Hx) in Hne. rewrite veq_refl in Hne by auto.
    destruct (ne (snd x) (snd x)); [discriminate|reflexivity]. }
  unfold diff_of. rewrite create_diff_zero, H. split; reflexivity.
Qed.

(** *** Recursive diffs *)
Definition rec_item (ne : value -> value -> bool) (r : nat) (x y : member) : list member :=
  match create_diff ne r (snd x) (snd y) with
  | Some c => [([], sets_as_diff c)]
  | None => plain_item ne x y
  end.

Lemma create_diff_succ : forall ne r od ol nd nl,
  create_diff ne (S r) (VObj od ol) (VObj nd nl) = Some (diff_loop (rec_item ne r) ol nl).
Proof. reflexivity. Qed.

Lemma rec_loop_binding : forall ne r k b d, k <> [] -> keys_increasing b -> keys_increasing d ->
  last_binding k (diff_loop (rec_item ne r) b d) =
  match binding k b, binding k d with
  | Some (VObj _ _), Some (VObj _ _) => None
  | Some v, Some w => if ne w v then Some w else None
  | Some _, None => Some VUndef
  | None, r => r
  end.
Proof.
  intros ne r k b d Hk Hb Hd. rewrite diff_loop_guard, diff_loop_binding; auto.
  - destruct (binding k b) as [v|], (binding k d) as [w|]; auto; [|destruct v; reflexivity]. unfold guard. cbn [fst snd]. rewrite beqb_refl.
    unfold rec_item, plain_item. cbn [fst snd].
    assert (Hpl : last_binding k (if ne w v then [(k, w)] else []) = if ne w v then Some w else None).
    { destruct (ne w v); [|reflexivity]. cbn [last_binding]. rewrite beqb_refl. reflexivity. }
    destruct v; try (destruct r; exact Hpl). destruct w; try (destruct r; exact Hpl).
    destruct (create_diff ne r (VObj diff l) (VObj diff0 l0)) as [c|] eqn:E; [|destruct r; discriminate].
    cbn [last_binding]. assert (beqb [] k = false) as -> by (apply beqb_neq; congruence). reflexivity.
  - intros x y k' H ->. unfold guard in H. destruct (beqb (fst x) (fst y)) eqn:E; [|destruct H].
    apply beqb_eq in E. unfold rec_item, plain_item in H.
    destruct (create_diff ne r (snd x) (snd y)); [destruct H as [H|[]]; simpl in H; congruence|].
    destruct (ne (snd y) (snd x)); [|destruct H]. destruct H as [H|[]]. split; congruence.
Qed.

(** A change inside a nested object is lost. *)
Lemma recursive_diff_keeps_old : forall ne r la lb k oa ob da db mf, k <> [] ->
  plain_object la -> plain_object lb -> binding k la = Some (VObj da oa) -> binding k lb = Some (VObj db ob) ->
  exists lr, apply_diff_with mf (VObj false la) (diff_of ne (S r) (VObj false la) (VObj false lb)) = VObj false lr /\
    binding k lr = Some (VObj da oa).
Proof.
  intros ne r la lb k oa ob da db mf Hk Ha Hb Ea Eb. unfold diff_of. rewrite create_diff_succ.
  destruct (sets_as_diff_spec (diff_loop (rec_item ne r) la lb)) as (d & l & -> & Hl & Hbd).
  unfold apply_diff_with. eexists. split; [reflexivity|].
  destruct (apply_impl_spec mf false la l (proj1 Ha) Hl) as [A1 A2].
  rewrite A2, Hbd, rec_loop_binding, Ea, Eb by (auto; apply Ha || apply Hb). reflexivity.
Qed.

(** Where a key holds an object on both sides, the change list sets an object
    under the empty key, and nothing else there unless a side has that key. *)
Lemma rec_loop_empty : forall ne r b d, binding [] b = None -> binding [] d = None ->
  forall v, In ([], v) (diff_loop (rec_item ne r) b d) -> exists dd l, v = VObj dd l.
Proof.
  intros ne r. apply (two_lists_ind (fun b d => binding [] b = None -> binding [] d = None ->
    forall v, In ([], v) (diff_loop (rec_item ne r) b d) -> exists dd l, v = VObj dd l)).
  - intros d _ Hd v H. rewrite diff_loop_nil_l in H. apply binding_none in Hd. elim Hd.
    apply (in_map fst) in H. exact H.
  - intros x b Hb _ v H. rewrite diff_loop_nil_r in H. apply binding_none in Hb. elim Hb.
    apply (in_map fst) in H. rewrite map_map in H. exact H.
  - intros [kx vx] b [ky vy] d I1 I2 I3 Hb Hd v H. rewrite diff_loop_cons in H. cbn [fst] in H.
    pose proof Hb as Hb0. pose proof Hd as Hd0. cbn [binding] in Hb, Hd.
    destruct (beqb kx []) eqn:Ex; [discriminate|]. destruct (beqb ky []) eqn:Ey; [discriminate|].
    apply beqb_neq in Ex, Ey. destruct (kcmp kx ky).
    + apply in_app_iff in H. destruct H as [H|H]; [|eapply I3; eauto].
      unfold rec_item, plain_item in H. cbn [fst snd] in H. destruct (create_diff ne r vx vy) as [c|].
      * destruct H as [H|[]]. inversion H; subst. destruct (sets_as_diff_spec c) as (dd & l & -> & _). eauto.
      * destruct (ne vy vx); [|destruct H]. destruct H as [H|[]]. congruence.
    + destruct H as [H|H]; [congruence|]. eapply I1; eauto.
    + destruct H as [H|H]; [congruence|]. eapply I2; eauto.
Qed.

Lemma rec_loop_sets : forall ne r k da oa db ob b d, keys_increasing b -> keys_increasing d ->
  In (k, VObj da oa) b -> In (k, VObj db ob) d ->
  In [] (map fst (diff_loop (rec_item ne r) b d)).
Proof.
  intros ne r k da oa db ob. apply (two_lists_ind (fun b d => keys_increasing b -> keys_increasing d ->
    In (k, VObj da oa) b -> In (k, VObj db ob) d -> In [] (map fst (diff_loop (rec_item ne r) b d)))).
  - intros d _ _ [].
  - intros x b _ _ _ [].
  - intros [kx vx] b [ky vy] d I1 I2 I3 Hb Hd Ha Hc. pose proof Hb as Hb0. pose proof Hd as Hd0.
    apply inc_cons in Hb as [Hb Hx]. apply inc_cons in Hd as [Hd Hy]. rewrite diff_loop_cons. cbn [fst] in *.
    destruct (kcmp kx ky) eqn:E.
    + apply kcmp_eq in E. subst ky. rewrite map_app, in_app_iff.
      destruct Ha as [Ha|Ha]; [|destruct Hc as [Hc|Hc]].
      * inversion Ha; subst. destruct Hc as [Hc|Hc].
        -- inversion Hc; subst. left. unfold rec_item. cbn [snd]. destruct r; left; reflexivity.
        -- apply (in_map fst), Hy in Hc. elim (klt_irrefl _ Hc).
      * inversion Hc; subst. apply (in_map fst), Hx in Ha. elim (klt_irrefl _ Ha).
      * right. auto.
    + right. apply I1; auto. destruct Ha as [Ha|Ha]; [|exact Ha]. inversion Ha; subst.
      destruct Hc as [Hc|Hc]; [inversion Hc; subst; elim (klt_irrefl _ E)|].
      apply (in_map fst), Hy in Hc. elim (klt_irrefl k). eapply klt_trans; [exact E|exact Hc].
    + apply kcmp_gt_lt in E. right. apply I2; auto. destruct Hc as [Hc|Hc]; [|exact Hc]. inversion Hc; subst.
      destruct Ha as [Ha|Ha]; [inversion Ha; subst; elim (klt_irrefl _ E)|].
      apply (in_map fst), Hx in Ha. elim (klt_irrefl k). eapply klt_trans; [exact E|exact Ha].
Qed.

Lemma recursive_diff_adds_key : forall ne r la lb k oa ob da db mf,
  plain_object la -> plain_object lb -> binding [] la = None -> binding [] lb = None ->
  binding k la = Some (VObj da oa) -> binding k lb = Some (VObj db ob) ->
  exists lr d l, apply_diff_with mf (VObj false la) (diff_of ne (S r) (VObj false la) (VObj false lb)) = VObj false lr /\
    binding [] lr = Some (VObj d l) /\ forall L, veq L (VObj false lr) (VObj false lb) = false.
Proof.
  intros ne r la lb k oa ob da db mf Ha Hb Na Nb Ea Eb. unfold diff_of. rewrite create_diff_succ.
  destruct (sets_as_diff_spec (diff_loop (rec_item ne r) la lb)) as (d & l & -> & Hl & Hbd).
  assert (Hs : exists dd ll, last_binding [] (diff_loop (rec_item ne r) la lb) = Some (VObj dd ll)).
  { destruct (last_binding [] (diff_loop (rec_item ne r) la lb)) as [v|] eqn:E.
    - apply last_binding_in in E. destruct (rec_loop_empty ne r la lb Na Nb v E) as (dd & ll & ->). eauto.
    - apply last_binding_none in E. elim E. eapply rec_loop_sets; try apply Ha; try apply Hb; eapply binding_in; eauto. }
  destruct Hs as (dd & ll & Hs). unfold apply_diff_with.
  destruct (apply_impl_spec mf false la l (proj1 Ha) Hl) as [A1 A2].
  eexists. exists dd, ll. split; [reflexivity|].
  assert (Hr : binding [] (apply_impl mf false la l) = Some (VObj dd ll)).
  { rewrite A2, Hbd, Hs, Na. reflexivity. }
  split; [exact Hr|]. intros L. destruct (veq L _ _) eqn:E; [|reflexivity]. exfalso.
  rewrite (veq_obj L false false) in E. revert E Hr Nb. generalize (apply_impl mf false la l) as m. clear.
  induction lb as [|[kb vb] lb IH]; intros [|[km vm] m] E Hr Nb; try discriminate. cbn in E.
  apply andb_prop in E as [E E2]. apply andb_prop in E as [E1 _]. apply beqb_eq in E1. cbn [fst] in E1. subst km.
  cbn [binding] in Hr, Nb. destruct (beqb kb []); [discriminate|]. eapply IH; eauto.
Qed.

Lemma diff_loop_ext : forall i1 i2 b d,
  (forall x y, In x b -> In y d -> fst x = fst y -> i1 x y = i2 x y) -> diff_loop i1 b d = diff_loop i2 b d.
Proof.
  intros i1 i2. apply (two_lists_ind (fun b d => (forall x y, In x b -> In y d -> fst x = fst y -> i1 x y = i2 x y) ->
    diff_loop i1 b d = diff_loop i2 b d)).
  - intros d _. rewrite !diff_loop_nil_l. reflexivity.
  - reflexivity.
  - intros x b y d I1 I2 I3 H. rewrite !diff_loop_cons. destruct (kcmp (fst x) (fst y)) eqn:E.
    + rewrite I3 by (intros; apply H; auto; right; auto). rewrite H; auto; try (left; reflexivity). apply kcmp_eq; auto.
    + rewrite I1; auto. intros; apply H; auto. right; auto.
    + rewrite I2; auto. intros; apply H; auto. right; auto.
Qed.

(** Without a common key that holds objects on both sides the limit is irrelevant. *)
Lemma recursive_diff_flat : forall ne r la lb,
  (forall k d1 l1 d2 l2, In (k, VObj d1 l1) la -> In (k, VObj d2 l2) lb -> False) ->
  diff_of ne r (VObj false la) (VObj false lb) = diff_of ne 0 (VObj false la) (VObj false lb).
Proof.
  intros ne [|r] la lb H; [reflexivity|]. unfold diff_of. rewrite create_diff_succ, create_diff_zero.
  f_equal. apply diff_loop_ext. intros [kx vx] [ky vy] Hx Hy E. cbn [fst snd] in *. subst ky.
  unfold rec_item. cbn [snd]. destruct r, vx; cbn [create_diff]; try reflexivity; destruct vy; try reflexivity;
    exfalso; eapply H; eauto.
Qed.

(** *** recursiveMerge *)
Lemma apply_impl_ext : forall f g cd b d,
  (forall x y, In y d -> f x (snd y) = g x (snd y)) -> apply_impl f cd b d = apply_impl g cd b d.
Proof.
  intros f g cd b d H. unfold apply_impl. rewrite !apply_loop_merge by (simpl; lia). f_equal.
  revert b d H. apply (two_lists_ind (fun b d => (forall x y, In y d -> f x (snd y) = g x (snd y)) ->
    amerge f cd b d = amerge g cd b d)).
  - intros d H. rewrite !amerge_nil_l. reflexivity.
  - reflexivity.
  - intros x b y d I1 I2 I3 H. rewrite !amerge_cons. destruct (kcmp (fst x) (fst y)).
    + rewrite I3 by (intros; apply H; right; auto). unfold keep_eq. rewrite H by (left; auto). reflexivity.
    + rewrite I1; auto.
    + rewrite I2; auto. intros; apply H; right; auto.
Qed.

Lemma vdepth_in : forall d l m, In m l -> vdepth (snd m) < vdepth (VObj d l).
Proof.
  intros d l m H. cbn [vdepth]. induction l as [|x l IH]; [destruct H|]. destruct H as [H|H].
  - subst. cbn [fold_right]. lia.
  - apply IH in H. cbn [fold_right]. lia.
Qed.

Lemma rmerge_fuel : forall d f g b, vdepth d <= f -> vdepth d <= g -> rmerge f b d = rmerge g b d.
Proof.
  intros d. remember (vdepth d) as n eqn:En. assert (Hn : vdepth d <= n) by lia. clear En. revert d Hn.
  induction n as [|n IH]; intros d Hn f g b Hf Hg.
  - destruct d as [| | | | | |dd dl]; try (destruct f, g, b; reflexivity). cbn [vdepth] in Hn. lia.
  - destruct d as [| | | | | |dd dl]; try (destruct f, g, b; reflexivity).
    destruct f as [|f]; [lia|]. destruct g as [|g]; [lia|]. destruct b; try reflexivity. cbn [rmerge]. f_equal.
    apply apply_impl_ext. intros x y Hy. pose proof (vdepth_in dd dl y Hy). apply IH; lia.
Qed.

(** The loop of line 21-22 as an equation, without the bound. *)
Lemma recursive_merge_eq : forall bd bl dd dl,
  recursive_merge (VObj bd bl) (VObj dd dl) = VObj bd (apply_impl recursive_merge bd bl dl).
Proof.
  intros. unfold recursive_merge at 1. cbn [rmerge]. f_equal. apply apply_impl_ext. intros x y Hy.
  pose proof (vdepth_in dd dl y Hy). apply rmerge_fuel; lia.
Qed.

Lemma recursive_merge_other : forall b d, (match b, d with VObj _ _, VObj _ _ => False | _, _ => True end) ->
  recursive_merge b d = d.
Proof. intros b d H. destruct b; try reflexivity; destruct d; try reflexivity. contradiction. Qed.

Lemma recursive_merge_members : forall bl dl, keys_increasing bl -> keys_increasing dl ->
  exists lr, recursive_merge (VObj false bl) (VObj true dl) = VObj false lr /\ keys_increasing lr /\
  forall k, binding k lr =
    match binding k dl with
    | None => binding k bl
    | Some VUndef => None
    | Some v => Some (match binding k bl with Some o => recursive_merge o v | None => v end)
    end.
Proof.
  intros bl dl Hb Hd. rewrite recursive_merge_eq. eexists. split; [reflexivity|].
  destruct (apply_impl_spec recursive_merge false bl dl Hb Hd) as [A1 A2]. split; auto.
  intros k. rewrite A2. unfold merged. destruct (binding k dl) as [v|]; auto. destruct v; reflexivity.
Qed.
