(** Lemmas about the Object builder. *)
From Coq Require Import Sorted Permutation.
From Verif Require Import Base ModelKeyed SpecKeyed ProofKeyed ModelValue ModelObject SpecObject.

(** *** Applying a diff *)
Lemma two_lists_ind : forall {A B} (P : list A -> list B -> Prop),
  (forall d, P [] d) -> (forall x b, P (x :: b) []) ->
  (forall x b y d, P b (y :: d) -> P (x :: b) d -> P b d -> P (x :: b) (y :: d)) ->
  forall b d, P b d.
Proof.
  intros A B P H1 H2 H3. induction b as [|x b IH]; auto. induction d as [|y d IHd]; auto.
Qed.

Section Merge.
Variables (mf : value -> value -> value) (cd : bool).
Definition keep (y : member) : list member := if negb (is_undef (snd y)) || cd then [y] else [].
Definition keep_eq (x y : member) : list member :=
  if negb (is_undef (snd y)) then [(fst x, mf (snd x) (snd y))] else if cd then [y] else [].

(** The merge without capacities. *)
Fixpoint amerge (b : list member) : list member -> list member :=
  fix inner (d : list member) : list member :=
    match b, d with
    | [], _ => flat_map keep d
    | _, [] => b
    | x :: b', y :: d' =>
      match kcmp (fst x) (fst y) with
      | Lt => x :: amerge b' d
      | Gt => keep y ++ inner d'
      | Eq => keep_eq x y ++ amerge b' d'
      end
    end.

Lemma amerge_nil_l : forall d, amerge [] d = flat_map keep d.
Proof. destruct d; reflexivity. Qed.
Lemma amerge_nil_r : forall x b, amerge (x :: b) [] = x :: b.
Proof. reflexivity. Qed.
Lemma amerge_cons : forall x b y d, amerge (x :: b) (y :: d) =
  match kcmp (fst x) (fst y) with
  | Lt => x :: amerge b (y :: d)
  | Gt => keep y ++ amerge (x :: b) d
  | Eq => keep_eq x y ++ amerge b d
  end.
Proof. reflexivity. Qed.

Lemma apush_app : forall cap acc x, length acc < cap -> apush cap acc x = acc ++ [x].
Proof. intros cap acc x H. unfold apush, cpush. apply Nat.ltb_lt in H. rewrite H. reflexivity. Qed.

Lemma apush_new_app : forall cap acc y, length acc < cap -> apush_new cd cap acc y = acc ++ keep y.
Proof.
  intros cap acc y H. unfold apush_new, keep. rewrite apush_app by auto.
  destruct (is_undef (snd y)), cd; simpl; auto. rewrite app_nil_r. reflexivity.
Qed.

Lemma keep_length : forall y, length (keep y) <= 1.
Proof. intros y. unfold keep. destruct (negb (is_undef (snd y)) || cd); simpl; lia. Qed.
Lemma keep_eq_length : forall x y, length (keep_eq x y) <= 1.
Proof. intros x y. unfold keep_eq. destruct (negb (is_undef (snd y))); [|destruct cd]; simpl; lia. Qed.

Lemma apply_loop_merge : forall cap b d acc, length acc + length b + length d <= cap ->
  apply_loop mf cd cap b acc d = acc ++ amerge b d.
Proof.
  intros cap b d. revert b d.
  apply (two_lists_ind (fun b d => forall acc, length acc + length b + length d <= cap ->
    apply_loop mf cd cap b acc d = acc ++ amerge b d)).
  - intros d acc H. rewrite amerge_nil_l.
    assert (apply_loop mf cd cap [] acc d = fold_left (apush_new cd cap) d acc) as -> by (destruct d; reflexivity).
    revert acc H. induction d as [|y d IH]; intros acc H; simpl in *; [rewrite app_nil_r; reflexivity|].
    rewrite apush_new_app by lia. pose proof (keep_length y). rewrite IH by (rewrite app_length; lia).
    rewrite <- app_assoc. reflexivity.
  - intros x b acc H. rewrite amerge_nil_r.
    assert (apply_loop mf cd cap (x :: b) acc [] = fold_left (apush cap) (x :: b) acc) as -> by reflexivity.
    revert acc H. generalize (x :: b). induction l as [|z l IH]; intros acc H; simpl in *; [rewrite app_nil_r; reflexivity|].
    rewrite apush_app by lia. rewrite IH by (rewrite app_length; simpl; lia). rewrite <- app_assoc. reflexivity.
  - intros x b y d IH1 IH2 IH3 acc H. rewrite amerge_cons. simpl length in H.
    assert (apply_loop mf cd cap (x :: b) acc (y :: d) =
      match kcmp (fst x) (fst y) with
      | Lt => apply_loop mf cd cap b (apush cap acc x) (y :: d)
      | Gt => apply_loop mf cd cap (x :: b) (apush_new cd cap acc y) d
      | Eq => apply_loop mf cd cap b (if negb (is_undef (snd y)) then apush cap acc (fst x, mf (snd x) (snd y))
                    else if cd then apush cap acc y else acc) d
      end) as -> by reflexivity.
    destruct (kcmp (fst x) (fst y)).
    + rewrite !apush_app by lia. rewrite IH3.
      * unfold keep_eq. destruct (negb (is_undef (snd y))); [|destruct cd]; rewrite <- ?app_assoc; reflexivity.
      * destruct (negb (is_undef (snd y))); [|destruct cd]; rewrite ?app_length; simpl; lia.
    + rewrite apush_app by lia. rewrite IH1 by (rewrite app_length; simpl; lia). rewrite <- app_assoc. reflexivity.
    + rewrite apush_new_app by lia. pose proof (keep_length y).
      rewrite IH2 by (rewrite app_length; simpl; lia). rewrite <- app_assoc. reflexivity.
Qed.

Lemma amerge_keys : forall b d m, In m (amerge b d) -> In (fst m) (map fst b) \/ In (fst m) (map fst d).
Proof.
  apply (two_lists_ind (fun b d => forall m, In m (amerge b d) -> In (fst m) (map fst b) \/ In (fst m) (map fst d))).
  - intros d m H. rewrite amerge_nil_l in H. right. apply in_flat_map in H as (y & Hy & H).
    unfold keep in H. destruct (negb (is_undef (snd y)) || cd); [|contradiction]. destruct H as [H|[]]. subst. apply in_map; auto.
  - intros x b m H. rewrite amerge_nil_r in H. left. apply in_map; auto.
  - intros x b y d IH1 IH2 IH3 m H. rewrite amerge_cons in H. destruct (kcmp (fst x) (fst y)) eqn:E.
    + apply in_app_iff in H as [H|H].
      * apply kcmp_eq in E. unfold keep_eq in H.
        destruct (negb (is_undef (snd y))); [|destruct cd]; try (destruct H as [H|[]]); subst; simpl; auto.
        contradiction.
      * apply IH3 in H. simpl. tauto.
    + destruct H as [H|H]; [subst; simpl; auto|]. apply IH1 in H. simpl in *. tauto.
    + apply in_app_iff in H as [H|H].
      * unfold keep in H. destruct (negb (is_undef (snd y)) || cd); [|contradiction]. destruct H as [H|[]]. subst. simpl. auto.
      * apply IH2 in H. simpl in *. tauto.
Qed.

Lemma keys_lb : forall k (l : list member), Forall (fun m => klt k (fst m)) l <-> forall k', In k' (map fst l) -> klt k k'.
Proof.
  intros k l. rewrite Forall_forall. split.
  - intros H k' Hk. apply in_map_iff in Hk as (m & <- & Hm). auto.
  - intros H m Hm. apply H, in_map, Hm.
Qed.

Lemma inc_cons : forall (m : member) l, keys_increasing (m :: l) <->
  keys_increasing l /\ forall k', In k' (map fst l) -> klt (fst m) k'.
Proof. intros [k v] l. rewrite keys_increasing_cons, keys_lb. reflexivity. Qed.

(** What is merged at key [k]. *)
Definition merged (ob od : option value) : option value :=
  match od with
  | None => ob
  | Some v =>
    if negb (is_undef v) then Some (match ob with Some o => mf o v | None => v end)
    else if cd then Some v else None
  end.

Lemma binding_keep : forall k y, binding k (keep y) = if beqb (fst y) k then merged None (Some (snd y)) else None.
Proof.
  intros k [ky vy]. unfold keep, merged. simpl. destruct (is_undef vy), cd; simpl; destruct (beqb ky k); reflexivity.
Qed.
Lemma binding_keep_eq : forall k x y, fst x = fst y ->
  binding k (keep_eq x y) = if beqb (fst y) k then merged (Some (snd x)) (Some (snd y)) else None.
Proof.
  intros k [kx vx] [ky vy] E. unfold keep_eq, merged. simpl in *. subst.
  destruct (is_undef vy), cd; simpl; destruct (beqb ky k); reflexivity.
Qed.

Lemma lb_not_in : forall k (l : list member), (forall k', In k' (map fst l) -> klt k k') -> binding k l = None.
Proof. intros k l H. apply binding_none. intros Hi. exact (klt_irrefl _ (H _ Hi)). Qed.

Lemma amerge_spec : forall b d, keys_increasing b -> keys_increasing d ->
  keys_increasing (amerge b d) /\ forall k, binding k (amerge b d) = merged (binding k b) (binding k d).
Proof.
  apply (two_lists_ind (fun b d => keys_increasing b -> keys_increasing d ->
    keys_increasing (amerge b d) /\ forall k, binding k (amerge b d) = merged (binding k b) (binding k d))).
  - intros d _ Hd. rewrite amerge_nil_l. induction d as [|y d IH]; [split; [constructor|reflexivity]|].
    apply inc_cons in Hd as [Hd Hy]. destruct (IH Hd) as [I1 I2]. cbn [flat_map].
    assert (Hk : forall k', In k' (map fst (flat_map keep d)) -> klt (fst y) k').
    { intros k' Hk. apply in_map_iff in Hk as (m & <- & Hm). rewrite <- amerge_nil_l in Hm.
      apply amerge_keys in Hm as [[]|Hm]. auto. }
    split.
    + unfold keep. destruct (negb (is_undef (snd y)) || cd); simpl; auto. apply inc_cons. auto.
    + intros k. rewrite binding_app, binding_keep, I2. destruct y as [ky vy]. simpl in *.
      destruct (beqb ky k) eqn:E; [|reflexivity]. apply beqb_eq in E. subst ky.
      unfold merged. destruct (is_undef vy); cbn [negb]; [|reflexivity]. destruct cd eqn:Ecd; [reflexivity|].
      rewrite (lb_not_in k d) by auto. reflexivity.
  - intros x b Hb _. rewrite amerge_nil_r. split; auto.
  - intros x b y d IH1 IH2 IH3 Hb Hd. pose proof Hb as Hb0. pose proof Hd as Hd0.
    apply inc_cons in Hb as [Hb Hx]. apply inc_cons in Hd as [Hd Hy].
    rewrite amerge_cons. destruct (kcmp (fst x) (fst y)) eqn:E.
    + apply kcmp_eq in E. destruct (IH3 Hb Hd) as [I1 I2].
      assert (Hk : forall k', In k' (map fst (amerge b d)) -> klt (fst y) k').
      { intros k' Hk. apply in_map_iff in Hk as (m & <- & Hm). apply amerge_keys in Hm as [Hm|Hm]; auto.
        rewrite <- E. auto. }
      split.
      * unfold keep_eq. destruct (negb (is_undef (snd y))); [|destruct cd]; simpl; auto; apply inc_cons; auto.
        split; auto. simpl. rewrite E. auto.
      * intros k. rewrite binding_app, binding_keep_eq by auto. rewrite I2.
        destruct x as [kx vx], y as [ky vy]. simpl in *. subst kx.
        destruct (beqb ky k) eqn:Eb; [|reflexivity]. apply beqb_eq in Eb. subst ky.
        unfold merged. destruct (is_undef vy); cbn [negb]; [|reflexivity]. destruct cd eqn:Ecd; [reflexivity|].
        rewrite (lb_not_in k d), (lb_not_in k b) by auto. reflexivity.
    + destruct (IH1 Hb Hd0) as [I1 I2]. split.
      * apply inc_cons. split; auto. intros k' Hk. apply in_map_iff in Hk as (m & <- & Hm).
        apply amerge_keys in Hm as [Hm|Hm]; auto. simpl in Hm. destruct Hm as [Hm|Hm]; [rewrite <- Hm; exact E|].
        eapply klt_trans; [exact E|]. auto.
      * intros k. destruct x as [kx vx]. cbn [binding]. rewrite I2. simpl in *.
        destruct (beqb kx k) eqn:Eb; [|reflexivity]. apply beqb_eq in Eb. subst kx.
        destruct y as [ky vy]. simpl in *.
        replace (beqb ky k) with false by (symmetry; apply beqb_neq; intros ->; exact (klt_irrefl _ E)).
        rewrite (lb_not_in k d); auto. intros k' Hk. eapply klt_trans; [exact E|auto].
    + destruct (IH2 Hb0 Hd) as [I1 I2]. apply kcmp_gt_lt in E.
      assert (Hk : forall k', In k' (map fst (amerge (x :: b) d)) -> klt (fst y) k').
      { intros k' Hk. apply in_map_iff in Hk as (m & <- & Hm). apply amerge_keys in Hm as [Hm|Hm]; auto.
        simpl in Hm. destruct Hm as [Hm|Hm]; [rewrite <- Hm; exact E|]. eapply klt_trans; [exact E|auto]. }
      split.
      * unfold keep. destruct (negb (is_undef (snd y)) || cd); simpl; auto. apply inc_cons. auto.
      * intros k. rewrite binding_app, binding_keep, I2. destruct y as [ky vy]. simpl fst in *. simpl snd.
        change (binding k ((ky, vy) :: d)) with (if beqb ky k then Some vy else binding k d).
        destruct (beqb ky k) eqn:Eb; [|reflexivity]. apply beqb_eq in Eb. subst ky.
        assert (binding k (x :: b) = None) as ->.
        { apply lb_not_in. intros k' [Hk'|Hk']; [rewrite <- Hk'; exact E|]. eapply klt_trans; [exact E|auto]. }
        unfold merged. destruct (is_undef vy); cbn [negb]; [|reflexivity]. destruct cd eqn:Ecd; [reflexivity|].
        rewrite (lb_not_in k d) by auto. reflexivity.
Qed.

Lemma apply_impl_spec : forall b d, keys_increasing b -> keys_increasing d ->
  keys_increasing (apply_impl mf cd b d) /\
  forall k, binding k (apply_impl mf cd b d) = merged (binding k b) (binding k d).
Proof.
  intros b d Hb Hd. unfold apply_impl. rewrite apply_loop_merge by (simpl; lia). cbn [app].
  apply amerge_spec; auto.
Qed.
End Merge.

(** *** The builder *)
Lemma cassign_id : forall l, cassign (length l) l = l.
Proof.
  intros l. unfold cassign.
  assert (forall (l2 acc : list member) cap, length acc + length l2 <= cap ->
    fold_left (fun acc x => snd (cpush cap acc x)) l2 acc = acc ++ l2) as H.
  { induction l2 as [|x l2 IH]; intros acc cap Hc; simpl in *; [rewrite app_nil_r; reflexivity|].
    unfold cpush at 2. assert (length acc <? cap = true) as -> by (apply Nat.ltb_lt; lia). cbn [snd].
    rewrite IH by (rewrite app_length; simpl; lia). rewrite <- app_assoc. reflexivity. }
  rewrite H by (simpl; lia). reflexivity.
Qed.

Definition ord_list (o : obj) : list member := match o_ordered o with Some (_, l) => l | None => [] end.
Definition unord_list (o : obj) : list member := match o_unordered o with Some (_, l) => l | None => [] end.

Definition overlay (k : bytes) (o : obj) : option value :=
  match last_binding k (unord_list o) with Some v => Some v | None => binding k (ord_list o) end.

(** The builder's invariant. *)
Record inv (o : obj) (s : ospec) : Prop := mkInv {
  i_base : o_base o = s_base s;
  i_over : forall k, overlay k o = last_binding k (s_changes s);
  i_ord : forall d l, o_ordered o = Some (d, l) -> d = true /\ keys_increasing l /\ l <> [];
  i_unord : o_ordered o <> None -> o_unordered o <> None;
  i_cap : forall cap u, o_unordered o = Some (cap, u) -> length u <= cap /\ 1 <= cap;
  i_small : forall cap u, o_unordered o = Some (cap, u) -> o_ordered o = None -> cap <= 8;
  i_ok : base_ok (s_base s)
}.

Lemma overlay_ordered : forall o, (forall d l, o_ordered o = Some (d, l) -> keys_increasing l) -> keys_increasing (ord_list o).
Proof.
  intros o H. unfold ord_list. destruct (o_ordered o) as [[d l]|] eqn:E; [eapply H; eauto|constructor].
Qed.

Lemma optimize_inv : forall o s, inv o s -> inv (obj_optimize o) s.
Proof.
  intros o s [H1 H2 H3 H4 H5 H6 H7]. unfold obj_optimize.
  destruct (o_unordered o) as [[cap u]|] eqn:Eu; [|constructor; auto; rewrite Eu in *; auto].
  destruct (Nat.eqb (length u) 0) eqn:El; [constructor; auto; rewrite Eu in *; auto|].
  destruct (obj_sort_spec u) as [S1 S2].
  assert (Hov : forall k, overlay k o = match last_binding k u with Some v => Some v | None => binding k (ord_list o) end).
  { intros k. unfold overlay, unord_list. rewrite Eu. reflexivity. }
  assert (Hne : exists k v, last_binding k u = Some v).
  { destruct u as [|[k v] u]; [discriminate|].
    destruct (last_binding k ((k, v) :: u)) eqn:E; [eauto|]. apply last_binding_none in E. simpl in E. tauto. }
  destruct (o_ordered o) as [[d l]|] eqn:Eo.
  - destruct (H3 d l eq_refl) as (-> & Hl & Hn).
    destruct (apply_impl_spec default_merge true l (obj_sort u) Hl S1) as [A1 A2].
    assert (A2' : forall k, binding k (apply_impl default_merge true l (obj_sort u)) =
      match last_binding k u with Some v => Some v | None => binding k l end).
    { intros k. rewrite A2, S2. unfold merged, default_merge. destruct (last_binding k u) as [v|]; auto.
      destruct (is_undef v); simpl; [reflexivity|]. destruct (binding k l); reflexivity. }
    constructor; cbn [o_base o_ordered o_unordered]; auto.
    + intros k. unfold overlay, unord_list, ord_list. cbn [o_base o_ordered o_unordered last_binding].
      rewrite A2', <- H2, Hov. unfold ord_list. rewrite Eo. reflexivity.
    + intros d0 l0 E. inversion E; subst. split; auto. split; auto. intros En.
      destruct Hne as (k & v & Hv). specialize (A2' k). rewrite En, Hv in A2'. discriminate.
    + intros _. discriminate.
    + intros cap0 u0 E. inversion E; subst. destruct (H5 _ _ eq_refl). simpl. lia.
    + intros cap0 u0 _ E. discriminate.
  - rewrite cassign_id.
    constructor; cbn [o_base o_ordered o_unordered]; auto.
    + intros k. unfold overlay, unord_list, ord_list. cbn [o_base o_ordered o_unordered last_binding].
      rewrite S2, <- H2, Hov. unfold ord_list. rewrite Eo. destruct (last_binding k u); reflexivity.
    + intros d0 l0 E. inversion E; subst. split; auto. split; auto. intros En.
      destruct Hne as (k & v & Hv). specialize (S2 k). rewrite En, Hv in S2. discriminate.
    + intros _. discriminate.
    + intros cap0 u0 E. inversion E; subst. destruct (H5 _ _ eq_refl). simpl. lia.
    + intros cap0 u0 _ E. discriminate.
Qed.

Lemma optimize_clears : forall o, unord_list (obj_optimize o) = [].
Proof.
  intros o. unfold obj_optimize, unord_list. destruct (o_unordered o) as [[cap u]|] eqn:E; [|rewrite E; reflexivity].
  destruct (Nat.eqb (length u) 0) eqn:El; [|reflexivity]. rewrite E. destruct u; [reflexivity|discriminate].
Qed.

Lemma optimize_base : forall o, o_base (obj_optimize o) = o_base o /\ o_snap (obj_optimize o) = o_snap o.
Proof.
  intros o. unfold obj_optimize. destruct (o_unordered o) as [[cap u]|]; auto.
  destruct (Nat.eqb (length u) 0); auto.
Qed.

Lemma inv_snap : forall o s v, inv o s -> inv (mkObj (o_base o) v (o_ordered o) (o_unordered o)) s.
Proof. intros o s v [H1 H2 H3 H4 H5 H6 H7]. constructor; auto. Qed.

Lemma set_inv : forall o s m, inv o s ->
  inv (fst (obj_set_internal o m)) (spec_add s [m]) /\ snd (obj_set_internal o m) = true /\
  o_snap (fst (obj_set_internal o m)) = VUndef.
Proof.
  intros o s [k v] Hi. unfold obj_set_internal.
  set (cu := match o_unordered o with None => (8, []) | Some cu => cu end).
  assert (Hcu : snd cu = unord_list o /\ length (snd cu) <= fst cu /\ 1 <= fst cu /\ (o_ordered o = None -> fst cu <= 8)).
  { unfold cu, unord_list. destruct (o_unordered o) as [[cap u]|] eqn:E; simpl.
    - pose proof (i_cap _ _ Hi _ _ E). split; auto. split; [lia|]. split; [lia|]. apply (i_small _ _ Hi _ _ E).
    - split; auto. split; [lia|]. split; [lia|]. auto. }
  destruct cu as [cap u]. simpl in Hcu. destruct Hcu as (Eu & Hc1 & Hc2 & Hc3).
  assert (Ecp : cpush cap u (k, v) = if length u <? cap then (true, u ++ [(k, v)]) else (false, u)) by reflexivity.
  rewrite Ecp. clear Ecp. destruct (length u <? cap) eqn:El.
  - apply Nat.ltb_lt in El. cbn [fst snd]. split; [|auto]. destruct Hi as [H1 H2 H3 H4 H5 H6 H7].
    constructor; cbn [o_base o_ordered o_unordered s_base s_changes spec_add]; auto.
    + intros k0. rewrite last_binding_app. unfold overlay, unord_list, ord_list.
      cbn [o_base o_ordered o_unordered]. rewrite last_binding_app. rewrite <- H2. unfold overlay. rewrite <- Eu.
      destruct (last_binding k0 [(k, v)]); reflexivity.
    + intros _. discriminate.
    + intros cap0 u0 E. inversion E; subst. rewrite app_length. simpl. lia.
    + intros cap0 u0 E. inversion E; subst. auto.
  - apply Nat.ltb_ge in El.
    set (o1 := mkObj (o_base o) VUndef (o_ordered o) (Some (cap, u))).
    assert (Hi1 : inv o1 s).
    { destruct Hi as [H1 H2 H3 H4 H5 H6 H7]. constructor; cbn [o_base o_ordered o_unordered]; auto.
      - intros k0. rewrite <- H2. unfold overlay. unfold unord_list at 1. cbn [o_unordered o1]. rewrite Eu. reflexivity.
      - intros _. discriminate.
      - intros cap0 u0 E. inversion E; subst. lia.
      - intros cap0 u0 E. inversion E; subst. auto. }
    pose proof (optimize_inv _ _ Hi1) as Hi2. pose proof (optimize_clears o1) as Hcl.
    set (o2 := obj_optimize o1) in *.
    unfold cpush. assert (length (@nil member) <? length u * 2 = true) as -> by (apply Nat.ltb_lt; simpl; lia).
    cbn [fst snd app]. split; [|auto].
    assert (Ho2 : o_ordered o2 <> None).
    { unfold o2, obj_optimize, o1. cbn [o_unordered o_ordered].
      assert (Nat.eqb (length u) 0 = false) as -> by (apply Nat.eqb_neq; lia). discriminate. }
    destruct Hi2 as [H1 H2 H3 H4 H5 H6 H7].
    constructor; cbn [o_base o_ordered o_unordered s_base s_changes spec_add]; auto.
    + intros k0. rewrite last_binding_app. unfold overlay, unord_list, ord_list.
      cbn [o_base o_ordered o_unordered]. rewrite <- H2. unfold overlay. rewrite Hcl. cbn [last_binding].
      destruct (if beqb k k0 then Some v else None); reflexivity.
    + intros _. discriminate.
    + intros cap0 u0 E. inversion E; subst. simpl. lia.
    + intros cap0 u0 E En. contradiction.
Qed.

Lemma set_all_inv : forall l o s, inv o s -> inv (fold_left obj_set l o) (spec_add s l).
Proof.
  induction l as [|m l IH]; intros o s H.
  - simpl. unfold spec_add. rewrite app_nil_r. destruct s; exact H.
  - cbn [fold_left]. replace (spec_add s (m :: l)) with (spec_add (spec_add s [m]) l).
    + apply IH. apply set_inv; auto.
    + unfold spec_add. cbn [s_base s_changes]. rewrite <- app_assoc. reflexivity.
Qed.

Lemma value_member_binding : forall v k, base_ok v ->
  value_member v k = match binding k (obj_members v) with Some x => x | None => VUndef end.
Proof.
  intros v k H. unfold value_member, obj_members. destruct v; auto. destruct H as [H _].
  rewrite find_member_binding by auto. destruct (binding k l); reflexivity.
Qed.

Lemma scan_back_last : forall u k, scan_back (rev u) k = option_map (fun v => (k, v)) (last_binding k u).
Proof.
  assert (H : forall l k, scan_back l k = option_map (fun v => (k, v)) (last_binding k (rev l))).
  { induction l as [|[k' v] l IH]; intros k; auto. cbn [scan_back rev fst]. rewrite last_binding_app. cbn [last_binding].
    destruct (beqb k' k) eqn:E; [apply beqb_eq in E; subst; reflexivity|]. apply IH. }
  intros u k. rewrite H, rev_involutive. reflexivity.
Qed.

Lemma read_spec : forall o s k, inv o s -> exists o', obj_read o k = Some (o', spec_read s k) /\ inv o' s /\ o_snap o' = o_snap o.
Proof.
  intros o s k Hi. unfold obj_read.
  assert (Hspec : forall v, (overlay k o = Some v -> spec_read s k = v) ) by
    (intros v Hv; unfold spec_read, spec_get; rewrite <- (i_over _ _ Hi), Hv; reflexivity).
  assert (Hbase : overlay k o = None -> spec_read s k = value_member (o_base o) k).
  { intros Hv. unfold spec_read, spec_get. rewrite <- (i_over _ _ Hi), Hv, (i_base _ _ Hi).
    rewrite value_member_binding by (apply (i_ok _ _ Hi)). reflexivity. }
  destruct (o_unordered o) as [[cap u]|] eqn:Eu.
  - assert (Hu : unord_list o = u) by (unfold unord_list; rewrite Eu; reflexivity).
    assert (Ht : exists opt, (if 16 <? length u then
        match o_ordered o with None => None | Some (_, l) => Some (Nat.div (length l) 2 <? length u) end
        else Some false) = Some opt).
    { destruct (16 <? length u) eqn:E16; [|eauto]. apply Nat.ltb_lt in E16.
      destruct (o_ordered o) as [[d l]|] eqn:Eo; [eauto|].
      pose proof (i_cap _ _ Hi _ _ Eu). pose proof (i_small _ _ Hi _ _ Eu Eo). lia. }
    destruct Ht as [opt ->]. cbv zeta. destruct opt.
    + pose proof (optimize_inv _ _ Hi) as Hi2. pose proof (optimize_clears o) as Hcl.
      destruct (optimize_base o) as [Hb1 Hb2].
      set (o2 := obj_optimize o) in *. exists o2.
      assert (Ho : overlay k o = binding k (ord_list o2)).
      { rewrite (i_over _ _ Hi), <- (i_over _ _ Hi2). unfold overlay. rewrite Hcl. reflexivity. }
      split; [|auto]. unfold ord_list in Ho. destruct (o_ordered o2) as [[d l]|] eqn:Eo.
      * rewrite find_member_binding by (apply (i_ord _ _ Hi2 _ _ Eo)).
        destruct (binding k l) as [v|] eqn:Eb; cbn [option_map snd].
        -- rewrite (Hspec v) by auto. reflexivity.
        -- rewrite Hbase by auto. rewrite Hb1. reflexivity.
      * rewrite Hbase by auto. rewrite Hb1. reflexivity.
    + exists o. split; [|auto]. rewrite scan_back_last.
      unfold overlay in Hspec, Hbase. rewrite Hu in Hspec, Hbase.
      destruct (last_binding k u) as [v|] eqn:Elb; cbn [option_map snd].
      * rewrite (Hspec v) by auto. reflexivity.
      * unfold ord_list in Hspec, Hbase. destruct (o_ordered o) as [[d l]|] eqn:Eo.
        -- rewrite find_member_binding by (apply (i_ord _ _ Hi _ _ Eo)).
           destruct (binding k l) as [v|] eqn:Eb; cbn [option_map snd].
           ++ rewrite (Hspec v) by auto. reflexivity.
           ++ rewrite Hbase by auto. reflexivity.
        -- rewrite Hbase by auto. reflexivity.
  - exists o. split; [|auto]. rewrite Hbase; auto. unfold overlay, unord_list, ord_list. rewrite Eu. simpl.
    destruct (o_ordered o) eqn:Eo; auto. exfalso. apply (i_unord _ _ Hi); auto. rewrite Eo. discriminate.
Qed.

Lemma optimize_id : forall o, unord_list o = [] -> obj_optimize o = o.
Proof.
  intros o H. unfold obj_optimize, unord_list in *. destruct (o_unordered o) as [[cap u]|]; auto. subst. reflexivity.
Qed.

Lemma commit_state : forall o, fst (obj_commit o) = obj_optimize o.
Proof.
  intros o. unfold obj_commit, obj_commit_diff. destruct (o_ordered (obj_optimize o)); [|reflexivity].
  cbn [fst]. apply optimize_id, optimize_clears.
Qed.

(** What commit produces. *)
Lemma commit_value : forall o s, inv o s ->
  snd (obj_commit o) =
    if match s_changes s with [] => true | _ => false end then s_base s
    else match s_base s with
         | VObj bd bl => VObj bd (apply_impl default_merge bd bl (ord_list (obj_optimize o)))
         | _ => VObj false (apply_impl default_merge false [] (ord_list (obj_optimize o)))
         end.
Proof.
  intros o s Hi. pose proof (optimize_inv _ _ Hi) as Hi2. pose proof (optimize_clears o) as Hcl.
  unfold obj_commit, obj_commit_diff. rewrite (optimize_id _ Hcl). set (o2 := obj_optimize o) in *.
  destruct (o_ordered o2) as [[d l]|] eqn:Eo.
  - assert (ord_list o2 = l) as El by (unfold ord_list; rewrite Eo; reflexivity).
    destruct (i_ord _ _ Hi2 _ _ Eo) as (-> & Hl & Hn).
    assert (s_changes s <> []) as Hc.
    { intros E. destruct l as [|[k v] l]; [congruence|].
      pose proof (i_over _ _ Hi2 k) as Ho. unfold overlay in Ho. rewrite Hcl, El, E in Ho. cbn in Ho.
      rewrite beqb_refl in Ho. discriminate. }
    cbn [snd]. rewrite (i_base _ _ Hi2). unfold apply_diff, apply_diff_with. rewrite El.
    destruct (s_changes s); [congruence|]. destruct (s_base s); reflexivity.
  - cbn [snd]. rewrite (i_base _ _ Hi2).
    assert (s_changes s = []) as ->; [|reflexivity].
    destruct (s_changes s) as [|[k v] c] eqn:Ec; auto. exfalso.
    destruct (last_binding k ((k, v) :: c)) eqn:E.
    + pose proof (i_over _ _ Hi2 k) as Ho. unfold overlay, ord_list in Ho. rewrite Hcl, Eo, Ec, E in Ho. discriminate.
    + apply last_binding_none in E. simpl in E. tauto.
Qed.

Lemma commit_content : forall o s, inv o s -> committed s (snd (obj_commit o)).
Proof.
  intros o s Hi. rewrite (commit_value _ _ Hi). unfold committed.
  pose proof (optimize_inv _ _ Hi) as Hi2. pose proof (optimize_clears o) as Hcl. set (o2 := obj_optimize o) in *.
  pose proof (i_ok _ _ Hi) as Hok.
  assert (Hd : keys_increasing (ord_list o2)) by (apply overlay_ordered; intros; eapply (i_ord _ _ Hi2); eauto).
  assert (Hdb : forall k, binding k (ord_list o2) = last_binding k (s_changes s)).
  { intros k. rewrite <- (i_over _ _ Hi2). unfold overlay. rewrite Hcl. reflexivity. }
  destruct (s_changes s) as [|c0 cs] eqn:Ec; [reflexivity|].
  set (bl := obj_members (s_base s)) in *. set (bd := is_diff (s_base s)).
  assert (Hbl : keys_increasing bl /\ (bd = false -> forall k v, In (k, v) bl -> is_undef v = false)).
  { unfold bl, bd, obj_members, is_diff. unfold base_ok in Hok. destruct (s_base s); auto;
      (split; [constructor|intros _ ? ? []]). }
  destruct Hbl as [Hbl Hbu].
  assert (Hv : match s_base s with
       | VObj bd bl => VObj bd (apply_impl default_merge bd bl (ord_list o2))
       | _ => VObj false (apply_impl default_merge false [] (ord_list o2)) end =
       VObj bd (apply_impl default_merge bd bl (ord_list o2))).
  { unfold bl, bd, obj_members, is_diff. destruct (s_base s); auto. }
  rewrite Hv. eexists. split; [reflexivity|].
  destruct (apply_impl_spec default_merge bd bl (ord_list o2) Hbl Hd) as [A1 A2]. split; auto.
  intros k x. assert (Hin : In (k, x) (apply_impl default_merge bd bl (ord_list o2)) <->
    merged default_merge bd (binding k bl) (binding k (ord_list o2)) = Some x).
  { rewrite <- A2. split; [apply in_binding, keys_increasing_nodup; auto|apply binding_in]. }
  rewrite Hin, Hdb. unfold spec_get. rewrite Ec. fold bl. unfold merged.
  destruct (last_binding k (c0 :: cs)) as [v|].
  - unfold default_merge. destruct (is_undef v) eqn:Eu; cbn [negb].
    + destruct bd; (split; [try discriminate; intros E; split; auto|]); intros [E [E2|E2]]; auto; congruence.
    + destruct (binding k bl); (split; [intros E; inversion E; subst; auto|intros [E _]; auto]).
  - split; [|intros [E _]; auto]. intros E. split; auto. destruct bd; [auto|]. left. apply binding_in in E. eauto.
Qed.

Lemma committed_det : forall s v w, committed s v -> committed s w -> v = w.
Proof.
  intros s v w. unfold committed. destruct (s_changes s); [congruence|].
  intros (l1 & -> & S1 & H1) (l2 & -> & S2 & H2). f_equal.
  apply increasing_ext; auto. intros k. destruct (binding k l1) as [x|] eqn:E.
  - apply binding_in, H1, H2, (in_binding _ _ _ (keys_increasing_nodup _ S2)) in E. auto.
  - destruct (binding k l2) as [x|] eqn:E2; auto.
    apply binding_in, H2, H1, (in_binding _ _ _ (keys_increasing_nodup _ S1)) in E2. congruence.
Qed.

Lemma new_inv : forall v, base_ok v -> inv (obj_new v) (mkSpec v []).
Proof.
  intros v H. constructor; cbn [o_base o_ordered o_unordered obj_new s_base s_changes]; auto; try discriminate; try congruence.
Qed.

Lemma empty_ok : base_ok empty_object.
Proof. simpl. split; [constructor|]. intros _ k v []. Qed.

Lemma copy_inv : forall o s snap, inv o s ->
  inv (mkObj (o_base o) snap (o_ordered (obj_optimize o))
       (match o_ordered (obj_optimize o) with Some (_, l) => Some (length l, []) | None => None end)) s.
Proof.
  intros o s snap Hi. pose proof (optimize_inv _ _ Hi) as Hi2. pose proof (optimize_clears o) as Hcl.
  set (o2 := obj_optimize o) in *. destruct Hi2 as [H1 H2 H3 H4 H5 H6 H7].
  constructor; cbn [o_base o_ordered o_unordered]; auto.
  - apply (i_base _ _ Hi).
  - intros k. rewrite <- H2. unfold overlay, unord_list, ord_list. cbn [o_base o_ordered o_unordered].
    unfold unord_list in Hcl. rewrite Hcl. destruct (o_ordered o2) as [[d l]|]; reflexivity.
  - destruct (o_ordered o2) as [[d l]|]; [discriminate|congruence].
  - intros cap u E. destruct (o_ordered o2) as [[d l]|] eqn:Eo; [|discriminate]. inversion E; subst. simpl.
    destruct (H3 _ _ eq_refl) as (_ & _ & Hn). destruct l; [congruence|simpl; lia].
  - intros cap u E En. rewrite En in E. discriminate.
Qed.

Lemma revert_inv : forall b snap, base_ok b -> inv (mkObj b snap None None) (mkSpec b []).
Proof.
  intros b snap H. constructor; cbn [o_base o_ordered o_unordered s_base s_changes]; auto; try discriminate; try congruence.
Qed.

Lemma step_inv : forall x y sx sy op, inv x sx -> inv y sy -> op_ok op ->
  exists x' y', obj_step (x, y) op = Some (x', y') /\
    inv x' (fst (spec_step (sx, sy) op)) /\ inv y' (snd (spec_step (sx, sy) op)).
Proof.
  intros x y sx sy op Hx Hy Hop. destruct op; cbn [obj_step spec_step fst snd].
  - do 2 eexists. split; [reflexivity|]. split; auto. apply set_inv; auto.
  - do 2 eexists. split; [reflexivity|]. split; auto. apply set_inv; auto.
  - do 2 eexists. split; [reflexivity|]. split; auto. apply set_all_inv; auto.
  - do 2 eexists. split; [reflexivity|]. split; auto. apply optimize_inv; auto.
  - destruct (read_spec x sx k Hx) as (x' & -> & Hx' & _). do 2 eexists. split; [reflexivity|]. auto.
  - do 2 eexists. split; [reflexivity|]. split; auto. rewrite commit_state. apply optimize_inv; auto.
  - do 2 eexists. split; [reflexivity|]. split; auto. cbn [obj_commit_diff fst]. apply optimize_inv; auto.
  - do 2 eexists. split; [reflexivity|]. split; auto. unfold obj_iterate. cbn [fst].
    destruct (is_undef (o_snap x)); auto. pose proof (commit_state x) as E.
    destruct (obj_commit x) as [x' v]. simpl in E. subst x'. apply inv_snap, optimize_inv; auto.
  - do 2 eexists. split; [reflexivity|]. split; auto. apply revert_inv, empty_ok.
  - do 2 eexists. split; [reflexivity|]. split; auto. unfold obj_revert. rewrite (i_base _ _ Hx).
    apply revert_inv, (i_ok _ _ Hx).
  - do 2 eexists. split; [reflexivity|]. split; auto. destruct Hx as [H1 H2 H3 H4 H5 H6 H7].
    constructor; cbn [obj_set_base o_base o_ordered o_unordered s_base s_changes]; auto.
  - do 2 eexists. split; [reflexivity|]. split; [apply copy_inv; auto|apply optimize_inv; auto].
  - do 2 eexists. split; [reflexivity|]. split; [|apply new_inv, empty_ok]. apply inv_snap; auto.
  - do 2 eexists. split; [reflexivity|]. split; [apply optimize_inv; auto|apply copy_inv; auto].
  - do 2 eexists. split; [reflexivity|]. auto.
Qed.

Lemma run_inv : forall ops x y sx sy, inv x sx -> inv y sy -> Forall op_ok ops ->
  exists x' y', obj_run (x, y) ops = Some (x', y') /\
    inv x' (fst (spec_run (sx, sy) ops)) /\ inv y' (snd (spec_run (sx, sy) ops)).
Proof.
  induction ops as [|op ops IH]; intros x y sx sy Hx Hy Hops.
  - exists x, y. auto.
  - inversion_clear Hops as [|? ? Hop Hops'].
    destruct (step_inv x y sx sy op Hx Hy Hop) as (x1 & y1 & E & H1 & H2).
    cbn [obj_run]. rewrite E. unfold spec_run. cbn [fold_left]. fold (spec_run (spec_step (sx, sy) op) ops).
    destruct (spec_step (sx, sy) op) as [sx1 sy1]. apply IH; auto.
Qed.

(** *** Iteration snapshots *)
Definition snap_ok (o : obj) (r : option ospec) : Prop :=
  match r with
  | None => o_snap o = VUndef
  | Some s => committed s (o_snap o) /\ is_undef (o_snap o) = false
  end.

Lemma committed_undef : forall s v, committed s v -> is_undef v = true -> s_changes s = [] /\ s_base s = VUndef.
Proof.
  intros s v. unfold committed. destruct (s_changes s).
  - intros -> H. destruct (s_base s); try discriminate. auto.
  - intros (l0 & -> & _) H. discriminate.
Qed.

Lemma iterate_snap : forall o s r, inv o s -> snap_ok o r ->
  snap_ok (fst (obj_iterate o)) (seen_iter s r) /\
  exists v, committed (match r with Some s' => s' | None => s end) v /\ snd (obj_iterate o) = members_of v.
Proof.
  intros o s r Hi Hs. unfold obj_iterate. pose proof (commit_content _ _ Hi) as Hc.
  destruct r as [s'|]; cbn [snap_ok seen_iter] in *.
  - destruct Hs as [H1 H2]. rewrite H2. cbn [fst snd]. split; [split; auto|]. exists (o_snap o). auto.
  - rewrite Hs. cbn [is_undef]. destruct (obj_commit o) as [o' v]. cbn [fst snd o_snap] in *. split; [|eauto].
    destruct (is_undef v) eqn:Ev.
    + destruct (committed_undef _ _ Hc Ev) as [E1 E2]. rewrite E1, E2. destruct v; try discriminate. reflexivity.
    + assert (H : snap_ok {| o_base := o_base o'; o_snap := v; o_ordered := o_ordered o'; o_unordered := o_unordered o' |} (Some s))
        by (split; auto).
      unfold committed in Hc. destruct (s_changes s); [|exact H]. destruct (s_base s); try exact H. subst v. discriminate.
Qed.

Lemma step_snap : forall x y sx sy rx ry op x' y', inv x sx -> inv y sy -> snap_ok x rx -> snap_ok y ry ->
  obj_step (x, y) op = Some (x', y') ->
  snap_ok x' (fst (seen_step (sx, sy) (rx, ry) op)) /\ snap_ok y' (snd (seen_step (sx, sy) (rx, ry) op)).
Proof.
  assert (Hop : forall o r, snap_ok o r -> snap_ok (obj_optimize o) r).
  { intros o r. unfold snap_ok. rewrite (proj2 (optimize_base o)). auto. }
  intros x y sx sy rx ry op x' y' Hx Hy Sx Sy. destruct op; cbn [obj_step seen_step fst snd]; intros E.
  - inversion E; subst. split; auto. apply (set_inv _ _ _ Hx).
  - inversion E; subst. split; auto. apply (set_inv _ _ _ Hx).
  - inversion E; subst. split; auto. unfold obj_merge. destruct (members_of v) as [|m l]; auto.
    cbn [fold_left snap_ok]. unfold obj_set at 2. destruct (set_inv _ _ m Hx) as (Hx' & _ & Hs).
    revert Hx' Hs. generalize (fst (obj_set_internal x m)). generalize (spec_add sx [m]).
    induction l as [|m' l IH]; intros s o Hi Hs; auto. cbn [fold_left]. unfold obj_set at 2.
    destruct (set_inv _ _ m' Hi) as (Hx' & _ & Hs'). eapply IH; eauto.
  - inversion E; subst. auto.
  - destruct (read_spec x sx k Hx) as (x1 & Er & _ & Hsn). rewrite Er in E. inversion E; subst. split; auto.
    unfold snap_ok. rewrite Hsn. exact Sx.
  - inversion E; subst. rewrite commit_state. auto.
  - inversion E; subst. auto.
  - inversion E; subst. split; auto. apply iterate_snap; auto.
  - inversion E; subst. auto.
  - inversion E; subst. auto.
  - inversion E; subst. auto.
  - inversion E; subst. auto.
  - inversion E; subst. split; auto. reflexivity.
  - inversion E; subst. split; [auto|reflexivity].
  - inversion E; subst. auto.
Qed.

Lemma run_snap : forall ops x y sx sy rx ry, inv x sx -> inv y sy -> snap_ok x rx -> snap_ok y ry ->
  Forall op_ok ops ->
  exists x' y', obj_run (x, y) ops = Some (x', y') /\
    inv x' (fst (spec_run (sx, sy) ops)) /\ inv y' (snd (spec_run (sx, sy) ops)) /\
    snap_ok x' (fst (seen_run (sx, sy) (rx, ry) ops)).
Proof.
  induction ops as [|op ops IH]; intros x y sx sy rx ry Hx Hy Sx Sy Hops.
  - exists x, y. auto.
  - inversion_clear Hops as [|? ? Hop Hops'].
    destruct (step_inv x y sx sy op Hx Hy Hop) as (x1 & y1 & E & H1 & H2).
    destruct (step_snap _ _ _ _ _ _ _ _ _ Hx Hy Sx Sy E) as [S1 S2].
    cbn [obj_run seen_run]. rewrite E. unfold spec_run. cbn [fold_left]. fold (spec_run (spec_step (sx, sy) op) ops).
    destruct (spec_step (sx, sy) op) as [sx1 sy1]. destruct (seen_step (sx, sy) (rx, ry) op) as [rx1 ry1].
    apply IH; auto.
Qed.

(** Statements used by PropObject.v. *)
Definition started (b1 b2 : value) : ospec * ospec := (mkSpec b1 [], mkSpec b2 []).

Lemma object_read : forall b1 b2 ops k, base_ok b1 -> base_ok b2 -> Forall op_ok ops ->
  exists x y, obj_run (obj_new b1, obj_new b2) ops = Some (x, y) /\
    exists x', obj_read x k = Some (x', spec_read (fst (spec_run (mkSpec b1 [], mkSpec b2 []) ops)) k).
Proof.
  intros b1 b2 ops k H1 H2 Hops.
  destruct (run_inv ops _ _ _ _ (new_inv b1 H1) (new_inv b2 H2) Hops) as (x & y & E & Hx & _).
  exists x, y. split; auto. destruct (read_spec _ _ k Hx) as (x' & Er & _). eauto.
Qed.

Lemma object_commit : forall b1 b2 ops, base_ok b1 -> base_ok b2 -> Forall op_ok ops ->
  exists x y, obj_run (obj_new b1, obj_new b2) ops = Some (x, y) /\
    committed (fst (spec_run (mkSpec b1 [], mkSpec b2 []) ops)) (snd (obj_commit x)).
Proof.
  intros b1 b2 ops H1 H2 Hops.
  destruct (run_inv ops _ _ _ _ (new_inv b1 H1) (new_inv b2 H2) Hops) as (x & y & E & Hx & _).
  exists x, y. split; auto. apply commit_content; auto.
Qed.

Lemma object_commit_diff : forall b1 b2 ops, base_ok b1 -> base_ok b2 -> Forall op_ok ops ->
  exists x y, obj_run (obj_new b1, obj_new b2) ops = Some (x, y) /\
    let s := fst (spec_run (mkSpec b1 [], mkSpec b2 []) ops) in
    exists l, members_of (snd (obj_commit_diff x)) = l /\ keys_increasing l /\
      forall k v, In (k, v) l <-> last_binding k (s_changes s) = Some v.
Proof.
  intros b1 b2 ops H1 H2 Hops.
  destruct (run_inv ops _ _ _ _ (new_inv b1 H1) (new_inv b2 H2) Hops) as (x & y & E & Hx & _).
  exists x, y. split; auto. cbv zeta. eexists. split; [reflexivity|].
  pose proof (optimize_inv _ _ Hx) as Hi2. pose proof (optimize_clears x) as Hcl.
  unfold obj_commit_diff. cbn [snd]. set (o2 := obj_optimize x) in *.
  assert (members_of match o_ordered o2 with Some (d, l) => VObj d l | None => empty_object end = ord_list o2) as ->.
  { unfold ord_list. destruct (o_ordered o2) as [[d l]|]; reflexivity. }
  assert (Hd : keys_increasing (ord_list o2)) by (apply overlay_ordered; intros; eapply (i_ord _ _ Hi2); eauto).
  split; auto. intros k v. rewrite <- (i_over _ _ Hi2). unfold overlay. rewrite Hcl. cbn [last_binding].
  split; [apply in_binding, keys_increasing_nodup; auto|apply binding_in].
Qed.

Lemma object_of_list : forall l, base_ok (o_base (obj_of_list l)) /\
  forall k v, In (k, v) (obj_members (o_base (obj_of_list l))) <->
    last_binding k (filter (fun m => negb (is_undef (snd m))) l) = Some v.
Proof.
  intros l. unfold obj_of_list. cbn [o_base obj_new base_ok obj_members].
  set (l' := filter (fun m => negb (is_undef (snd m))) l). destruct (obj_sort_spec l') as [S1 S2].
  assert (H : forall k v, In (k, v) (obj_sort l') <-> last_binding k l' = Some v).
  { intros k v. rewrite <- S2. split; [apply in_binding, keys_increasing_nodup; auto|apply binding_in]. }
  split; auto. split; auto. intros _ k v Hin.
  apply obj_sort_in in Hin. unfold l' in Hin. apply filter_In in Hin as [_ Hin]. simpl in Hin.
  apply negb_true_iff in Hin. exact Hin.
Qed.

Lemma object_safe : forall b1 b2 ops, base_ok b1 -> base_ok b2 -> Forall op_ok ops ->
  exists x y, obj_run (obj_new b1, obj_new b2) ops = Some (x, y) /\
    (forall k, obj_read x k <> None) /\ (forall m, snd (obj_set_internal x m) = true) /\
    (forall d l cap u, o_ordered x = Some (d, l) -> o_unordered x = Some (cap, u) ->
       forall m, In m u -> length (apply_impl default_merge true l (obj_sort u)) <= length l + length (obj_sort u) /\
         In (fst m) (map fst (apply_impl default_merge true l (obj_sort u)))).
Proof.
  intros b1 b2 ops H1 H2 Hops.
  destruct (run_inv ops _ _ _ _ (new_inv b1 H1) (new_inv b2 H2) Hops) as (x & y & E & Hx & _).
  exists x, y. split; auto. split; [|split].
  - intros k. destruct (read_spec _ _ k Hx) as (x' & -> & _). discriminate.
  - intros m. apply (set_inv _ _ m Hx).
  - intros d l cap u Eo Eu m Hm. destruct (i_ord _ _ Hx _ _ Eo) as (-> & Hl & _).
    destruct (obj_sort_spec u) as [S1 S2].
    destruct (apply_impl_spec default_merge true l (obj_sort u) Hl S1) as [A1 A2].
    assert (Hk : forall k, In k (map fst u) -> In k (map fst (apply_impl default_merge true l (obj_sort u)))).
    { intros k Hk. destruct (binding k (apply_impl default_merge true l (obj_sort u))) as [v|] eqn:Eb.
      - apply binding_in in Eb. apply in_map_iff. exists (k, v). auto.
      - exfalso. rewrite A2, S2 in Eb. destruct (last_binding k u) as [v|] eqn:El.
        + unfold merged in Eb. destruct (is_undef v); simpl in Eb; destruct (binding k l); discriminate.
        + apply last_binding_none in El. contradiction. }
    split; [|apply Hk, in_map, Hm].
    unfold apply_impl. rewrite apply_loop_merge by (simpl; lia). simpl.
    clear. revert l. generalize (obj_sort u). intros d b. revert b d.
    apply (two_lists_ind (fun b d => length (amerge default_merge true b d) <= length b + length d)).
    + intros d. rewrite amerge_nil_l. induction d as [|y d IH]; simpl; auto.
      rewrite app_length. pose proof (keep_length true y). simpl in IH. lia.
    + intros x0 b. rewrite amerge_nil_r. simpl. lia.
    + intros x0 b y0 d I1 I2 I3. rewrite amerge_cons. destruct (kcmp (fst x0) (fst y0)); rewrite ?app_length; simpl in *.
      * pose proof (keep_eq_length default_merge true x0 y0). lia.
      * lia.
      * pose proof (keep_length true y0). lia.
Qed.

Lemma object_iterate : forall b1 b2 ops, base_ok b1 -> base_ok b2 -> Forall op_ok ops ->
  exists x y, obj_run (obj_new b1, obj_new b2) ops = Some (x, y) /\
    let s := fst (spec_run (mkSpec b1 [], mkSpec b2 []) ops) in
    let r := fst (seen_run (mkSpec b1 [], mkSpec b2 []) (None, None) ops) in
    exists v, committed (match r with Some s' => s' | None => s end) v /\ snd (obj_iterate x) = members_of v.
Proof.
  intros b1 b2 ops H1 H2 Hops.
  destruct (run_snap ops _ _ _ _ None None (new_inv b1 H1) (new_inv b2 H2) eq_refl eq_refl Hops)
    as (x & y & E & Hx & _ & Hs).
  exists x, y. split; auto. cbv zeta. apply iterate_snap; auto.
Qed.

Definition same_state (s : ospec) (r : option ospec) : Prop := match r with None => True | Some s' => s' = s end.

Lemma seen_current_step : forall sx sy rx ry op, same_state sx rx -> same_state sy ry -> ~ keeps_snapshot op ->
  same_state (fst (spec_step (sx, sy) op)) (fst (seen_step (sx, sy) (rx, ry) op)) /\
  same_state (snd (spec_step (sx, sy) op)) (snd (seen_step (sx, sy) (rx, ry) op)).
Proof.
  intros sx sy rx ry op Hx Hy Hk.
  destruct op; cbn [spec_step seen_step fst snd keeps_snapshot] in *; try tauto; try (split; simpl; auto; fail).
  - split; auto. destruct (members_of v); simpl; auto. unfold spec_add. rewrite app_nil_r. destruct sx; auto.
  - split; auto. destruct rx; simpl in *; auto. destruct (s_changes sx); [destruct (s_base sx)|]; simpl; auto.
Qed.

Lemma object_iterate_current : forall b1 b2 ops, base_ok b1 -> base_ok b2 -> Forall op_ok ops ->
  Forall (fun op => ~ keeps_snapshot op) ops ->
  exists x y, obj_run (obj_new b1, obj_new b2) ops = Some (x, y) /\
    snd (obj_iterate x) = members_of (snd (obj_commit x)).
Proof.
  intros b1 b2 ops H1 H2 Hops Hk.
  destruct (run_snap ops _ _ _ _ None None (new_inv b1 H1) (new_inv b2 H2) eq_refl eq_refl Hops)
    as (x & y & E & Hx & _ & Hs).
  exists x, y. split; auto. destruct (iterate_snap _ _ _ Hx Hs) as (_ & v & Hv & ->). f_equal.
  assert (Hsame : same_state (fst (spec_run (mkSpec b1 [], mkSpec b2 []) ops))
      (fst (seen_run (mkSpec b1 [], mkSpec b2 []) (None, None) ops))).
  { clear - Hk. assert (H : forall ops sx sy rx ry, Forall (fun op => ~ keeps_snapshot op) ops ->
        same_state sx rx -> same_state sy ry ->
        same_state (fst (spec_run (sx, sy) ops)) (fst (seen_run (sx, sy) (rx, ry) ops))).
    { clear. induction ops as [|op ops IH]; intros sx sy rx ry Hk Hx Hy; [exact Hx|].
      inversion_clear Hk as [|? ? Hop Hops]. cbn [seen_run]. unfold spec_run. cbn [fold_left].
      fold (spec_run (spec_step (sx, sy) op) ops).
      destruct (seen_current_step sx sy rx ry op Hx Hy Hop) as [A B].
      destruct (spec_step (sx, sy) op) as [sx1 sy1]. destruct (seen_step (sx, sy) (rx, ry) op) as [rx1 ry1].
      apply IH; auto. }
    apply H; auto; exact I. }
  pose proof (commit_content _ _ Hx) as Hc. eapply committed_det; [exact Hv|].
  destruct (fst (seen_run (mkSpec b1 [], mkSpec b2 []) (None, None) ops)); auto. simpl in Hsame. subst. exact Hc.
Qed.

(** A builder is dirty exactly when changes were made. *)
Lemma dirty_changes : forall o s, inv o s -> obj_dirty o = match s_changes s with [] => false | _ => true end.
Proof.
  intros o s Hi. pose proof (i_over _ _ Hi) as Ho. unfold overlay in Ho.
  assert (Hd : obj_dirty o = negb (match ord_list o with [] => true | _ => false end) || negb (match unord_list o with [] => true | _ => false end)).
  { unfold obj_dirty, ord_list, unord_list. destruct (o_ordered o) as [[d [|]]|], (o_unordered o) as [[c [|]]|]; reflexivity. }
  rewrite Hd. destruct (s_changes s) as [|[k v] l] eqn:E.
  - destruct (unord_list o) as [|[k v] u] eqn:Eu.
    + destruct (ord_list o) as [|[k v] u] eqn:Eo; [reflexivity|]. specialize (Ho k). cbn in Ho. rewrite beqb_refl in Ho. discriminate.
    + specialize (Ho k). destruct (last_binding k ((k, v) :: u)) eqn:Eb; [discriminate|]. apply last_binding_none in Eb. cbn in Eb. tauto.
  - specialize (Ho k). destruct (last_binding k ((k, v) :: l)) eqn:Eb.
    + destruct (unord_list o); [|cbn; rewrite orb_true_r; reflexivity]. destruct (ord_list o); [discriminate|reflexivity].
    + apply last_binding_none in Eb. cbn in Eb. tauto.
Qed.

Lemma object_dirty : forall b1 b2 ops, base_ok b1 -> base_ok b2 -> Forall op_ok ops ->
  exists x y, obj_run (obj_new b1, obj_new b2) ops = Some (x, y) /\
    (obj_dirty x = true <-> s_changes (fst (spec_run (mkSpec b1 [], mkSpec b2 []) ops)) <> []).
Proof.
  intros b1 b2 ops H1 H2 Hops.
  destruct (run_inv ops _ _ _ _ (new_inv b1 H1) (new_inv b2 H2) Hops) as (x & y & E & Hx & _).
  exists x, y. split; auto. rewrite (dirty_changes _ _ Hx). destruct (s_changes _); split; congruence.
Qed.
