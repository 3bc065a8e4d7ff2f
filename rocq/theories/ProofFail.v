(** Proofs about builders when memory runs out. *)
From Verif Require Import Base ModelKeyed SpecKeyed ModelValue ModelObject SpecObject ProofKeyed ProofObject
  ModelArray SpecArray ProofArray ModelFail SpecFail.

Lemma nth_in : forall A (l : list A) n x, nth_error l n = Some x -> In x l.
Proof. intros A l n x H. eapply nth_error_In; eauto. Qed.
Lemma failing_in : forall A (l : list A) n x, failing l n = Some x -> In x l.
Proof. intros A l [n|] x H; [eapply nth_in; eauto|discriminate]. Qed.

Lemma sort_length : forall u : list member, length (obj_sort u) <= length u.
Proof.
  intros u. apply NoDup_incl_length.
  - destruct (obj_sort_spec u) as [S1 _]. apply keys_increasing_nodup in S1. eapply NoDup_map_inv; exact S1.
  - intros m. apply obj_sort_in.
Qed.
Lemma sort_last : forall (u : list member) k, last_binding k (obj_sort u) = last_binding k u.
Proof.
  intros u k. destruct (obj_sort_spec u) as [S1 S2]. rewrite <- S2. symmetry. apply binding_last, keys_increasing_nodup. exact S1.
Qed.

(** A request that fails inside an operation leaves a builder of the same meaning. *)
Lemma optimize_points_inv : forall o s o', inv o s -> In o' (optimize_points o) -> inv o' s.
Proof.
  intros o s o' [H1 H2 H3 H4 H5 H6 H7] I. unfold optimize_points in I.
  destruct (o_unordered o) as [[cap u]|] eqn:Eu; [|destruct I]. destruct (Nat.eqb (length u) 0); [destruct I|].
  destruct I as [<-|[]]. constructor; cbn [o_base o_ordered o_unordered]; auto.
  - intros k. rewrite <- H2. unfold overlay, unord_list, ord_list. cbn [o_base o_ordered o_unordered]. rewrite Eu, sort_last. reflexivity.
  - intros _. discriminate.
  - intros c u' E. inversion E; subst. pose proof (sort_length u). destruct (H5 _ _ eq_refl). lia.
  - intros c u' E N. inversion E; subst. apply (H6 c u eq_refl N).
Qed.
Lemma set_points_inv : forall o s o', inv o s -> In o' (set_points o) -> inv o' s.
Proof.
  intros o s o' H I. unfold set_points in I. pose proof (inv_snap o s VUndef H) as H1.
  destruct (o_unordered o) as [[cap u]|] eqn:Eu.
  - destruct (length u <? cap); [destruct I|]. destruct I as [<-|I]; [exact H1|]. exact (optimize_points_inv _ _ _ H1 I).
  - destruct I as [<-|[]]. exact H1.
Qed.
Lemma commit_points_inv : forall o s o', inv o s -> In o' (commit_points o) -> inv o' s.
Proof.
  intros o s o' H I. unfold commit_points in I. apply in_app_or in I. destruct I as [I|I]; [eapply optimize_points_inv; eauto|].
  destruct (o_ordered (obj_optimize o)); [|destruct I]. destruct I as [<-|[]]. apply optimize_inv. exact H.
Qed.
Lemma read_points_inv : forall o s o', inv o s -> In o' (read_points o) -> inv o' s.
Proof.
  intros o s o' H I. unfold read_points in I. destruct (o_unordered o) as [[c u]|] eqn:E1; [|destruct I].
  destruct (o_ordered o) as [[d l]|] eqn:E2; [|destruct I].
  destruct ((16 <? length u) && (Nat.div (length l) 2 <? length u)); [|destruct I]. eapply optimize_points_inv; eauto.
Qed.
Lemma merge_points_inv : forall l o s o', inv o s -> In o' (merge_points o l) ->
  exists n, n < length l /\ inv o' (spec_add s (firstn n l)).
Proof.
  induction l as [|m l IH]; intros o s o' H I; [destruct I|]. cbn [merge_points] in I. apply in_app_or in I. destruct I as [I|I].
  - exists 0. split; [cbn; lia|]. cbn [firstn]. unfold spec_add. rewrite app_nil_r. destruct s. exact (set_points_inv _ _ _ H I).
  - destruct (set_inv o s m H) as [H1 _]. fold (obj_set o m) in H1.
    destruct (IH (obj_set o m) (spec_add s [m]) o' H1 I) as (n & L & Q). exists (S n). split; [cbn; lia|].
    cbn [firstn]. unfold spec_add in *. cbn [s_base s_changes] in Q. rewrite <- app_assoc in Q. exact Q.
Qed.

Lemma try_inv : forall x y sx sy op n, inv x sx -> inv y sy -> op_ok op -> assigned_well (op, n) ->
  exists x' y' t, obj_try (x, y) op n = Some ((x', y'), t) /\
    ((t = false /\ obj_step (x, y) op = Some (x', y') /\ inv x' (fst (spec_step (sx, sy) op)) /\ inv y' (snd (spec_step (sx, sy) op))) \/
     (t = true /\ (forall v, op <> OMerge v) /\ inv x' sx /\ inv y' sy) \/
     (t = true /\ exists v i, op = OMerge v /\ i < length (members_of v) /\ inv x' (spec_add sx (firstn i (members_of v))) /\ inv y' sy)).
Proof.
  intros x y sx sy op n Hx Hy O A. destruct (step_inv x y sx sy op Hx Hy O) as (x1 & y1 & E & I1 & I2).
  unfold obj_try. rewrite E. destruct (failing (obj_points (x, y) op) n) as [[x' y']|] eqn:F.
  2:{ exists x1, y1, false. split; [reflexivity|]. left. auto. }
  exists x', y', true. split; [reflexivity|]. right.
  assert (N : op = OAssign -> False) by (intros ->; pose proof (A eq_refl) as E0; cbn in E0; subst n; discriminate).
  apply failing_in in F.
  assert (M : forall l, In (x', y') (map (fun z => (z, y)) l) -> In x' l /\ y' = y).
  { intros l H. apply in_map_iff in H. destruct H as (z & E1 & H). inversion E1; subst. auto. }
  destruct op; cbn [obj_points] in F; try (destruct F; fail); try (exfalso; apply N; reflexivity).
  - left. split; [reflexivity|]. split; [discriminate|]. apply M in F. destruct F as [F ->]. split; [|exact Hy].
    destruct F as [<-|F]; [exact Hx|exact (set_points_inv _ _ _ Hx F)].
  - left. split; [reflexivity|]. split; [discriminate|]. apply M in F. destruct F as [F ->]. split; [|exact Hy].
    destruct F as [<-|F]; [exact Hx|exact (set_points_inv _ _ _ Hx F)].
  - right. split; [reflexivity|]. apply M in F. destruct F as [F ->].
    destruct (merge_points_inv _ _ _ _ Hx F) as (i & L & Q). exists v, i. auto.
  - left. split; [reflexivity|]. split; [discriminate|]. apply M in F. destruct F as [F ->]. split; [|exact Hy].
    exact (optimize_points_inv _ _ _ Hx F).
  - left. split; [reflexivity|]. split; [discriminate|]. apply M in F. destruct F as [F ->]. split; [|exact Hy].
    exact (read_points_inv _ _ _ Hx F).
  - left. split; [reflexivity|]. split; [discriminate|]. apply M in F. destruct F as [F ->]. split; [|exact Hy].
    exact (commit_points_inv _ _ _ Hx F).
  - left. split; [reflexivity|]. split; [discriminate|]. apply M in F. destruct F as [F ->]. split; [|exact Hy].
    exact (optimize_points_inv _ _ _ Hx F).
  - left. split; [reflexivity|]. split; [discriminate|]. destruct (is_undef (o_snap x)); [|destruct F].
    apply M in F. destruct F as [F ->]. split; [|exact Hy]. exact (commit_points_inv _ _ _ Hx F).
  - left. split; [reflexivity|]. split; [discriminate|]. apply M in F. destruct F as [F ->]. split; [|exact Hy].
    exact (commit_points_inv _ _ _ Hx F).
Qed.

Lemma tries_inv : forall ops x y sx sy, inv x sx -> inv y sy -> Forall op_ok (map fst ops) -> Forall assigned_well ops ->
  exists x' y' ts kept, obj_tries (x, y) ops = Some ((x', y'), ts) /\ survived (map fst ops) ts kept /\
    inv x' (fst (spec_run (sx, sy) kept)) /\ inv y' (snd (spec_run (sx, sy) kept)).
Proof.
  induction ops as [|[op n] ops IH]; intros x y sx sy Hx Hy O A.
  - exists x, y, [], []. split; [reflexivity|]. split; [constructor|]. auto.
  - inversion_clear O as [|? ? O1 O2]. inversion_clear A as [|? ? A1 A2].
    destruct (try_inv x y sx sy op n Hx Hy O1 A1) as (x1 & y1 & t & E & D). cbn [obj_tries map fst]. rewrite E.
    destruct D as [(-> & _ & I1 & I2)|[(-> & N & I1 & I2)|(-> & v & i & -> & L & I1 & I2)]].
    + destruct (spec_step (sx, sy) op) as [sx1 sy1] eqn:S. cbn [fst snd] in I1, I2.
      destruct (IH x1 y1 sx1 sy1 I1 I2 O2 A2) as (x' & y' & ts & kept & -> & V & J1 & J2).
      exists x', y', (false :: ts), (op :: kept). split; [reflexivity|]. split; [constructor; exact V|].
      unfold spec_run in *. cbn [fold_left]. rewrite S. auto.
    + destruct (IH x1 y1 sx sy I1 I2 O2 A2) as (x' & y' & ts & kept & -> & V & J1 & J2).
      exists x', y', (true :: ts), kept. split; [reflexivity|]. split; [apply su_threw; auto|]. auto.
    + destruct (IH x1 y1 _ _ I1 I2 O2 A2) as (x' & y' & ts & kept & -> & V & J1 & J2).
      exists x', y', (true :: ts), (OMerge (VArr (firstn i (members_of v))) :: kept). split; [reflexivity|].
      split; [apply su_merge; auto|]. unfold spec_run in *. cbn [fold_left spec_step members_of]. auto.
Qed.

Lemma objects_fail : forall b1 b2 ops, base_ok b1 -> base_ok b2 -> Forall op_ok (map fst ops) -> Forall assigned_well ops ->
  exists x y ts kept, obj_tries (obj_new b1, obj_new b2) ops = Some ((x, y), ts) /\ survived (map fst ops) ts kept /\
    let s := fst (spec_run (mkSpec b1 [], mkSpec b2 []) kept) in
    (forall k, exists x', obj_read x k = Some (x', spec_read s k)) /\ committed s (snd (obj_commit x)) /\
    (obj_dirty x = true <-> s_changes s <> []).
Proof.
  intros b1 b2 ops H1 H2 O A.
  destruct (tries_inv ops _ _ _ _ (new_inv b1 H1) (new_inv b2 H2) O A) as (x & y & ts & kept & E & V & I & _).
  exists x, y, ts, kept. split; [exact E|]. split; [exact V|]. cbv zeta. split; [|split].
  - intros k. destruct (read_spec _ _ k I) as (x' & Er & _). eauto.
  - apply commit_content. exact I.
  - rewrite (dirty_changes _ _ I). destruct (s_changes _); split; intros; congruence.
Qed.

(** Nothing fails: the operations as they are. *)
Lemma objects_fine : forall ops p, (forall o, In o ops -> snd o = None) ->
  obj_tries p ops = option_map (fun q => (q, repeat false (length ops))) (obj_run p (map fst ops)).
Proof.
  induction ops as [|[op n] ops IH]; intros p H; [reflexivity|]. pose proof (H _ (or_introl eq_refl)) as E. cbn in E. subst n.
  cbn [obj_tries map fst obj_run]. unfold obj_try. destruct (obj_step p op) as [p'|]; [|reflexivity]. cbn [failing].
  rewrite IH by (intros o I; apply H; right; exact I). destruct (obj_run p' (map fst ops)); reflexivity.
Qed.

(** A copy assignment that fails. *)
Lemma assign_fails : forall x y n p, obj_try (x, y) OAssign n = Some (p, true) ->
  (forall k, obj_read (fst p) k = Some (fst p, value_member (o_base y) k)) /\
  (snd (obj_commit (fst p)) = o_base y \/ snd (obj_commit (fst p)) = snd (obj_commit y)).
Proof.
  intros x y n p H. unfold obj_try in H. cbn [obj_step] in H. destruct (obj_assign x y) as [a b].
  destruct (failing (obj_points (x, y) OAssign) n) as [q|] eqn:F; [|discriminate].
  inversion H; subst q. clear H. apply failing_in in F. cbn [obj_points] in F. apply in_app_or in F. destruct F as [F|F].
  - apply in_map_iff in F. destruct F as (z & <- & _). cbn [fst]. split; [reflexivity|]. left. reflexivity.
  - destruct (o_ordered (obj_optimize y)) as [[d l]|] eqn:EO; [|destruct F]. destruct F as [<-|[]]. cbn [fst].
    split; [reflexivity|]. right. unfold obj_commit. rewrite EO. cbn [obj_optimize o_unordered o_ordered].
    unfold obj_commit_diff. rewrite (optimize_id (obj_optimize y)) by apply optimize_clears. rewrite EO.
    cbn. rewrite (proj1 (optimize_base y)). reflexivity.
Qed.

(** ** Arrays *)
Lemma arr_points_rep : forall a s op a', arep a s -> In a' (arr_points a op) ->
  arep a' s /\ a_base a' = a_base a.
Proof.
  intros a s op a' H I.
  assert (X : forall pos z, In z (extend_points a pos) -> z = a).
  { intros pos z J. unfold extend_points in J. destruct (pos <? a_off a); [destruct J as [<-|[]]; reflexivity|destruct J]. }
  assert (Y : forall pos, arep (arr_extend a pos) s /\ a_base (arr_extend a pos) = a_base a).
  { intros pos. split.
    - unfold arep in *. destruct (extend_spec a pos (proj1 H)) as (W & C & _). rewrite C.
      replace (a_base (arr_extend a pos)) with (a_base a); [tauto|]. unfold arr_extend. destruct (pos <? a_off a); reflexivity.
    - unfold arr_extend. destruct (pos <? a_off a); reflexivity. }
  assert (Z : a' = a -> arep a' s /\ a_base a' = a_base a) by (intros ->; auto).
  destruct op; cbn [arr_points] in I; try (destruct I; fail); try (destruct I as [<-|[]]; auto; fail).
  - apply in_app_or in I. destruct I as [I|[<-|[]]]; [apply Z; eauto|apply Y].
  - apply in_app_or in I. destruct I as [I|[<-|[]]]; [apply Z; eauto|apply Y].
  - apply Z. eauto.
  - apply Z. eauto.
  - apply Z. eauto.
  - apply Z. apply repeat_spec in I. exact I.
  - apply Z. unfold slice1_points in I. destruct (start <? 0)%Z.
    + destruct (- start <? Z.of_nat (arr_size a))%Z; [eauto|destruct I].
    + destruct (Z.of_nat (arr_size a) <=? start)%Z; [destruct I|eauto].
Qed.

Lemma arr_try_rep : forall a s op n, arep a s -> aop_ok s op ->
  exists a' t, arr_try a op n = Some (a', t) /\ arep a' (if t then s else aspec_step s op) /\
    (base_kind (a_base a) -> base_kind (a_base a')).
Proof.
  intros a s op n H O. destruct (step_spec a s op H O) as (a1 & E & R). unfold arr_try. rewrite E.
  destruct (failing (arr_points a op) n) as [l|] eqn:F.
  - exists l, true. split; [reflexivity|]. apply failing_in in F. destruct (arr_points_rep a s op l H F) as [Q ->]. auto.
  - exists a1, false. split; [reflexivity|]. split; [exact R|]. apply (step_kind _ _ _ E).
Qed.

Lemma arr_tries_rep : forall ops a s a' ts, arep a s -> base_kind (a_base a) -> (forall m, In m (as_base s) -> is_undef (snd m) = false) ->
  arr_tries a ops = Some (a', ts) -> all_ok s (map fst ops) ts ->
  arep a' (aspec_run s (done_only (map fst ops) ts)) /\ base_kind (a_base a') /\
  (forall m, In m (as_base (aspec_run s (done_only (map fst ops) ts))) -> is_undef (snd m) = false).
Proof.
  induction ops as [|[op n] ops IH]; intros a s a' ts H K D E O.
  - cbn in E. inversion E; subst. cbn. auto.
  - cbn [arr_tries] in E. cbn [map fst] in *.
    destruct (arr_try a op n) as [[a1 t]|] eqn:T; [|discriminate].
    destruct (arr_tries a1 ops) as [[a2 ts2]|] eqn:T2; [|discriminate]. inversion E; subst. clear E.
    cbn [all_ok done_only] in *. destruct O as [O1 O2].
    destruct (arr_try_rep a s op n H O1) as (a3 & t3 & T3 & R & KK). rewrite T in T3. inversion T3; subst. clear T3.
    destruct t3.
    + apply (IH a3 s a' ts2 R (KK K) D T2 O2).
    + unfold aspec_run. cbn [fold_left]. apply (IH a3 (aspec_step s op) a' ts2 R (KK K)); auto.
      intros m M. apply D. eapply step_base_in; eauto.
Qed.

Lemma arrays_fail : forall c ops a ts,
  (match c with CBase l => forall m, In m l -> is_undef (snd m) = false | _ => True end) ->
  arr_tries (arr_create c) ops = Some (a, ts) -> all_ok (aspec_create c) (map fst ops) ts ->
  let s := aspec_run (aspec_create c) (done_only (map fst ops) ts) in
  arr_size a = length (as_cur s) /\ (forall i, arr_get a i = nth_error (as_cur s) i) /\ arr_commit a = VArr (defined_only (as_cur s)) /\
  (forall op n, aop_ok s op -> arr_try a op n <> None).
Proof.
  intros c ops a ts B E O s.
  assert (K : base_kind (a_base (arr_create c))).
  { destruct c; [right; exists l; reflexivity|right; exists []; reflexivity|left; reflexivity]. }
  assert (D : forall m, In m (as_base (aspec_create c)) -> is_undef (snd m) = false) by (destruct c; cbn in *; intros m M; auto; destruct M).
  destruct (arr_tries_rep ops _ _ a ts (create_rep c) K D E O) as (R & K' & D'). fold s in R, D'.
  pose proof R as (W & C & _).
  split; [rewrite <- (content_length a W); congruence|].
  split; [intros i; rewrite (arr_get_spec a i W); congruence|].
  split.
  { apply commit_spec; auto.
    - intros d l E1. destruct K' as [Q|[l' Q]]; congruence.
    - intros Hn. destruct K' as [Q|[l' Q]]; [right|left; congruence].
      unfold arr_dirty, arr_size, arr_wf, vsize in *. rewrite Q in *. cbn [members_of length] in *.
      destruct (a_chg a); cbn [length] in *; [lia|]. rewrite orb_true_r. reflexivity. }
  intros op n OK. destruct (arr_try_rep a s op n R OK) as (a' & t & Q & _). congruence.
Qed.
