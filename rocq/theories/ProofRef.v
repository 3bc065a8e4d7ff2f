From Verif Require Import Base ModelKeyed SpecKeyed ProofKeyed ModelValue ModelObject SpecObject ProofObject ModelArray SpecArray ProofArray
  ModelRef SpecRef.

(** *** References *)
Definition ref_rep (r : vref) (q : sref) : Prop :=
  r_copy r = sr_seen q /\
  match r_kind r, sr_place q with
  | KObj, PKey k => fst (r_copy r) = k
  | KArr i, PIndex j => i = j
  | KVal, PVar => True
  | _, _ => False
  end.
Record srep (t : rstore) (s : sstore) : Prop := mkSrep {
  sp_x : inv (fst (t_objs t)) (fst (ss_objs s));
  sp_y : inv (snd (t_objs t)) (snd (ss_objs s));
  sp_a : arep (t_arr t) (ss_arr s);
  sp_v : t_val t = ss_val s;
  sp_r : Forall2 ref_rep (t_refs t) (ss_refs s)
}.

Lemma forall2_nth : forall A B (R : A -> B -> Prop) l m n d, Forall2 R l m -> n < length m ->
  exists x, nth_error l n = Some x /\ R x (nth n m d).
Proof.
  intros A B R l m n d H. revert n. induction H as [|x y l m Hxy H IH]; intros n Hn; cbn in Hn; [lia|].
  destruct n as [|n]; cbn; [eauto|]. apply IH. lia.
Qed.
Lemma forall2_set : forall A B (R : A -> B -> Prop) l m n x y, Forall2 R l m -> R x y ->
  Forall2 R (set_nth l n x) (set_nth m n y).
Proof.
  intros A B R l m n x y H Hxy. unfold set_nth. apply Forall2_app.
  - revert n. induction H; intros [|n]; cbn; constructor; auto.
  - constructor; auto. generalize (S n). clear n. induction H; intros [|n]; cbn; try constructor; auto.
Qed.
Lemma rep_new : forall t s r p, srep t s -> ref_rep r (mkSRef p (place_read s p)) ->
  srep (with_refs t (t_refs t ++ [r])) (s_new s p).
Proof. intros t s r p [H1 H2 H3 H4 H5] H. split; auto. cbn. apply Forall2_app; auto. Qed.

(** Making and syncing read the place. *)
Lemma read_place : forall t s p, srep t s -> place_ok s p ->
  exists t' r, match p with PKey k => ref_of_object t k | PIndex i => ref_of_array t i | PVar => ref_of_value t end = Some (t', r) /\
    srep t' s /\ ref_rep r (mkSRef p (place_read s p)) /\ t_refs t' = t_refs t.
Proof.
  intros t s p H Hok. destruct H as [H1 H2 H3 H4 H5]. destruct p as [k|i|]; cbn [place_ok] in Hok.
  - destruct (read_spec _ _ k H1) as (o & E & Ho & _). unfold ref_of_object, get_value_or_name. rewrite E.
    do 2 eexists. split; [reflexivity|]. split; [split; auto|]. split; [|reflexivity]. split; reflexivity.
  - unfold ref_of_array. destruct H3 as (A1 & A2 & A3). rewrite arr_get_spec, A2 by auto.
    rewrite (nth_error_nth' _ ([], VUndef)) by auto. do 2 eexists. split; [reflexivity|].
    split; [split; auto; split; auto|]. split; [|reflexivity]. split; reflexivity.
  - do 2 eexists. split; [reflexivity|]. split; [split; auto|]. split; [|reflexivity]. split; cbn; auto.
Qed.

Lemma write_place : forall t s r q m, srep t s -> ref_rep r q -> place_ok s (sr_place q) ->
  exists t' r', ref_assign t r m = Some (t', r') /\ srep t' (place_write s (sr_place q) m) /\
    ref_rep r' (mkSRef (sr_place q) (place_member (sr_place q) m)) /\ t_refs t' = t_refs t.
Proof.
  intros t s r q m H [Hc Hk] Hok. destruct H as [H1 H2 H3 H4 H5]. unfold ref_assign.
  destruct (r_kind r) as [|i|]; destruct (sr_place q) as [k|j|]; try tauto; cbn [place_ok] in Hok.
  - do 2 eexists. split; [reflexivity|]. subst k. split; [|split; [|reflexivity]].
    + split; auto. cbn. apply set_inv; auto.
    + split; reflexivity.
  - subst j. destruct (step_spec (t_arr t) (ss_arr s) (ASet i m) H3 Hok) as (a' & E & Ha). cbn [arr_step] in E. rewrite E.
    do 2 eexists. split; [reflexivity|]. split; [split; auto|]. split; [|reflexivity]. split; reflexivity.
  - do 2 eexists. split; [reflexivity|]. split; [split; auto|]. split; [|reflexivity]. split; cbn; auto.
Qed.

Lemma rep_see : forall t s n r m, srep t s -> ref_rep r (mkSRef (sr_place (s_ref s n)) m) ->
  srep (with_refs t (set_nth (t_refs t) n r)) (s_see s n m).
Proof. intros t s n r m [H1 H2 H3 H4 H5] H. split; auto. cbn. apply forall2_set; auto. Qed.

Lemma rep_assign : forall t s n r m, srep t s -> nth_error (t_refs t) n = Some r -> ref_rep r (s_ref s n) ->
  place_ok s (sr_place (s_ref s n)) ->
  exists t', put_ref n (ref_assign t r m) = Some t' /\ srep t' (s_assign s n m).
Proof.
  intros t s n r m H Hn Hr Hok. destruct (write_place t s r (s_ref s n) m H Hr Hok) as (t' & r' & -> & Hs & Hr' & Et).
  eexists. split; [reflexivity|]. unfold s_assign. apply rep_see; auto.
  replace (s_ref (place_write s (sr_place (s_ref s n)) m) n) with (s_ref s n); [exact Hr'|].
  unfold s_ref. destruct (sr_place (nth n (ss_refs s) no_ref)); reflexivity.
Qed.

Lemma ref_step_rep : forall t s op, srep t s -> rop_ok s op -> exists t', ref_step t op = Some t' /\ srep t' (rspec_step s op).
Proof.
  intros t s op H Hok. destruct op as [k|i| |n|n m|n k|n|op|op|m]; cbn [ref_step rspec_step rop_ok] in *.
  - destruct (read_place t s (PKey k) H I) as (t' & r & -> & Hs & Hr & Et). eexists. split; [reflexivity|]. apply rep_new; auto.
  - destruct (read_place t s (PIndex i) H Hok) as (t' & r & -> & Hs & Hr & Et). eexists. split; [reflexivity|]. apply rep_new; auto.
  - destruct (read_place t s PVar H I) as (t' & r & -> & Hs & Hr & Et). eexists. split; [reflexivity|]. apply rep_new; auto.
  - destruct (forall2_nth _ _ _ _ _ n no_ref (sp_r _ _ H) Hok) as (r & -> & Hr). eexists. split; [reflexivity|].
    destruct H as [H1 H2 H3 H4 H5]. split; auto. cbn. apply Forall2_app; auto.
  - destruct Hok as [Hn Hp]. destruct (forall2_nth _ _ _ _ _ n no_ref (sp_r _ _ H) Hn) as (r & E & Hr). rewrite E.
    apply rep_assign; auto.
  - destruct Hok as [[Hn Hp] Hk]. destruct (forall2_nth _ _ _ _ _ n no_ref (sp_r _ _ H) Hn) as (r & E & Hr). rewrite E.
    destruct (forall2_nth _ _ _ _ _ k no_ref (sp_r _ _ H) Hk) as (q & Ek & [Hq _]). rewrite Ek, Hq. apply rep_assign; auto.
  - destruct Hok as [Hn Hp]. destruct (forall2_nth _ _ _ _ _ n no_ref (sp_r _ _ H) Hn) as (r & -> & Hr).
    destruct (read_place t s _ H Hp) as (t' & r' & E & Hs & Hr' & Et). exists (with_refs t' (set_nth (t_refs t') n r')).
    split; [|apply rep_see; auto]. unfold put_ref, ref_sync. fold (s_ref s n) in Hr. destruct Hr as [_ Hk].
    destruct (r_kind r), (sr_place (s_ref s n)); try tauto; subst; rewrite E; reflexivity.
  - destruct H as [H1 H2 H3 H4 H5]. destruct Hok as [Hok _]. destruct (t_objs t) as [x y]. destruct (ss_objs s) as [sx sy].
    destruct (step_inv x y sx sy op H1 H2 Hok) as (x' & y' & E & Hx & Hy). rewrite E. eexists. split; [reflexivity|]. split; auto.
  - destruct H as [H1 H2 H3 H4 H5]. destruct (step_spec _ _ op H3 Hok) as (a' & -> & Ha). eexists. split; [reflexivity|]. split; auto.
  - destruct H as [H1 H2 H3 H4 H5]. eexists. split; [reflexivity|]. split; auto.
Qed.

Lemma ref_run_rep : forall ops t s, srep t s -> rops_ok s ops -> exists t', ref_run t ops = Some t' /\ srep t' (rspec_run s ops).
Proof.
  induction ops as [|op ops IH]; intros t s H Hok; cbn [ref_run].
  - eauto.
  - destruct Hok as [H1 H2]. destruct (ref_step_rep t s op H H1) as (t' & -> & Hs). apply IH; auto.
Qed.

Lemma new_rep : forall b1 b2 c v, base_ok b1 -> base_ok b2 -> srep (store_new b1 b2 c v) (sstore_new b1 b2 c v).
Proof. intros. split; cbn; auto using new_inv, create_rep. Qed.

Lemma rep_shows : forall t s, srep t s -> shows t s.
Proof.
  intros t s [H1 H2 (A1 & A2 & A3) H4 H5]. split; [|split; [|split]]; auto.
  - clear - H5. induction H5 as [|r q l m [Hr _] H IH]; cbn; [auto|]. rewrite Hr, IH. reflexivity.
  - intros k. destruct (read_spec _ _ k H1) as (o & E & _). eauto.
  - intros i. rewrite arr_get_spec, A2; auto.
Qed.

Lemma refs_run : forall b1 b2 c v ops, base_ok b1 -> base_ok b2 -> rops_ok (sstore_new b1 b2 c v) ops ->
  exists t, ref_run (store_new b1 b2 c v) ops = Some t /\ shows t (rspec_run (sstore_new b1 b2 c v) ops).
Proof.
  intros b1 b2 c v ops H1 H2 Hok. destruct (ref_run_rep ops _ _ (new_rep b1 b2 c v H1 H2) Hok) as (t & E & H).
  exists t. split; auto. apply rep_shows; auto.
Qed.

Lemma last_binding_app : forall (l m : list member) k, last_binding k (l ++ m) =
  match last_binding k m with Some v => Some v | None => last_binding k l end.
Proof.
  induction l as [|[k' v] l IH]; intros m k; cbn [app last_binding].
  - destruct (last_binding k m); reflexivity.
  - rewrite IH. destruct (last_binding k m); reflexivity.
Qed.
Lemma read_add : forall s k v k', spec_read (spec_add s [(k, v)]) k' = if beqb k k' then v else spec_read s k'.
Proof.
  intros s k v k'. unfold spec_read, spec_get, spec_add. cbn [s_changes s_base]. rewrite last_binding_app. cbn [last_binding].
  destruct (beqb k k'); reflexivity.
Qed.

Lemma nth_write : forall (l : list member) i m j d, i < length l ->
  nth j (firstn i l ++ [m] ++ skipn (i + 1) l) d = if j =? i then m else nth j l d.
Proof.
  induction l as [|x l IH]; intros i m j d Hi; cbn in Hi; [lia|]. destruct i as [|i]; cbn [Nat.add firstn app skipn].
  - destruct j; reflexivity.
  - destruct j as [|j]; [reflexivity|]. cbn [nth Nat.eqb]. apply IH. lia.
Qed.

(** Writing at a place changes that place only. *)
Lemma write_read : forall s p m, place_ok s p ->
  place_read (place_write s p m) p = place_member p m /\
  (forall p', p' <> p -> place_read (place_write s p m) p' = place_read s p') /\
  length (as_cur (ss_arr (place_write s p m))) = length (as_cur (ss_arr s)).
Proof.
  intros s p m Hok. destruct p as [k|i|]; cbn [place_ok] in Hok.
  - cbn. split; [|split; [|reflexivity]].
    + rewrite read_add, beqb_refl. reflexivity.
    + intros [k'| |] Hne; cbn; auto. rewrite read_add. destruct (beqb k k') eqn:Ek; [apply beqb_eq in Ek; congruence|reflexivity].
  - cbn [place_write place_read place_member ss_arr ss_objs ss_val]. cbn [aspec_step as_cur]. split; [|split].
    + rewrite nth_write, Nat.eqb_refl; auto.
    + intros [k'|j|] Hne; cbn [place_read ss_arr ss_objs ss_val as_cur]; auto. rewrite nth_write by auto.
      destruct (Nat.eqb_spec j i); [congruence|reflexivity].
    + rewrite !app_length, firstn_length, skipn_length. cbn [length]. lia.
  - cbn. split; [reflexivity|split; [|reflexivity]]. intros [k'|j|] Hne; cbn; auto. congruence.
Qed.

Lemma set_nth_nth : forall A (l : list A) n x j d, n < length l -> nth j (set_nth l n x) d = if j =? n then x else nth j l d.
Proof.
  induction l as [|y l IH]; intros n x j d Hn; cbn in Hn; [lia|]. destruct n as [|n]; unfold set_nth; cbn [firstn skipn app].
  - destruct j; reflexivity.
  - destruct j as [|j]; [reflexivity|]. cbn [nth Nat.eqb]. apply IH. lia.
Qed.
Lemma write_refs : forall s p m, ss_refs (place_write s p m) = ss_refs s.
Proof. intros s [k|i|] m; reflexivity. Qed.
Lemma place_read_refs : forall s l p, place_read (s_refs_to s l) p = place_read s p.
Proof. intros s l [k|i|]; reflexivity. Qed.

Lemma assign_effect : forall s n m, ref_usable s n ->
  let s' := rspec_step s (RAssign n m) in let p := sr_place (s_ref s n) in
  place_read s' p = place_member p m /\ (forall p', p' <> p -> place_read s' p' = place_read s p') /\
  sr_seen (s_ref s' n) = place_member p m /\
  (forall j, sr_place (s_ref s' j) = sr_place (s_ref s j)) /\
  (forall j, j <> n -> sr_seen (s_ref s' j) = sr_seen (s_ref s j)).
Proof.
  intros s n m [Hn Hok] s' p. destruct (write_read s p m Hok) as (W1 & W2 & W3).
  unfold s'. cbn [rspec_step]. unfold s_assign, s_see. fold p. rewrite !place_read_refs.
  assert (Hr : forall j, s_ref (s_refs_to (place_write s p m) (set_nth (ss_refs (place_write s p m)) n
     (mkSRef (sr_place (s_ref (place_write s p m) n)) (place_member p m)))) j =
     if j =? n then mkSRef p (place_member p m) else s_ref s j).
  { intros j. unfold s_ref at 1. cbn [s_refs_to ss_refs]. rewrite write_refs, set_nth_nth by auto.
    unfold s_ref. rewrite write_refs. reflexivity. }
  split; [auto|]. split; [intros p' Hp; rewrite place_read_refs; auto|]. split; [|split].
  - rewrite Hr, Nat.eqb_refl. reflexivity.
  - intros j. rewrite Hr. destruct (Nat.eqb_spec j n) as [-> |]; reflexivity.
  - intros j Hj. rewrite Hr. destruct (Nat.eqb_spec j n); [tauto|reflexivity].
Qed.

Lemma sync_effect : forall s n, ref_usable s n ->
  let s' := rspec_step s (RSync n) in
  sr_seen (s_ref s' n) = place_read s (sr_place (s_ref s n)) /\
  (forall p, place_read s' p = place_read s p) /\ (forall j, j <> n -> s_ref s' j = s_ref s j).
Proof.
  intros s n [Hn Hok] s'. unfold s'. cbn [rspec_step]. unfold s_see. split; [|split].
  - unfold s_ref at 1. cbn [s_refs_to ss_refs]. rewrite set_nth_nth, Nat.eqb_refl by auto. reflexivity.
  - intros p. apply place_read_refs.
  - intros j Hj. unfold s_ref at 1. cbn [s_refs_to ss_refs]. rewrite set_nth_nth by auto.
    destruct (Nat.eqb_spec j n); [tauto|reflexivity].
Qed.

(** *** Nested editors *)
Lemma made_obj_inv : forall x, made (HObj x) -> exists s, inv x s.
Proof.
  intros x H. inversion H as [b1 b2 ops x0 y H1 H2 Hops E|]; subst.
  destruct (run_inv ops _ _ _ _ (new_inv b1 H1) (new_inv b2 H2) Hops) as (x' & y' & E' & Hx & _).
  assert (x' = x) by congruence. subst. eauto.
Qed.
Lemma made_arr_wf : forall a, made (HArr a) -> arr_wf a.
Proof. intros a H. inversion H as [|c ops a0 Hc Hok E]; subst. eapply reach_wf; eauto. Qed.

Lemma obj_slot : forall o s k, inv o s -> slot_value (HObj o) (AtKey k) = Some (spec_read s k).
Proof. intros o s k H. unfold slot_value. cbn. destruct (read_spec _ _ k H) as (o' & -> & _). reflexivity. Qed.
Lemma arr_slot : forall a i, arr_wf a -> slot_value (HArr a) (AtPos i) = option_map snd (nth_error (content a) i).
Proof. intros a i H. unfold slot_value. cbn. rewrite arr_get_spec by auto. destruct (nth_error _ _); reflexivity. Qed.

Lemma nth_error_write : forall (l : list member) i m j, i < length l ->
  nth_error (firstn i l ++ [m] ++ skipn (i + 1) l) j = if j =? i then Some m else nth_error l j.
Proof.
  induction l as [|x l IH]; intros i m j Hi; cbn in Hi; [lia|]. destruct i as [|i]; cbn [Nat.add firstn app skipn].
  - destruct j; reflexivity.
  - destruct j as [|j]; [reflexivity|]. cbn [nth_error Nat.eqb]. apply IH. lia.
Qed.

Lemma set_replaced : forall h s v w, made h -> slot_value h s = Some w -> exists h', hold_set h s v = Some h' /\ replaced h s v h'.
Proof.
  intros h s v w Hm Hs. destruct h as [o|a]; destruct s as [k|i]; try discriminate.
  - destruct (made_obj_inv _ Hm) as [sp Hi]. eexists. split; [reflexivity|].
    assert (Hi2 : inv (obj_set o (k, v)) (spec_add sp [(k, v)])) by (apply set_inv; auto). split.
    + rewrite (obj_slot _ _ _ Hi2), read_add, beqb_refl. reflexivity.
    + intros [k'|i'] Hne; [|reflexivity]. rewrite (obj_slot _ _ _ Hi2), (obj_slot _ _ _ Hi), read_add.
      destruct (beqb k k') eqn:Ek; [apply beqb_eq in Ek; congruence|reflexivity].
  - pose proof (made_arr_wf _ Hm) as Hw. rewrite arr_slot in Hs by auto.
    assert (Hl : i < length (content a)).
    { apply nth_error_Some. destruct (nth_error (content a) i); [discriminate|discriminate]. }
    destruct (set_gen a i ([], v) Hw Hl) as (a' & E & Hw' & Hc & _). cbn [hold_set]. rewrite E.
    eexists. split; [reflexivity|]. split.
    + rewrite arr_slot, Hc, nth_error_write, Nat.eqb_refl by auto. reflexivity.
    + intros [k'|i'] Hne; [reflexivity|]. rewrite !arr_slot, Hc, nth_error_write by auto.
      destruct (Nat.eqb_spec i' i); [congruence|reflexivity].
Qed.

Lemma editor_close : forall h s e w, made h -> slot_value h s = Some w -> ed_dirty e = true ->
  exists h', ed_close h s e = Some h' /\ replaced h s (ed_value e) h'.
Proof. intros h s e w Hm Hs Hd. unfold ed_close. rewrite Hd. eapply set_replaced; eauto. Qed.

Lemma keeps_base_run : forall ops p, Forall keeps_base ops -> s_base (fst (spec_run p ops)) = s_base (fst p).
Proof.
  induction ops as [|op ops IH]; intros [x y] H; [reflexivity|]. inversion_clear H as [|? ? Hop Hops].
  cbn [spec_run fold_left]. unfold spec_run in IH. rewrite IH by auto. destruct op; cbn in *; tauto || reflexivity.
Qed.

(** Opening leaves what the parent shows. *)
Lemma open_spec : forall h s w k, made h -> slot_value h s = Some w ->
  exists h1, ed_open h s k = Some (h1, match k with EObject => HObj (obj_new w) | EArray => HArr (arr_of w) end) /\
    (forall s', slot_value h1 s' = slot_value h s') /\
    (forall v, exists h', hold_set h1 s v = Some h' /\ replaced h1 s v h').
Proof.
  intros h s w k Hm Hs. unfold ed_open. destruct h as [o|a]; destruct s as [key|i]; try discriminate.
  - destruct (made_obj_inv _ Hm) as [sp Hi]. rewrite (obj_slot _ _ _ Hi) in Hs. cbn [hold_get].
    destruct (read_spec _ _ key Hi) as (o' & -> & Hi' & _). injection Hs as <-. eexists. split; [reflexivity|]. split.
    + intros [k'|i']; [|reflexivity]. rewrite (obj_slot _ _ _ Hi), (obj_slot _ _ _ Hi'). reflexivity.
    + intros v. eexists. split; [reflexivity|].
      assert (Hi2 : inv (obj_set o' (key, v)) (spec_add sp [(key, v)])) by (apply set_inv; auto). split.
      * rewrite (obj_slot _ _ _ Hi2), read_add, beqb_refl. reflexivity.
      * intros [k'|i'] Hne; [|reflexivity]. rewrite (obj_slot _ _ _ Hi2), (obj_slot _ _ _ Hi'), read_add.
        destruct (beqb key k') eqn:Ek; [apply beqb_eq in Ek; congruence|reflexivity].
  - pose proof Hs as Hs'. unfold slot_value in Hs. cbn [hold_get] in *. destruct (arr_get a i) as [m|] eqn:E; [|discriminate].
    injection Hs as <-. eexists. split; [reflexivity|]. split; [reflexivity|]. intros v. eapply set_replaced; eauto.
Qed.

Lemma object_editor : forall h s w b2 ops x y, made h -> slot_value h s = Some w -> base_ok w -> base_ok b2 ->
  Forall op_ok ops -> Forall keeps_base ops -> obj_run (obj_new w, obj_new b2) ops = Some (x, y) ->
  exists h1 h', ed_open h s EObject = Some (h1, HObj (obj_new w)) /\ ed_close h1 s (HObj x) = Some h' /\
    exists v, committed (fst (spec_run (mkSpec w [], mkSpec b2 []) ops)) v /\ replaced h s v h'.
Proof.
  intros h s w b2 ops x y Hm Hs Hw Hb Hops Hk E.
  destruct (open_spec h s w EObject Hm Hs) as (h1 & Eo & Hsame & Hset). exists h1.
  destruct (run_inv ops _ _ _ _ (new_inv w Hw) (new_inv b2 Hb) Hops) as (x' & y' & E' & Hx & _).
  assert (x' = x) by congruence. subst x'. pose proof (commit_content _ _ Hx) as Hc.
  unfold ed_close. cbn [ed_dirty ed_value]. rewrite (dirty_changes _ _ Hx).
  set (sp := fst (spec_run _ _)) in *. destruct (s_changes sp) eqn:Ec.
  - exists h1. split; auto. split; auto. exists w. split.
    + unfold committed. rewrite Ec. unfold sp. rewrite keeps_base_run by auto. reflexivity.
    + split; [rewrite Hsame; auto|]. intros; apply Hsame.
  - destruct (Hset (snd (obj_commit x))) as (h' & Eh & Hr1 & Hr2). exists h'. split; auto. split; auto. eexists. split; [exact Hc|].
    split; auto. intros s' Hne. rewrite Hr2, Hsame; auto.
Qed.

Lemma reverse_free_base : forall ops s, Forall (fun op => op <> AReverse) ops -> as_base (aspec_run s ops) = as_base s.
Proof.
  induction ops as [|op ops IH]; intros s H; [reflexivity|]. inversion_clear H as [|? ? Hop Hops].
  cbn [aspec_run fold_left]. unfold aspec_run in IH. rewrite IH by auto. destruct op; cbn; congruence || reflexivity.
Qed.

(** What an array editor starts from: an array, or nothing. *)
Lemma array_editor : forall h s w c ops a, made h -> slot_value h s = Some w ->
  (w = VUndef /\ c = CList [] \/ exists l, w = VArr l /\ c = CBase l /\ forall m, In m l -> is_undef (snd m) = false) ->
  aops_ok (aspec_create c) ops -> Forall (fun op => op <> AReverse) ops -> arr_run (arr_of w) ops = Some a ->
  let cur := as_cur (aspec_run (aspec_create c) ops) in
  exists h1 h', ed_open h s EArray = Some (h1, HArr (arr_of w)) /\ ed_close h1 s (HArr a) = Some h' /\
    exists v, replaced h s v h' /\ (v = VArr (defined_only cur) \/ v = w /\ cur = members_of w).
Proof.
  intros h s w c ops a Hm Hs Hc Hok Hr E cur.
  destruct (open_spec h s w EArray Hm Hs) as (h1 & Eo & Hsame & Hset). exists h1.
  assert (Hcr : arr_of w = arr_create c /\ as_base (aspec_create c) = members_of w /\
     (match c with CBase l => forall m, In m l -> is_undef (snd m) = false | _ => True end)).
  { destruct Hc as [[-> ->]|(l & -> & -> & Hl)]; auto. }
  destruct Hcr as (Hcr & Hcb & Hcd). rewrite Hcr in E.
  destruct (array_builder c ops Hcd Hok) as (a' & Ea & _ & _ & Hcm). assert (a' = a) by congruence. subst a'. fold cur in Hcm.
  unfold ed_close. cbn [ed_dirty ed_value]. rewrite Hcm. destruct (arr_dirty a) eqn:D.
  - destruct (Hset (VArr (defined_only cur))) as (h' & Eh & Hr1 & Hr2). exists h'. split; auto. split; auto.
    eexists. split; [|left; reflexivity]. split; auto. intros s' Hne. rewrite Hr2, Hsame; auto.
  - exists h1. split; auto. split; auto. exists w. split; [split; [rewrite Hsame; auto|intros; apply Hsame]|]. right. split; auto.
    destruct (run_spec ops (arr_create c) (aspec_create c)) as (a' & Ea' & (W & Hcont & Hbase) & _); auto.
    + apply create_rep.
    + destruct c; [right; exists l; reflexivity|right; exists []; reflexivity|left; reflexivity].
    + destruct c; cbn; intros m Hin; try destruct Hin; auto.
    + assert (a' = a) by congruence. subst a'. unfold cur. rewrite <- Hcont. rewrite reverse_free_base, Hcb in Hbase by auto.
      unfold arr_dirty in D. apply orb_false_iff in D as [D1 D2]. apply negb_false_iff in D1, D2. apply Nat.eqb_eq in D1.
      unfold content. destruct (a_chg a); [|discriminate]. rewrite D1, app_nil_r. unfold vsize. rewrite firstn_all. exact Hbase.
Qed.

(** [commit] stores the content and takes the editor back to where it started. *)
Lemma object_editor_commit : forall h s w b b2 ops x y, made h -> slot_value h s = Some w -> base_ok b -> base_ok b2 ->
  Forall op_ok ops -> obj_run (obj_new b, obj_new b2) ops = Some (x, y) -> obj_dirty x = true ->
  let sp := fst (spec_run (mkSpec b [], mkSpec b2 []) ops) in
  exists h' e, ed_commit h s (HObj x) = Some (h', e) /\
    (exists v, committed sp v /\ replaced h s v h') /\ ed_dirty e = false /\ ed_value e = s_base sp.
Proof.
  intros h s w b b2 ops x y Hm Hs Hb Hb2 Hops E D sp.
  destruct (run_inv ops _ _ _ _ (new_inv b Hb) (new_inv b2 Hb2) Hops) as (x' & y' & E' & Hx & _).
  assert (x' = x) by congruence. subst x'. fold sp in Hx.
  unfold ed_commit. cbn [ed_dirty ed_value]. rewrite D. destruct (set_replaced h s (snd (obj_commit x)) w Hm Hs) as (h' & -> & Hr).
  do 2 eexists. split; [reflexivity|]. split; [eexists; split; [apply commit_content; exact Hx|exact Hr]|].
  rewrite commit_state. split; [reflexivity|]. cbn. rewrite (proj1 (optimize_base x)). apply (i_base _ _ Hx).
Qed.
Lemma array_editor_commit : forall h s w l ops a, made h -> slot_value h s = Some w ->
  (forall m, In m l -> is_undef (snd m) = false) -> aops_ok (aspec_create (CBase l)) ops ->
  Forall (fun op => op <> AReverse) ops -> arr_run (arr_of (VArr l)) ops = Some a -> arr_dirty a = true ->
  exists h' e, ed_commit h s (HArr a) = Some (h', e) /\
    replaced h s (VArr (defined_only (as_cur (aspec_run (aspec_create (CBase l)) ops)))) h' /\
    ed_dirty e = false /\ ed_value e = VArr l.
Proof.
  intros h s w l ops a Hm Hs Hl Hok Hr E D. change (arr_of (VArr l)) with (arr_create (CBase l)) in E.
  destruct (array_builder (CBase l) ops Hl Hok) as (a' & Ea & _ & _ & Hcm). assert (a' = a) by congruence. subst a'.
  unfold ed_commit. cbn [ed_dirty ed_value]. rewrite D, Hcm. edestruct (set_replaced h s) as (h' & -> & Hrep); eauto.
  do 2 eexists. split; [reflexivity|]. split; [exact Hrep|].
  destruct (run_spec ops (arr_create (CBase l)) (aspec_create (CBase l))) as (a' & Ea' & (W & _ & Hbase) & Hk & _); auto.
  { apply create_rep. }
  { right. exists l. reflexivity. }
  assert (a' = a) by congruence. subst a'. rewrite reverse_free_base in Hbase by auto. cbn [aspec_create as_base] in Hbase.
  cbn [ed_dirty ed_value]. unfold arr_revert, arr_commit, arr_size, arr_dirty. cbn [a_base a_off a_chg length]. unfold vsize. rewrite Nat.eqb_refl.
  split; [reflexivity|]. cbn [negb orb]. destruct Hk as [K|[l' K]]; rewrite K in *; cbn [members_of] in *; subst l.
  - reflexivity.
  - destruct l'; reflexivity.
Qed.
