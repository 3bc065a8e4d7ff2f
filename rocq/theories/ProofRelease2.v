(** Where the pointers of a program come from; what is left after a release. *)
From Verif Require Import Base ModelKeyed SpecKeyed ProofKeyed ModelValue ModelObject SpecObject ModelHeap SpecHeap
  ProofHeap ProofHeap2 ProofHeap3 ProofHeap4 ModelRelease SpecRelease ProofRelease.

(** *** [Q]: a set of addresses closed under following pointers, with all new addresses *)
Section Q.
Variables (Q : nat -> Prop) (n0 : nat).
Hypothesis Qnew : forall a, n0 <= a -> Q a.

Definition cl (h : heap) : Prop :=
  n0 <= length h /\ forall a c, Q a -> nth_error h a = Some c -> Forall (okm Q) (c_items c).
Record oq (o : hobj) : Prop := mkOq {
  q_base : forall b, h_base o = Some b -> okv Q b;
  q_snap : okv Q (h_snap o);
  q_ord : forall a, h_ord o = Some a -> Q a;
  q_unord : forall a, h_unord o = Some a -> Q a
}.

Lemma cl_alloc : forall h c, cl h -> Forall (okm Q) (c_items c) -> cl (h ++ [c]).
Proof.
  intros h c (L & H) F. split; [rewrite app_length; lia|]. intros a x Ha E.
  destruct (nth_grown _ _ _ _ E) as [E'| ->]; eauto.
Qed.
Lemma cl_write : forall h u c, cl h -> Forall (okm Q) (c_items c) -> cl (h_write h u c).
Proof.
  intros h u c (L & H) F. split; [rewrite length_write; lia|]. intros a x Ha E. rewrite nth_write in E.
  destruct (Nat.eqb_spec a u); [|eauto]. destruct (u <? length h); inversion E; subst. auto.
Qed.
Lemma cl_new : forall h, cl h -> Q (length h).
Proof. intros h (L & _). auto. Qed.

Lemma view_q : forall h x t l, cl h -> okv Q x -> h_view h x = Some (t, l) -> Forall (okm Q) l.
Proof.
  intros h [v|a] t l Hc Hx H; simpl in H.
  - destruct v; inversion H; subst; auto using lift_ok.
  - destruct (nth_error h a) as [c|] eqn:E; inversion H; subst. eapply (proj2 Hc); eauto.
Qed.

Lemma optimize_q : forall h o h' o', cl h -> oq o -> h_optimize h o = Some (h', o') -> cl h' /\ oq o'.
Proof.
  intros h o h' o' Hc Ho H. unfold h_optimize in H.
  destruct (h_unord o) as [u|] eqn:Eu; [|inversion H; subst; auto].
  destruct (nth_error h u) as [c|] eqn:Ec; [|discriminate].
  pose proof (proj2 Hc u c (q_unord _ Ho u Eu) Ec) as Fc.
  destruct (length (c_items c) =? 0); [inversion H; subst; auto|].
  set (items := obj_sort (c_items c)) in *. assert (Fi : Forall (okm Q) items) by (apply sort_forall; auto).
  set (h1 := h_write h u (mkCell (c_obj c) (c_cap c) items)) in *.
  assert (H1 : cl h1) by (apply cl_write; auto).
  set (made := match h_ord o with None => _ | Some _ => _ end) in *. destruct made as [new|] eqn:Em; [|discriminate].
  assert (Fn : Forall (okm Q) (c_items new)).
  { subst made. destruct (h_ord o) as [a|] eqn:Ea.
    - destruct (nth_error h1 a) as [ca|] eqn:Eca; [|discriminate]. destruct (c_obj ca); inversion Em; subst.
      apply happly_forall; auto. exact (proj2 H1 a ca (q_ord _ Ho a Ea) Eca).
    - inversion Em; subst. cbn [c_items]. apply fold_forall; auto. intros; apply cpush_forall; auto. }
  cbn [h_alloc] in H. inversion H; subst h' o'. assert (H2 : cl (h1 ++ [new])) by (apply cl_alloc; auto). split.
  - apply cl_write; auto. constructor.
  - destruct Ho as [K1 K2 K3 K4]. constructor; cbn [h_base h_snap h_ord h_unord].
    + exact K1.
    + exact K2.
    + intros a Ha. inversion Ha; subst a. exact (cl_new _ H1).
    + intros a Ha. apply K4. congruence.
Qed.

Lemma set_q : forall h o m h' o', cl h -> oq o -> okm Q m -> h_set h o m = Some (h', o') -> cl h' /\ oq o'.
Proof.
  intros h o m h' o' Hc Ho Hm H. unfold h_set in H. pose proof Ho as [K1 K2 K3 K4].
  set (start := match h_unord o with None => _ | Some _ => _ end) in H. destruct start as [h0 u] eqn:Es.
  assert (cl h0 /\ Q u) as (H0 & Qu).
  { subst start. destruct (h_unord o) as [u'|] eqn:Eu; inversion Es; subst; [auto|].
    split; [apply cl_alloc; auto; constructor|apply cl_new; auto]. }
  clear Es. clearbody start. destruct (nth_error h0 u) as [c|] eqn:Ec; [|discriminate].
  pose proof (proj2 H0 u c Qu Ec) as Fc.
  destruct (cpush (c_cap c) (c_items c) m) as [ok items] eqn:Ep.
  assert (Fi : Forall (okm Q) items).
  { replace items with (snd (cpush (c_cap c) (c_items c) m)) by (rewrite Ep; reflexivity). apply cpush_forall; auto. }
  destruct ok.
  - inversion H; subst h' o'. split; [apply cl_write; auto|]. constructor; cbn [h_base h_snap h_ord h_unord]; auto; [exact I|].
    intros a E. inversion E; subst. auto.
  - cbn [h_alloc] in H. set (h1 := h0 ++ _) in *. set (o1 := mkHObj _ _ _ _) in *.
    assert (H1 : cl h1) by (apply cl_alloc; auto; constructor).
    assert (Ho1 : oq o1).
    { constructor; cbn [o1 h_base h_snap h_ord h_unord]; auto; [exact I|]. intros a E. inversion E; subst. auto. }
    destruct (h_optimize h1 o1) as [[h2 o2]|] eqn:Eo; [|discriminate].
    destruct (optimize_q _ _ _ _ H1 Ho1 Eo) as (H2 & [L1 L2 L3 L4]).
    destruct (nth_error h2 (length h0)) as [c2|] eqn:Ec2; [|discriminate]. inversion H; subst h' o'. split.
    + apply cl_write; auto. cbn [c_items]. apply cpush_forall; auto. eapply (proj2 H2); [|exact Ec2]. apply cl_new; auto.
    + constructor; cbn [h_base h_snap h_ord h_unord]; auto; [exact I|]. intros a E. inversion E; subst. apply cl_new; auto.
Qed.

Lemma set_all_q : forall l h o h' o', cl h -> oq o -> Forall (okm Q) l -> h_set_all h o l = Some (h', o') -> cl h' /\ oq o'.
Proof.
  induction l as [|m l IH]; intros h o h' o' Hc Ho Hl H; simpl in H; [inversion H; subst; auto|]. inversion Hl; subst.
  destruct (h_set h o m) as [[h1 o1]|] eqn:E; [|discriminate]. destruct (set_q _ _ _ _ _ Hc Ho H2 E). eauto.
Qed.

Lemma member_q : forall h x k v, cl h -> okv Q x -> h_member h x k = Some v -> okv Q v.
Proof.
  intros h x k v Hc Hx H. unfold h_member in H. destruct (h_view h x) as [[t l]|] eqn:E; [|discriminate].
  pose proof (view_q _ _ _ _ Hc Hx E) as F. destruct t as [[d|]|]; inversion H; subst; try exact I.
  destruct (find_member l k) as [m|] eqn:Ef; [|exact I]. apply find_in in Ef. rewrite Forall_forall in F. apply F; auto.
Qed.
Lemma base_member_q : forall h o k v, cl h -> oq o -> h_base_member h o k = Some v -> okv Q v.
Proof.
  intros h o k v Hc Ho H. unfold h_base_member in H. destruct (h_base o) as [b|] eqn:E; [|discriminate].
  eapply member_q; eauto. eapply q_base; eauto.
Qed.

Lemma read_q : forall h o k h' o' v, cl h -> oq o -> h_read h o k = Some (h', o', v) -> cl h' /\ oq o' /\ okv Q v.
Proof.
  intros h o k h' o' v Hc Ho H. unfold h_read in H. destruct (h_unord o) as [u|] eqn:Eu.
  2:{ destruct (h_base_member h o k) eqn:E; inversion H; subst. split; auto. split; auto. eapply base_member_q; eauto. }
  destruct (nth_error h u) as [c|] eqn:Ec; [|discriminate]. pose proof (proj2 Hc u c (q_unord _ Ho u Eu) Ec) as Fc.
  match type of H with match ?t with _ => _ end = _ => destruct t as [opt|]; [|discriminate] end.
  match type of H with match ?t with _ => _ end = _ => destruct t as [[h1 o1]|] eqn:Eo; [|discriminate] end.
  assert (cl h1 /\ oq o1) as (H1 & Ho1).
  { destruct opt; [eapply optimize_q; eauto|inversion Eo; subst; auto]. }
  destruct (if opt then None else h_scan_back (rev (c_items c)) k) as [m|] eqn:Esc.
  - inversion H; subst. split; auto. split; auto. destruct opt; [discriminate|]. apply scan_in in Esc. apply in_rev in Esc.
    rewrite Forall_forall in Fc. apply Fc; auto.
  - destruct (h_ord o1) as [a|] eqn:Ea.
    + destruct (nth_error h1 a) as [ca|] eqn:Eca; [|discriminate]. destruct (find_member (c_items ca) k) as [m|] eqn:Ef.
      * inversion H; subst. split; auto. split; auto. apply find_in in Ef.
        pose proof (proj2 H1 a ca (q_ord _ Ho1 a Ea) Eca) as F. rewrite Forall_forall in F. apply F; auto.
      * destruct (h_base_member h1 o1 k) eqn:Eb; inversion H; subst. split; auto. split; auto. eapply base_member_q; eauto.
    + destruct (h_base_member h1 o1 k) eqn:Eb; inversion H; subst. split; auto. split; auto. eapply base_member_q; eauto.
Qed.

Lemma apply_diff_q : forall h b d h' v, cl h -> okv Q b -> okv Q d -> h_apply_diff h b d = Some (h', v) -> cl h' /\ okv Q v.
Proof.
  intros h b d h' v Hc Hb Hd H. unfold h_apply_diff in H.
  destruct (h_view h d) as [[td dl]|] eqn:Ed; [|discriminate]. pose proof (view_q _ _ _ _ Hc Hd Ed) as Fd.
  destruct td as [[dd|]|]; try (inversion H; subst; auto; fail).
  destruct (h_view h b) as [[tb bl]|] eqn:Eb; [|discriminate]. pose proof (view_q _ _ _ _ Hc Hb Eb) as Fb.
  destruct tb as [[bd|]|]; cbn [h_alloc] in H; inversion H; subst; (split; [|apply cl_new; auto]); apply cl_alloc; auto;
    unfold happly_cell; cbn [c_items]; apply happly_forall; auto.
Qed.

Lemma commit_diff_q : forall h o h' o' v, cl h -> oq o -> h_commit_diff h o = Some (h', o', v) -> cl h' /\ oq o' /\ okv Q v.
Proof.
  intros h o h' o' v Hc Ho H. unfold h_commit_diff in H. destruct (h_optimize h o) as [[h1 o1]|] eqn:E; [|discriminate].
  inversion H; subst. destruct (optimize_q _ _ _ _ Hc Ho E) as (H1 & K1). split; auto. split; auto.
  destruct (h_ord o') eqn:Ea; [|exact I]. eapply (q_ord _ K1); eauto.
Qed.

Lemma commit_q : forall h o h' o' v, cl h -> oq o -> h_commit h o = Some (h', o', v) -> cl h' /\ oq o' /\ okv Q v.
Proof.
  intros h o h' o' v Hc Ho H. unfold h_commit in H. destruct (h_optimize h o) as [[h1 o1]|] eqn:E; [|discriminate].
  destruct (optimize_q _ _ _ _ Hc Ho E) as (H1 & K1). destruct (h_ord o1) as [a|] eqn:Ea.
  - destruct (h_commit_diff h1 o1) as [[[h2 o2] d]|] eqn:Ed; [|discriminate]. destruct (h_base o1) as [b|] eqn:Eb; [|discriminate].
    destruct (commit_diff_q _ _ _ _ _ H1 K1 Ed) as (H2 & K2 & Vd).
    destruct (h_apply_diff h2 b d) as [[h3 w]|] eqn:Ep; [|discriminate]. inversion H; subst.
    destruct (apply_diff_q _ _ _ _ _ H2 (q_base _ K1 b Eb) Vd Ep). auto.
  - destruct (h_base o1) as [b|] eqn:Eb; [|discriminate]. inversion H; subst. split; auto. split; auto. eapply q_base; eauto.
Qed.

Lemma iterate_q : forall h o h' o' v, cl h -> oq o -> h_iterate h o = Some (h', o', v) -> cl h' /\ oq o' /\ okv Q v.
Proof.
  intros h o h' o' v Hc Ho H. unfold h_iterate in H. destruct (hv_undef (h_snap o)).
  - destruct (h_commit h o) as [[[h1 o1] w]|] eqn:E; [|discriminate]. inversion H; subst.
    destruct (commit_q _ _ _ _ _ Hc Ho E) as (H1 & [K1 K2 K3 K4] & V). split; auto. split; auto. constructor; auto.
  - inversion H; subst. split; auto. split; auto. apply (q_snap _ Ho).
Qed.

Lemma layers_q : forall h ord h' u, cl h -> h_layers h ord = Some (h', u) -> cl h' /\ forall a, u = Some a -> Q a.
Proof.
  intros h [a|] h' u Hc H; cbn [h_layers] in H; [|inversion H; subst; split; auto; discriminate].
  destruct (nth_error h a) as [c|]; [|discriminate]. cbn [h_alloc] in H. inversion H; subst.
  split; [apply cl_alloc; auto; constructor|]. intros b E. inversion E; subst. apply cl_new; auto.
Qed.

Record sq (s : hstate) : Prop := mkSq {
  sq_heap : cl (hs_heap s);
  sq_objs : forall b o, nth_error (hs_objs s) b = Some o -> oq o;
  sq_vals : Forall (okv Q) (hs_vals s)
}.

Lemma put_sq : forall s h' b o', sq s -> cl h' -> oq o' -> sq (mkHState h' (h_put (hs_objs s) b o') (hs_vals s)).
Proof.
  intros s h' b o' [A B C] Hc Ho. constructor; cbn [hs_heap hs_objs hs_vals]; auto.
  intros c q Hq. apply nth_put_inv in Hq as [[-> ->]|[N Hq]]; eauto.
Qed.
Lemma val_sq : forall s v, sq s -> okv Q v -> sq (mkHState (hs_heap s) (hs_objs s) (hs_vals s ++ [v])).
Proof. intros s v [A B C] Hv. constructor; cbn [hs_heap hs_objs hs_vals]; auto. apply Forall_app; auto. Qed.
Lemma obj_sq : forall s h' n, sq s -> cl h' -> oq n -> sq (mkHState h' (hs_objs s ++ [n]) (hs_vals s)).
Proof.
  intros s h' n [A B C] Hc Hn. constructor; cbn [hs_heap hs_objs hs_vals]; auto.
  intros c q Hq. apply nth_snoc_inv in Hq as [[-> ->]|[N Hq]]; eauto.
Qed.
Lemma new_oq : forall v, okv Q v -> oq (h_new v).
Proof. intros v Hv. constructor; cbn; try discriminate; auto. intros b E. inversion E; subst; auto. Qed.

Lemma step_q : forall s op s', sq s -> h_step s op = Some s' -> sq s'.
Proof.
  intros s op s' V H. pose proof V as [Hc Ho Hv].
  assert (Vv : forall i v, nth_error (hs_vals s) i = Some v -> okv Q v).
  { intros i v E. rewrite Forall_forall in Hv. apply Hv. eapply nth_error_In; eauto. }
  destruct s as [h objs vals]. cbn [hs_heap hs_objs hs_vals] in *.
  destruct op; cbn [h_step] in H; set (s := mkHState h objs vals) in *; unfold on_val, on_obj in H; cbn [s hs_heap hs_objs hs_vals] in H;
    repeat match type of H with
    | match nth_error vals ?i with _ => _ end = _ =>
      let v := fresh "v" in let E := fresh "Ev" in destruct (nth_error vals i) as [v|] eqn:E; [|discriminate];
      pose proof (Vv _ _ E)
    | match nth_error objs ?i with _ => _ end = _ =>
      let v := fresh "o" in let E := fresh "Eo" in destruct (nth_error objs i) as [v|] eqn:E; [|discriminate];
      pose proof (Ho _ _ E)
    end.
  - inversion H; subst. apply (val_sq s); auto. exact I.
  - destruct (h_pick vals _) as [l|] eqn:Ep; [|discriminate]. inversion H; subst.
    pose proof (pick_ok Q _ _ _ Hv Ep) as F. assert (H1 : cl (h ++ [mkCell None (length l) l])) by (apply cl_alloc; auto).
    constructor; cbn [hs_heap hs_objs hs_vals]; auto. apply Forall_app; split; auto. constructor; auto. apply (cl_new h); auto.
  - inversion H; subst. apply (obj_sq s); auto. apply new_oq; auto.
  - destruct (h_pick vals _) as [ms|] eqn:Ep; [|discriminate]. inversion H; subst.
    pose proof (pick_ok Q _ _ _ Hv Ep) as F. apply (obj_sq s); auto.
    + apply cl_alloc; auto. cbn [h_list_cell c_items]. apply sort_forall, filter_forall. exact F.
    + apply new_oq. apply (cl_new h); auto.
  - destruct (h_set h o (k, v)) as [[h1 o1]|] eqn:E; inversion H; subst.
    destruct (set_q h o (k, v) _ _ Hc H1 H0 E). apply (put_sq s); auto.
  - destruct (h_set h o (k, HV VUndef)) as [[h1 o1]|] eqn:E; inversion H; subst.
    destruct (set_q h o (k, HV VUndef) _ _ Hc H0 I E). apply (put_sq s); auto.
  - destruct (h_view h v) as [[t l]|] eqn:Ew; [|discriminate].
    destruct (h_set_all h o l) as [[h1 o1]|] eqn:E; inversion H; subst.
    destruct (set_all_q l _ _ _ _ Hc H1 (view_q _ _ _ _ Hc H0 Ew) E). apply (put_sq s); auto.
  - destruct (h_optimize h o) as [[h1 o1]|] eqn:E; inversion H; subst.
    destruct (optimize_q _ _ _ _ Hc H0 E). apply (put_sq s); auto.
  - destruct (h_read h o k) as [[[h1 o1] w]|] eqn:E; inversion H; subst.
    destruct (read_q _ _ _ _ _ _ Hc H0 E) as (A & B & C). exact (val_sq _ _ (put_sq s _ b _ V A B) C).
  - destruct (h_commit h o) as [[[h1 o1] w]|] eqn:E; inversion H; subst.
    destruct (commit_q _ _ _ _ _ Hc H0 E) as (A & B & C). exact (val_sq _ _ (put_sq s _ b _ V A B) C).
  - destruct (h_commit_diff h o) as [[[h1 o1] w]|] eqn:E; inversion H; subst.
    destruct (commit_diff_q _ _ _ _ _ Hc H0 E) as (A & B & C). exact (val_sq _ _ (put_sq s _ b _ V A B) C).
  - destruct (h_iterate h o) as [[[h1 o1] w]|] eqn:E; inversion H; subst.
    destruct (iterate_q _ _ _ _ _ Hc H0 E) as (A & B & C). exact (val_sq _ _ (put_sq s _ b _ V A B) C).
  - inversion H; subst. apply (put_sq s); auto. destruct H0 as [K1 K2 K3 K4]. constructor; cbn; try discriminate; auto.
    intros x E. inversion E. exact I.
  - inversion H; subst. apply (put_sq s); auto. destruct H0 as [K1 K2 K3 K4]. constructor; cbn; try discriminate; auto.
  - inversion H; subst. apply (put_sq s); auto. destruct H1 as [K1 K2 K3 K4]. constructor; cbn; auto.
    intros x E. inversion E; subst. auto.
  - destruct (h_copy h o) as [[[h1 o1] n]|] eqn:E; inversion H; subst. unfold h_copy in E.
    destruct (h_optimize h o) as [[g q]|] eqn:Eq; [|discriminate]. destruct (optimize_q _ _ _ _ Hc H0 Eq) as (A & B).
    destruct (h_layers g (h_ord q)) as [[g2 u]|] eqn:El; [|discriminate]. destruct (layers_q _ _ _ _ A El) as (C & D).
    inversion E; subst. apply (obj_sq (mkHState h1 (h_put objs b o1) vals)); auto.
    + exact (put_sq s h1 b o1 V C B).
    + constructor; cbn [h_base h_snap h_ord h_unord]; auto; [apply (q_base _ H0)|exact I|apply (q_ord _ B)].
  - destruct (Nat.eqb b c).
    + destruct (nth_error objs b); inversion H; subst. auto.
    + destruct (nth_error objs b) as [x|] eqn:Eb; [|discriminate]. destruct (nth_error objs c) as [o|] eqn:Ec; [|discriminate].
      destruct (h_assign h x o) as [[[h1 x1] o1]|] eqn:E; inversion H; subst. unfold h_assign in E.
      destruct (h_optimize h o) as [[g q]|] eqn:Eq; [|discriminate]. destruct (optimize_q _ _ _ _ Hc (Ho _ _ Ec) Eq) as (A & B).
      destruct (h_layers g (h_ord q)) as [[g2 u]|] eqn:El; [|discriminate]. destruct (layers_q _ _ _ _ A El) as (C & D).
      inversion E; subst. refine (put_sq (mkHState h1 (h_put objs b _) vals) h1 c o1 (put_sq s h1 b _ V C _) C B).
      constructor; cbn [h_base h_snap h_ord h_unord]; auto; [apply (q_base _ (Ho _ _ Ec))|apply (q_snap _ (Ho _ _ Eb))|apply (q_ord _ B)].
  - inversion H; subst. apply (obj_sq (mkHState h (h_put objs c (h_moved o)) vals)); auto.
    + apply (put_sq s h c _ V Hc). destruct H0. constructor; cbn; try discriminate; auto.
    + destruct H0. constructor; cbn; auto.
  - destruct (Nat.eqb b c).
    + destruct (nth_error objs b); inversion H; subst. auto.
    + destruct (nth_error objs b) as [x|] eqn:Eb; [|discriminate]. destruct (nth_error objs c) as [o|] eqn:Ec; [|discriminate].
      inversion H; subst. refine (put_sq (mkHState h (h_put objs b _) vals) h c _ (put_sq s h b _ V Hc _) Hc _).
      * destruct (Ho _ _ Ec). constructor; cbn; auto. apply (q_snap _ (Ho _ _ Eb)).
      * destruct (Ho _ _ Ec). constructor; cbn; try discriminate; auto.
  - destruct (h_member h v k) as [w|] eqn:E; inversion H; subst. apply (val_sq s); auto. eapply member_q; eauto.
  - destruct (h_view h v) as [[t l]|] eqn:E; inversion H; subst. apply (val_sq s); auto.
    cbn [snd]. destruct (nth_error l n) as [m|] eqn:En; [|exact I].
    pose proof (view_q _ _ _ _ Hc H0 E) as F. rewrite Forall_forall in F. apply F. eapply nth_error_In; eauto.
  - destruct (h_apply_diff h v v0) as [[h1 w]|] eqn:E; inversion H; subst.
    destruct (apply_diff_q _ _ _ _ _ Hc H0 H1 E) as (A & B). constructor; cbn [hs_heap hs_objs hs_vals fst snd]; auto.
    apply Forall_app; auto.
Qed.

Lemma d_step_q : forall s op s', sq s -> d_step s op = Some s' -> sq s'.
Proof.
  intros s [op|i|b] s' V H; [eapply step_q; eauto| |]; cbn [d_step] in H; unfold on_val, on_obj in H.
  - destruct (nth_error (hs_vals s) i); inversion H; subst. destruct V as [A B C]. constructor; auto. cbn [hs_vals].
    apply Forall_forall. intros x Hx. apply In_nth_error in Hx as (j & Hj). apply nth_put_inv in Hj as [[-> ->]|[N Hj]]; [exact I|].
    rewrite Forall_forall in C. apply C. eapply nth_error_In; eauto.
  - destruct (nth_error (hs_objs s) b); inversion H; subst. apply put_sq; auto; [apply V|].
    constructor; cbn; try discriminate. exact I.
Qed.
End Q.
