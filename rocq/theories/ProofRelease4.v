(** Programs with releases follow programs without. *)
From Verif Require Import Base ModelKeyed SpecKeyed ProofKeyed ModelValue ModelObject SpecObject ModelHeap SpecHeap
  ProofHeap ProofHeap2 ProofHeap3 ProofHeap4 ModelRelease SpecRelease ProofRelease ProofRelease2 ProofRelease3.

Lemma d_kept : forall P s op s', sinv P s -> cells_ok P (hs_heap s) -> d_step s op = Some s' ->
  exists P', sinv P' s' /\ cells_ok P' (hs_heap s').
Proof.
  intros P s [op|i|b] s' V K H.
  - destruct (step_kept _ _ _ _ V H) as (P' & V' & Kp & _ & C). exists P'. split; auto.
    intros a c E. destruct (C a c E) as [E'|F]; auto. eapply okm_mono; [|exact (K a c E')]. intros b Hb. apply Kp. auto.
  - cbn [d_step] in H. unfold on_val in H. destruct (nth_error (hs_vals s) i); inversion H; subst. exists P. split; auto.
    destruct V as [V1 V2 V3 V4]. constructor; auto. cbn [hs_vals].
    apply Forall_forall. intros x Hx. apply In_nth_error in Hx as (j & Hj). apply nth_put_inv in Hj as [[-> ->]|[N Hj]]; [exact I|].
    rewrite Forall_forall in V2. apply V2. eapply nth_error_In; eauto.
  - cbn [d_step] in H. unfold on_obj in H. destruct (nth_error (hs_objs s) b) as [o|] eqn:E; inversion H; subst.
    exists P. split; auto. destruct V as [V1 V2 V3 V4]. constructor; cbn [hs_heap hs_objs hs_vals]; auto.
    + intros c q Hq. apply nth_put_inv in Hq as [[-> ->]|[N Hq]]; eauto. constructor; cbn; try discriminate. exact I.
    + intros c d x y a Hx Hy Ha Hb. apply nth_put_inv in Hx as [[-> ->]|[N Hx]]; [discriminate|].
      apply nth_put_inv in Hy as [[-> ->]|[N' Hy]]; [discriminate|]. eapply V4; eauto.
Qed.

Lemma reached_in_heap : forall P s a, sinv P s -> cells_ok P (hs_heap s) -> reached s a -> a < length (hs_heap s).
Proof.
  intros P s a V K R. pose proof V as [V1 V2 V3 V4]. destruct R as [a R|b c k a R E I].
  - destruct R as [R|(o & Ho & R)].
    + rewrite Forall_forall in V2. eapply closed_in; eauto. exact (V2 _ R).
    + apply In_nth_error in Ho as (b & Hb). pose proof (V3 _ _ Hb) as Ko.
      destruct R as [R|[R|[R|R]]].
      * eapply closed_in; eauto. exact (k_base _ _ _ Ko _ R).
      * eapply closed_in; eauto. pose proof (k_snap _ _ _ Ko) as Ks. rewrite R in Ks. exact Ks.
      * eapply closed_in; eauto. exact (k_ord _ _ _ Ko _ R).
      * eapply unord_in; eauto.
  - pose proof (K b c E) as F. rewrite Forall_forall in F. eapply closed_in; eauto. exact (F _ I).
Qed.

Lemma reached_sq : forall s, sq (fun a => reached s a \/ length (hs_heap s) <= a) (length (hs_heap s)) s.
Proof.
  intros s. constructor.
  - split; auto. intros a c [R|L] E.
    + apply Forall_forall. intros [k [v|b]] I; [exact Logic.I|]. left. eapply reached_in; eauto.
    + exfalso. assert (a < length (hs_heap s)) by (apply nth_error_Some; congruence). lia.
  - intros b o Hb. apply nth_error_In in Hb. constructor.
    + intros [v|a] E; [exact I|]. left. apply reached_here. right. exists o. auto.
    + destruct (h_snap o) as [v|a] eqn:E; [exact I|]. left. apply reached_here. right. exists o. auto.
    + intros a E. left. apply reached_here. right. exists o. auto.
    + intros a E. left. apply reached_here. right. exists o. auto 6.
  - apply Forall_forall. intros [v|a] H; [exact I|]. left. apply reached_here. left. auto.
Qed.
Lemma sq_reached : forall Q n s a, sq Q n s -> reached s a -> Q a.
Proof.
  intros Q n s a [A B C] R. induction R as [a R|b c k a R IH E I].
  - destruct R as [R|(o & Ho & R)].
    + rewrite Forall_forall in C. exact (C _ R).
    + apply In_nth_error in Ho as (b & Hb). pose proof (B _ _ Hb) as [K1 K2 K3 K4]. destruct R as [R|[R|[R|R]]]; auto.
      * exact (K1 _ R).
      * rewrite R in K2. exact K2.
  - pose proof (proj2 A b c IH E) as F. rewrite Forall_forall in F. exact (F _ I).
Qed.

Lemma scribble_len : forall j g h i, length (scribble j g i h) = length h.
Proof. intros j g. induction h; intros i; cbn; auto. Qed.
Lemma scribble_nth : forall j g h i a, nth_error (scribble j g i h) a =
  option_map (fun c => if g (i + a) then j (i + a) else c) (nth_error h a).
Proof.
  intros j g. induction h as [|c h IH]; intros i a; cbn [scribble]; [destruct a; reflexivity|].
  destruct a as [|a]; cbn [nth_error]; [rewrite Nat.add_0_r; reflexivity|]. rewrite IH, Nat.add_succ_r. reflexivity.
Qed.

(** The state [s] without releases and the state [r] with them. *)
Record follows (s : hstate) (r : rstate) : Prop := mkFol {
  f_objs : hs_objs s = hs_objs (r_st r);
  f_vals : hs_vals s = hs_vals (r_st r);
  f_agree : agree (r_gone r) (hs_heap s) (hs_heap (r_st r));
  f_exact : forall a, a < length (hs_heap s) -> (r_gone r a = false <-> reached s a);
  f_inv : exists P, sinv P s /\ cells_ok P (hs_heap s)
}.

Lemma agree_held : forall g s t, hs_objs s = hs_objs t -> hs_vals s = hs_vals t -> agree g (hs_heap s) (hs_heap t) ->
  forall a, release_once s g a = release_once t g a.
Proof.
  intros g s t Eo Ev A a.
  assert (H : forall b, held s g b <-> held t g b).
  { intros b. unfold held, refers. rewrite Eo, Ev. split; (intros [R|(x & c & k & E & G & I)]; [left; auto|right; exists x, c, k]).
    - rewrite <- (proj1 (proj2 A)); auto.
    - rewrite (proj1 (proj2 A)); auto. }
  destruct (release_once t g a) eqn:E.
  - apply not_false_iff_true. intros N. apply once_false in N as [N1 N2]. rewrite <- not_false_iff_true in E. apply E.
    apply once_false. split; auto. rewrite <- (proj1 A). intros L. apply H. auto.
  - apply once_false in E as [N1 N2]. apply once_false. split; auto. rewrite (proj1 A). intros L. apply H. auto.
Qed.
Lemma agree_more : forall g g' h1 h2, agree g h1 h2 -> (forall a, g a = true -> g' a = true) ->
  (forall a, g' a = true -> a < length h1) -> agree g' h1 h2.
Proof.
  intros g g' h1 h2 (L & N & B) M W. split; auto. split; auto. intros a Ha. apply N.
  destruct (g a) eqn:E; auto. apply M in E. congruence.
Qed.
Lemma agree_all : forall n g s t, hs_objs s = hs_objs t -> hs_vals s = hs_vals t -> agree g (hs_heap s) (hs_heap t) ->
  forall a, release_all n s g a = release_all n t g a.
Proof.
  induction n as [|n IH]; intros g s t Eo Ev A a; cbn [release_all]; auto.
  rewrite (all_ext n t (release_once t g) (release_once s g)); [|intros b; symmetry; apply agree_held; auto].
  apply IH; auto. eapply agree_more; [exact A|intros b; apply once_grows|].
  intros b Hb. apply (all_within 1 s g b); auto. apply A.
Qed.

Lemma follows_step : forall junk s r op, follows s r ->
  match d_step s op, r_step junk r op with
  | Some s', Some r' => follows s' r'
  | None, None => True
  | _, _ => False
  end.
Proof.
  intros junk s r op [Eo Ev A X (P & V & K)]. unfold r_step.
  destruct s as [h1 objs vals]. destruct r as [[h2 objs2 vals2] g]. cbn [r_st r_gone hs_heap hs_objs hs_vals] in *.
  subst objs2 vals2. set (s := mkHState h1 objs vals) in *.
  assert (G : forall a, reached s a -> g a = false).
  { intros a R. apply X; auto. apply (reached_in_heap P s a V K R). }
  assert (S : safe g (root_ptrs s)).
  { apply Forall_forall. intros a Ha. apply G. constructor. apply in_roots; auto. }
  pose proof (d_step_agree g h1 h2 objs vals op A S) as H. fold s in H.
  destruct (d_step s op) as [s'|] eqn:E; destruct (d_step (mkHState h2 objs vals) op) as [t|]; cbn [same_state] in H;
    try contradiction; [|exact I].
  destruct H as (Eo & Ev & A').
  destruct (d_kept P s op s' V K E) as (P' & V' & K').
  assert (W : forall a, g a = true -> a < length (hs_heap s')) by apply A'.
  assert (G' : forall a, reached s' a -> g a = false).
  { intros a R.
    pose proof (d_step_q _ _ (fun a L => or_intror L) s op s' (reached_sq s) E) as Q.
    destruct (sq_reached _ _ _ _ Q R) as [R'|L]; [auto|]. destruct (g a) eqn:Ga; auto. apply A in Ga. cbn [s hs_heap] in L. lia. }
  set (g' := release_all (length (hs_heap t)) t g).
  assert (Eg : forall a, g' a = release_all (length (hs_heap s')) s' g a).
  { intros a. unfold g'. rewrite <- (proj1 A'). symmetry. apply agree_all; auto. }
  assert (W' : forall a, g' a = true -> a < length (hs_heap s')).
  { intros a Ha. rewrite Eg in Ha. eapply all_within; eauto. }
  constructor; cbn [r_st r_gone hs_heap hs_objs hs_vals]; auto.
  - split; [rewrite scribble_len; apply A'|]. split; auto.
    intros a Ha. rewrite scribble_nth. cbn [Nat.add]. rewrite Ha.
    rewrite (proj1 (proj2 (agree_more g g' _ _ A' ltac:(intros b Hb; rewrite Eg; apply all_grows; auto) W')) a Ha).
    destruct (nth_error (hs_heap t) a); reflexivity.
  - intros a L. rewrite Eg. apply (released_exactly P'); auto. apply V'.
  - exists P'. auto.
Qed.

Lemma follows_run : forall junk ops s r, follows s r ->
  match d_run s ops, r_run junk r ops with
  | Some s', Some r' => follows s' r'
  | None, None => True
  | _, _ => False
  end.
Proof.
  intros junk. induction ops as [|op ops IH]; intros s r F; cbn [d_run r_run]; auto.
  pose proof (follows_step (junk (length (op :: ops))) s r op F) as H.
  destruct (d_step s op); destruct (r_step _ r op); try contradiction; auto. apply IH; auto.
Qed.

Lemma follows_init : follows hs_init r_init.
Proof.
  constructor; cbn [hs_init r_init r_st r_gone hs_heap hs_objs hs_vals]; auto.
  - split; auto. split; auto. discriminate.
  - cbn [length]. intros a L. lia.
  - exists (fun _ => False). split; [apply init_ok|]. intros a c E. destruct a; discriminate.
Qed.

(** Reading from the two memories. *)
Lemma shows_agree : forall F h1 h2 (Hs : forall a c, F a = false -> nth_error h1 a = Some c ->
    nth_error h2 a = Some c /\ Forall (fun m => safe F (hv_ptrs (snd m))) (c_items c)),
  (forall x v, shows h1 x v -> safe F (hv_ptrs x) -> shows h2 x v) /\
  (forall l m, shows_items h1 l m -> Forall (fun y => safe F (hv_ptrs (snd y))) l -> shows_items h2 l m).
Proof.
  intros F h1 h2 Hs. apply shows_both.
  - intros v _. constructor.
  - intros a d cap items l E _ IH S. inversion S; subst. destruct (Hs a _ H1 E) as (E2 & F2). econstructor; eauto.
  - intros a cap items l E _ IH S. inversion S; subst. destruct (Hs a _ H1 E) as (E2 & F2). eapply shows_array; eauto.
  - constructor.
  - intros k x v items l _ IH1 _ IH2 H. inversion H; subst. constructor; auto.
Qed.

Lemma cell_safe : forall s r a c, follows s r -> r_gone r a = false -> nth_error (hs_heap s) a = Some c ->
  Forall (fun m => safe (r_gone r) (hv_ptrs (snd m))) (c_items c).
Proof.
  intros s r a c F G E. pose proof F as [Eo Ev A X (P & V & K)]. apply Forall_forall. intros [k x] I. apply Forall_forall.
  intros b Hb. cbn [snd] in Hb. apply in_hv in Hb. subst x.
  assert (La : a < length (hs_heap s)) by (apply nth_error_Some; congruence).
  assert (R : reached s b) by (eapply reached_in; [|exact E|exact I]; apply X; auto).
  apply X; auto. eapply reached_in_heap; eauto.
Qed.

Lemma shows_same : forall s r x v, follows s r -> In x (hs_vals s) ->
  (shows (hs_heap s) x v <-> shows (hs_heap (r_st r)) x v).
Proof.
  intros s r x v F Hx. pose proof F as [Eo Ev A X (P & V & K)].
  assert (S : safe (r_gone r) (hv_ptrs x)).
  { apply Forall_forall. intros a Ha. apply in_hv in Ha. subst x.
    assert (R : reached s a) by (constructor; left; auto). apply X; auto. eapply reached_in_heap; eauto. }
  split; intros H.
  - eapply (proj1 (shows_agree (r_gone r) _ _ _)); eauto. Unshelve. intros a c G E. split; [rewrite <- (proj1 (proj2 A)); auto|].
    eapply cell_safe; eauto.
  - eapply (proj1 (shows_agree (r_gone r) _ _ _)); eauto. Unshelve. intros a c G E. rewrite <- (proj1 (proj2 A)) in E by auto.
    split; auto. eapply cell_safe; eauto.
Qed.

Lemma reached_same : forall s r a, follows s r -> (reached s a <-> reached (r_st r) a).
Proof.
  intros s r a F. pose proof F as [Eo Ev A X (P & V & K)].
  assert (Rf : forall b, refers s b <-> refers (r_st r) b) by (intros b; unfold refers; rewrite Eo, Ev; tauto).
  assert (Z : forall b, reached s b -> r_gone r b = false).
  { intros b R. apply X; auto. eapply reached_in_heap; eauto. }
  split; intros R.
  - induction R as [a R|b c k a R IH E I]; [constructor; apply Rf; auto|]. eapply reached_in; eauto.
    rewrite <- (proj1 (proj2 A)); auto.
  - induction R as [a R|b c k a R IH E I]; [constructor; apply Rf; auto|]. eapply reached_in; eauto.
    rewrite (proj1 (proj2 A)); auto.
Qed.

(** *** The theorems *)
Lemma release_runs : forall junk ops,
  match d_run hs_init ops, r_run junk r_init ops with
  | Some s, Some r =>
    hs_vals (r_st r) = hs_vals s /\ hs_objs (r_st r) = hs_objs s /\
    (forall x v, In x (hs_vals s) -> (shows (hs_heap (r_st r)) x v <-> shows (hs_heap s) x v))
  | None, None => True
  | _, _ => False
  end.
Proof.
  intros junk ops. pose proof (follows_run junk ops _ _ follows_init) as H.
  destruct (d_run hs_init ops) as [s|]; destruct (r_run junk r_init ops) as [r|]; auto.
  split; [symmetry; apply H|]. split; [symmetry; apply H|]. intros x v Hx. symmetry. apply shows_same; auto.
Qed.

Lemma release_exact : forall junk ops r, r_run junk r_init ops = Some r ->
  forall a, a < length (hs_heap (r_st r)) -> (r_gone r a = true <-> ~ reached (r_st r) a).
Proof.
  intros junk ops r E a L. pose proof (follows_run junk ops _ _ follows_init) as H. rewrite E in H.
  destruct (d_run hs_init ops) as [s|]; [|contradiction]. rewrite <- (reached_same s r a H).
  pose proof H as [Eo Ev A X _]. rewrite <- (proj1 A) in L. rewrite <- (X a L). destruct (r_gone r a); split; congruence.
Qed.

Lemma release_end : forall junk ops r, r_run junk r_init ops = Some r -> (forall a, ~ refers (r_st r) a) ->
  forall a, a < length (hs_heap (r_st r)) -> r_gone r a = true.
Proof.
  intros junk ops r E N a L. apply (release_exact junk ops r E a L). intros R.
  induction R as [a R|b c k a R IH H I]; [exact (N a R)|]. apply IH. apply nth_error_Some. congruence.
Qed.

Lemma no_cycle : forall ops s a, d_run hs_init ops = Some s -> ~ leads_far (hs_heap s) a a.
Proof.
  intros ops s a E. pose proof (follows_run (fun _ _ => mkCell None 0 []) ops _ _ follows_init) as H. rewrite E in H.
  destruct (r_run _ r_init ops) as [r|]; [|contradiction]. destruct H as [_ _ _ _ (P & V & K)].
  assert (Lt : forall x y, leads_far (hs_heap s) x y -> P y /\ (P x -> y < x)).
  { intros x y L. induction L as [x y (c & k & E1 & I1)|x y z (c & k & E1 & I1) L [IH1 IH2]].
    - pose proof (K x c E1) as F. rewrite Forall_forall in F. split; [exact (F _ I1)|]. intros Px.
      destruct (v_closed _ _ V x Px) as (c' & E' & F'). rewrite E1 in E'. inversion E'; subst c'.
      rewrite Forall_forall in F'. exact (proj2 (F' _ I1)).
    - split; auto. intros Px. pose proof (K x c E1) as F. rewrite Forall_forall in F. pose proof (F _ I1) as Py. specialize (IH2 Py).
      destruct (v_closed _ _ V x Px) as (c' & E' & F'). rewrite E1 in E'. inversion E'; subst c'.
      rewrite Forall_forall in F'. pose proof (proj2 (F' _ I1)) as Hlt. cbn [snd] in Hlt. lia. }
  intros L. destruct (Lt a a L) as [Pa Hlt]. specialize (Hlt Pa). lia.
Qed.
