(** Released containers are never looked at, and none is forgotten. *)
From Verif Require Import Base ModelKeyed SpecKeyed ProofKeyed ModelValue ModelObject SpecObject ModelHeap SpecHeap
  ProofHeap ProofHeap2 ProofHeap3 ProofHeap4 ModelRelease SpecRelease.

(** *** Two heaps that agree outside of [F] *)
Definition agree (F : nat -> bool) (h1 h2 : heap) : Prop :=
  length h1 = length h2 /\ (forall a, F a = false -> nth_error h1 a = nth_error h2 a) /\
  (forall a, F a = true -> a < length h1).
Definition safe (F : nat -> bool) (l : list nat) : Prop := Forall (fun a => F a = false) l.

Lemma agree_alloc : forall F h1 h2 c, agree F h1 h2 -> agree F (h1 ++ [c]) (h2 ++ [c]).
Proof.
  intros F h1 h2 c (L & N & B). split; [rewrite !app_length; lia|]. split.
  - intros a Ha. destruct (Nat.ltb_spec a (length h1)).
    + rewrite !nth_error_app1 by lia. auto.
    + rewrite !nth_error_app2 by lia. rewrite L. reflexivity.
  - intros a Ha. rewrite app_length. specialize (B a Ha). lia.
Qed.
Lemma agree_write : forall F h1 h2 a c, agree F h1 h2 -> agree F (h_write h1 a c) (h_write h2 a c).
Proof.
  intros F h1 h2 a c (L & N & B). split; [rewrite !length_write; auto|]. split.
  - intros b Hb. rewrite !nth_write, L. destruct (b =? a); auto.
  - intros b Hb. rewrite length_write. auto.
Qed.
Lemma agree_new : forall F h1 h2, agree F h1 h2 -> F (length h1) = false.
Proof. intros F h1 h2 (L & N & B). destruct (F (length h1)) eqn:E; auto. apply B in E. lia. Qed.

Definition osafe F o := safe F (obj_ptrs o).
Lemma osafe_iff : forall F o, osafe F o <->
  safe F (match h_base o with Some b => hv_ptrs b | None => [] end) /\ safe F (hv_ptrs (h_snap o)) /\
  (forall a, h_ord o = Some a -> F a = false) /\ (forall a, h_unord o = Some a -> F a = false).
Proof.
  intros F o. unfold osafe, obj_ptrs, safe. rewrite !Forall_app.
  assert (H : forall x, Forall (fun a => F a = false) (opt_ptrs x) <-> forall a, x = Some a -> F a = false).
  { intros [x|]; cbn [opt_ptrs]; split; intros H.
    - intros a E. inversion E; subst. inversion H; auto.
    - constructor; auto.
    - discriminate.
    - constructor. }
  rewrite !H. tauto.
Qed.

Lemma view_agree : forall F h1 h2 x, agree F h1 h2 -> safe F (hv_ptrs x) -> h_view h1 x = h_view h2 x.
Proof.
  intros F h1 h2 [v|a] (L & N & B) S; [destruct v; reflexivity|]. cbn [hv_ptrs] in S. inversion S; subst.
  cbn [h_view]. rewrite N; auto.
Qed.

(** Results of the two runs. *)
Definition same2 {A} (F : nat -> bool) (Q : A -> Prop) (x y : option (heap * A)) : Prop :=
  match x, y with
  | Some (h1, a), Some (h2, b) => a = b /\ agree F h1 h2 /\ Q a
  | None, None => True
  | _, _ => False
  end.
Definition same3 {A B} (F : nat -> bool) (Q : A -> Prop) (x y : option (heap * A * B)) : Prop :=
  match x, y with
  | Some (h1, a, v), Some (h2, b, w) => a = b /\ v = w /\ agree F h1 h2 /\ Q a
  | None, None => True
  | _, _ => False
  end.

Lemma optimize_agree : forall F h1 h2 o, agree F h1 h2 -> osafe F o ->
  same2 F (osafe F) (h_optimize h1 o) (h_optimize h2 o).
Proof.
  intros F h1 h2 o A S. pose proof A as (L & N & B). pose proof S as S'. apply osafe_iff in S' as (S1 & S2 & S3 & S4).
  unfold h_optimize. destruct (h_unord o) as [u|] eqn:Eu; [|cbn; auto].
  rewrite (N u) by auto. destruct (nth_error h2 u) as [c|]; [|exact I].
  destruct (length (c_items c) =? 0); [cbn; auto|].
  set (items := obj_sort (c_items c)). set (cw := mkCell (c_obj c) (c_cap c) items).
  pose proof (agree_write F h1 h2 u cw A) as A1.
  assert (E : forall a, h_ord o = Some a -> nth_error (h_write h1 u cw) a = nth_error (h_write h2 u cw) a).
  { intros a Ha. apply A1. auto. }
  set (m1 := match h_ord o with None => _ | Some a => match nth_error (h_write h1 u cw) a with _ => _ end end).
  set (m2 := match h_ord o with None => _ | Some a => match nth_error (h_write h2 u cw) a with _ => _ end end).
  assert (Em : m1 = m2).
  { unfold m1, m2. destruct (h_ord o) as [a|]; auto. rewrite E; auto. }
  rewrite Em. destruct m2 as [new|]; [|exact I]. cbn [h_alloc same2].
  split; [rewrite !length_write, L; reflexivity|]. split; [apply agree_write, agree_alloc; auto|].
  apply osafe_iff. cbn [h_base h_snap h_ord h_unord]. split; auto. split; auto. split.
  - intros a Ha. inversion Ha; subst. apply (agree_new _ _ _ A1).
  - intros a Ha. apply S4. rewrite <- Ha. auto.
Qed.

Lemma set_agree : forall F h1 h2 o m, agree F h1 h2 -> osafe F o ->
  same2 F (osafe F) (h_set h1 o m) (h_set h2 o m).
Proof.
  intros F h1 h2 o m A S. pose proof S as S'. apply osafe_iff in S' as (S1 & S2 & S3 & S4). unfold h_set.
  assert (exists h1' h2' u, match h_unord o with None => h_alloc h1 (mkCell (Some false) 8 []) | Some u => (h1, u) end = (h1', u) /\
    match h_unord o with None => h_alloc h2 (mkCell (Some false) 8 []) | Some u => (h2, u) end = (h2', u) /\
    agree F h1' h2' /\ F u = false) as (k1 & k2 & u & -> & -> & A1 & Fu).
  { destruct (h_unord o) as [u|] eqn:Eu.
    - exists h1, h2, u. auto.
    - exists (h1 ++ [mkCell (Some false) 8 []]), (h2 ++ [mkCell (Some false) 8 []]), (length h1).
      split; auto. split; [cbn [h_alloc]; rewrite (proj1 A); auto|]. split; [apply agree_alloc; auto|eapply agree_new; eauto]. }
  rewrite (proj1 (proj2 A1) u Fu). destruct (nth_error k2 u) as [c|]; [|exact I].
  destruct (cpush (c_cap c) (c_items c) m) as [ok items]. destruct ok.
  - cbn [same2]. split; auto. split; [apply agree_write; auto|]. apply osafe_iff. cbn [h_base h_snap h_ord h_unord hv_ptrs].
    split; auto. split; [constructor|]. split; auto. intros a E. inversion E; subst. auto.
  - cbn [h_alloc]. set (e := mkCell (Some false) (length (c_items c) * 2) []).
    set (o1 := mkHObj (h_base o) (HV VUndef) (h_ord o) (Some u)).
    assert (So : osafe F o1).
    { apply osafe_iff. cbn [o1 h_base h_snap h_ord h_unord hv_ptrs]. split; auto. split; [constructor|]. split; auto.
      intros a E. inversion E; subst. auto. }
    pose proof (agree_alloc F k1 k2 e A1) as A2. pose proof (optimize_agree F _ _ o1 A2 So) as H.
    rewrite <- (proj1 A1). destruct (h_optimize (k1 ++ [e]) o1) as [[g1 q1]|]; destruct (h_optimize (k2 ++ [e]) o1) as [[g2 q2]|];
      cbn [same2] in H; try contradiction; auto.
    destruct H as (<- & A3 & Sq). pose proof (agree_new _ _ _ A1) as Fn. rewrite (proj1 (proj2 A3) _ Fn).
    destruct (nth_error g2 (length k1)) as [c2|]; [|exact I]. cbn [same2]. split; auto. split; [apply agree_write; auto|].
    apply osafe_iff in Sq as (T1 & T2 & T3 & T4). apply osafe_iff. cbn [h_base h_snap h_ord h_unord hv_ptrs].
    split; auto. split; [constructor|]. split; auto. intros a E. inversion E; subst. auto.
Qed.

Lemma set_all_agree : forall F l h1 h2 o, agree F h1 h2 -> osafe F o ->
  same2 F (osafe F) (h_set_all h1 o l) (h_set_all h2 o l).
Proof.
  intros F. induction l as [|m l IH]; intros h1 h2 o A S; cbn [h_set_all]; [cbn; auto|].
  pose proof (set_agree F h1 h2 o m A S) as H.
  destruct (h_set h1 o m) as [[g1 q1]|]; destruct (h_set h2 o m) as [[g2 q2]|]; cbn [same2] in H; try contradiction; auto.
  destruct H as (<- & A1 & S1). auto.
Qed.

Lemma base_agree : forall F h1 h2 o k, agree F h1 h2 -> osafe F o -> h_base_member h1 o k = h_base_member h2 o k.
Proof.
  intros F h1 h2 o k A S. apply osafe_iff in S as (S1 & _). unfold h_base_member. destruct (h_base o) as [b|]; auto.
  unfold h_member. rewrite (view_agree F h1 h2 b); auto.
Qed.

Lemma read_agree : forall F h1 h2 o k, agree F h1 h2 -> osafe F o ->
  same3 F (osafe F) (h_read h1 o k) (h_read h2 o k).
Proof.
  intros F h1 h2 o k A S. pose proof S as S'. apply osafe_iff in S' as (S1 & S2 & S3 & S4). unfold h_read.
  destruct (h_unord o) as [u|] eqn:Eu.
  2:{ rewrite (base_agree F h1 h2 o k A S). destruct (h_base_member h2 o k); cbn; auto. }
  rewrite (proj1 (proj2 A) u) by auto. destruct (nth_error h2 u) as [c|]; [|exact I].
  set (t1 := if 16 <? length (c_items c) then match h_ord o with None => _ | Some a => option_map _ (nth_error h1 a) end else _).
  set (t2 := if 16 <? length (c_items c) then match h_ord o with None => _ | Some a => option_map _ (nth_error h2 a) end else _).
  assert (Et : t1 = t2).
  { unfold t1, t2. destruct (16 <? _); auto. destruct (h_ord o) as [a|]; auto. rewrite (proj1 (proj2 A) a) by auto. reflexivity. }
  rewrite Et. destruct t2 as [opt|]; [|exact I].
  assert (H : same2 F (osafe F) (if opt then h_optimize h1 o else Some (h1, o)) (if opt then h_optimize h2 o else Some (h2, o))).
  { destruct opt; [apply optimize_agree; auto|cbn; auto]. }
  destruct (if opt then h_optimize h1 o else Some (h1, o)) as [[g1 q1]|];
    destruct (if opt then h_optimize h2 o else Some (h2, o)) as [[g2 q2]|]; cbn [same2] in H; try contradiction; auto.
  destruct H as (<- & A1 & Sq). pose proof Sq as Sq'. apply osafe_iff in Sq' as (T1 & T2 & T3 & T4).
  destruct (if opt then None else h_scan_back (rev (c_items c)) k) as [m|]; [cbn; auto|].
  destruct (h_ord q1) as [a|].
  - rewrite (proj1 (proj2 A1) a) by auto. destruct (nth_error g2 a) as [ca|]; [|exact I].
    destruct (find_member (c_items ca) k) as [m|]; [cbn; auto|].
    rewrite (base_agree F g1 g2 q1 k A1 Sq). destruct (h_base_member g2 q1 k); cbn; auto.
  - rewrite (base_agree F g1 g2 q1 k A1 Sq). destruct (h_base_member g2 q1 k); cbn; auto.
Qed.

Lemma apply_diff_agree : forall F h1 h2 b d, agree F h1 h2 -> safe F (hv_ptrs b) -> safe F (hv_ptrs d) ->
  same2 F (fun _ => True) (h_apply_diff h1 b d) (h_apply_diff h2 b d).
Proof.
  intros F h1 h2 b d A Sb Sd. unfold h_apply_diff. rewrite (view_agree F h1 h2 d A Sd), (view_agree F h1 h2 b A Sb).
  destruct (h_view h2 d) as [[[[dd|]|] dl]|]; [|cbn; auto|cbn; auto|exact I].
  destruct (h_view h2 b) as [[tb bl]|]; [|exact I].
  destruct tb as [[bd|]|]; cbn [h_alloc same2]; (split; [rewrite (proj1 A); auto|]); (split; [apply agree_alloc; auto|exact I]).
Qed.

Lemma commit_diff_agree : forall F h1 h2 o, agree F h1 h2 -> osafe F o ->
  same3 F (osafe F) (h_commit_diff h1 o) (h_commit_diff h2 o).
Proof.
  intros F h1 h2 o A S. unfold h_commit_diff. pose proof (optimize_agree F h1 h2 o A S) as H.
  destruct (h_optimize h1 o) as [[g1 q1]|]; destruct (h_optimize h2 o) as [[g2 q2]|]; cbn [same2] in H; try contradiction; auto.
  destruct H as (<- & A1 & Sq). cbn. auto.
Qed.

Lemma commit_agree : forall F h1 h2 o, agree F h1 h2 -> osafe F o ->
  same3 F (osafe F) (h_commit h1 o) (h_commit h2 o).
Proof.
  intros F h1 h2 o A S. unfold h_commit. pose proof (optimize_agree F h1 h2 o A S) as H.
  destruct (h_optimize h1 o) as [[g1 q1]|]; destruct (h_optimize h2 o) as [[g2 q2]|]; cbn [same2] in H; try contradiction; auto.
  destruct H as (<- & A1 & Sq). pose proof Sq as Sq'. apply osafe_iff in Sq' as (T1 & T2 & T3 & T4).
  destruct (h_ord q1) as [a|] eqn:Ea.
  - pose proof (commit_diff_agree F g1 g2 q1 A1 Sq) as H. unfold h_commit_diff in *.
    pose proof (optimize_agree F g1 g2 q1 A1 Sq) as H0.
    destruct (h_optimize g1 q1) as [[k1 p1]|]; destruct (h_optimize g2 q1) as [[k2 p2]|]; cbn [same2] in H0; try contradiction; auto.
    destruct H0 as (<- & A2 & Sp). destruct (h_base q1) as [b|] eqn:Eb; [|exact I].
    pose proof Sp as Sp'. apply osafe_iff in Sp' as (U1 & U2 & U3 & U4).
    set (d := match h_ord p1 with Some a0 => HR a0 | None => HV empty_object end).
    assert (Sd : safe F (hv_ptrs d)).
    { unfold d. destruct (h_ord p1) as [x|]; cbn [hv_ptrs]; constructor; auto. }
    pose proof (apply_diff_agree F k1 k2 b d A2 T1 Sd) as H1.
    destruct (h_apply_diff k1 b d) as [[m1 w1]|]; destruct (h_apply_diff k2 b d) as [[m2 w2]|]; cbn [same2] in H1; try contradiction; cbn; auto.
    destruct H1 as (<- & A3 & _). auto.
  - destruct (h_base q1); cbn; auto.
Qed.

Lemma iterate_agree : forall F h1 h2 o, agree F h1 h2 -> osafe F o ->
  same3 F (fun _ => True) (h_iterate h1 o) (h_iterate h2 o).
Proof.
  intros F h1 h2 o A S. unfold h_iterate. destruct (hv_undef (h_snap o)); [|cbn; auto].
  pose proof (commit_agree F h1 h2 o A S) as H.
  destruct (h_commit h1 o) as [[[g1 q1] w1]|]; destruct (h_commit h2 o) as [[[g2 q2] w2]|]; cbn [same3] in H; try contradiction; auto.
  destruct H as (<- & <- & A1 & Sq). cbn. auto.
Qed.

Lemma layers_agree : forall F h1 h2 ord, agree F h1 h2 -> (forall a, ord = Some a -> F a = false) ->
  same2 F (fun _ => True) (h_layers h1 ord) (h_layers h2 ord).
Proof.
  intros F h1 h2 [a|] A S; cbn [h_layers]; [|cbn; auto]. rewrite (proj1 (proj2 A) a) by auto.
  destruct (nth_error h2 a) as [c|]; [|exact I]. cbn [h_alloc same2]. rewrite (proj1 A). split; auto. split; auto. apply agree_alloc; auto.
Qed.

Lemma in_objs_safe : forall F s b o, safe F (root_ptrs s) -> nth_error (hs_objs s) b = Some o -> osafe F o.
Proof.
  intros F s b o S H. unfold safe, root_ptrs in S. apply Forall_app in S as [S _]. rewrite Forall_forall in S.
  apply Forall_forall. intros a Ha. apply S. apply in_flat_map. exists o. split; auto. eapply nth_error_In; eauto.
Qed.
Lemma in_vals_safe : forall F s i v, safe F (root_ptrs s) -> nth_error (hs_vals s) i = Some v -> safe F (hv_ptrs v).
Proof.
  intros F s i v S H. unfold safe, root_ptrs in S. apply Forall_app in S as [_ S]. rewrite Forall_forall in S.
  apply Forall_forall. intros a Ha. apply S. apply in_flat_map. exists v. split; auto. eapply nth_error_In; eauto.
Qed.

(** An operation does not look at containers outside of those its variables and builders refer to. *)
Definition same_state (F : nat -> bool) (x y : option hstate) : Prop :=
  match x, y with
  | Some s, Some t => hs_objs s = hs_objs t /\ hs_vals s = hs_vals t /\ agree F (hs_heap s) (hs_heap t)
  | None, None => True
  | _, _ => False
  end.

Lemma put_obj_agree : forall F Q s t b x y, hs_objs s = hs_objs t -> hs_vals s = hs_vals t -> same2 F Q x y ->
  same_state F (put_obj s b x) (put_obj t b y).
Proof.
  intros F Q s t b x y Eo Ev H. unfold put_obj. destruct x as [[h1 o1]|]; destruct y as [[h2 o2]|]; cbn [same2] in H; try contradiction; [|exact I].
  destruct H as (<- & A & _). cbn. rewrite Eo, Ev. auto.
Qed.
Lemma put_val_agree : forall F Q s t b x y, hs_objs s = hs_objs t -> hs_vals s = hs_vals t -> same3 F Q x y ->
  same_state F (put_val s b x) (put_val t b y).
Proof.
  intros F Q s t b x y Eo Ev H. unfold put_val. destruct x as [[[h1 o1] v]|]; destruct y as [[[h2 o2] w]|]; cbn [same3] in H; try contradiction; [|exact I].
  destruct H as (<- & <- & A & _). cbn. rewrite Eo, Ev. auto.
Qed.

Lemma step_agree : forall F h1 h2 objs vals op, agree F h1 h2 -> safe F (root_ptrs (mkHState h1 objs vals)) ->
  same_state F (h_step (mkHState h1 objs vals) op) (h_step (mkHState h2 objs vals) op).
Proof.
  intros F h1 h2 objs vals op A S.
  assert (So : forall b o, nth_error objs b = Some o -> osafe F o) by (intros b o; apply (in_objs_safe F (mkHState h1 objs vals)); auto).
  assert (Sv : forall i v, nth_error vals i = Some v -> safe F (hv_ptrs v)) by (intros i v; apply (in_vals_safe F (mkHState h1 objs vals)); auto).
  pose proof (proj1 A) as L.
  destruct op; cbn [h_step]; unfold on_val, on_obj; cbn [hs_objs hs_vals hs_heap];
    repeat match goal with
    | |- same_state _ (match nth_error ?l ?i with _ => _ end) _ =>
      let v := fresh "v" in let E := fresh "E" in destruct (nth_error l i) as [v|] eqn:E; [|exact I]
    end.
  - (* HLit *) cbn. auto.
  - (* HArr *) destruct (h_pick vals _) as [l|]; [|exact I]. cbn [option_map h_alloc same_state hs_objs hs_vals hs_heap].
    rewrite L. split; auto. split; auto. apply agree_alloc; auto.
  - (* HNew *) cbn. auto.
  - (* HList *) destruct (h_pick vals _) as [ms|]; [|exact I]. cbn [option_map h_alloc same_state hs_objs hs_vals hs_heap].
    rewrite L. split; auto. split; auto. apply agree_alloc; auto.
  - eapply put_obj_agree; auto. apply set_agree; eauto.
  - eapply put_obj_agree; auto. apply set_agree; eauto.
  - rewrite (view_agree F h1 h2 v A) by eauto. destruct (h_view h2 v) as [[t l]|]; [|exact I].
    eapply put_obj_agree; auto. apply set_all_agree; eauto.
  - eapply put_obj_agree; auto. apply optimize_agree; eauto.
  - eapply put_val_agree; auto. apply read_agree; eauto.
  - eapply put_val_agree; auto. apply commit_agree; eauto.
  - eapply put_val_agree; auto. apply commit_diff_agree; eauto.
  - eapply put_val_agree; auto. apply iterate_agree; eauto.
  - cbn. auto.
  - cbn. auto.
  - cbn. auto.
  - (* HCopy *) unfold h_copy. pose proof (optimize_agree F h1 h2 v A (So _ _ E)) as H.
    destruct (h_optimize h1 v) as [[g1 q1]|]; destruct (h_optimize h2 v) as [[g2 q2]|]; cbn [same2] in H; try contradiction; auto.
    destruct H as (<- & A1 & Sq). apply osafe_iff in Sq as (T1 & T2 & T3 & T4).
    pose proof (layers_agree F g1 g2 (h_ord q1) A1 T3) as H.
    destruct (h_layers g1 (h_ord q1)) as [[k1 u1]|]; destruct (h_layers g2 (h_ord q1)) as [[k2 u2]|]; cbn [same2] in H; try contradiction; auto.
    destruct H as (<- & A2 & _). cbn. auto.
  - (* HAssign *) destruct (Nat.eqb b c).
    + destruct (nth_error objs b); cbn; auto.
    + destruct (nth_error objs b) as [x|] eqn:Eb; [|exact I]. destruct (nth_error objs c) as [o|] eqn:Ec; [|exact I].
      unfold h_assign. pose proof (optimize_agree F h1 h2 o A (So _ _ Ec)) as H.
      destruct (h_optimize h1 o) as [[g1 q1]|]; destruct (h_optimize h2 o) as [[g2 q2]|]; cbn [same2] in H; try contradiction; auto.
      destruct H as (<- & A1 & Sq). apply osafe_iff in Sq as (T1 & T2 & T3 & T4).
      pose proof (layers_agree F g1 g2 (h_ord q1) A1 T3) as H.
      destruct (h_layers g1 (h_ord q1)) as [[k1 u1]|]; destruct (h_layers g2 (h_ord q1)) as [[k2 u2]|]; cbn [same2] in H; try contradiction; auto.
      destruct H as (<- & A2 & _). cbn. auto.
  - cbn. auto.
  - destruct (Nat.eqb b c).
    + destruct (nth_error objs b); cbn; auto.
    + destruct (nth_error objs b) as [x|]; [|exact I]. destruct (nth_error objs c) as [o|]; [|exact I]. cbn. auto.
  - unfold h_member. rewrite (view_agree F h1 h2 v A) by eauto. destruct (h_view h2 v) as [[[[d|]|] l]|]; cbn; auto.
  - rewrite (view_agree F h1 h2 v A) by eauto. destruct (h_view h2 v) as [[t l]|]; cbn; auto.
  - pose proof (apply_diff_agree F h1 h2 v v0 A (Sv _ _ E) (Sv _ _ E0)) as H.
    destruct (h_apply_diff h1 v v0) as [[m1 w1]|]; destruct (h_apply_diff h2 v v0) as [[m2 w2]|]; cbn [same2] in H; try contradiction; cbn; auto.
    destruct H as (<- & A1 & _). auto.
Qed.

Lemma d_step_agree : forall F h1 h2 objs vals op, agree F h1 h2 -> safe F (root_ptrs (mkHState h1 objs vals)) ->
  same_state F (d_step (mkHState h1 objs vals) op) (d_step (mkHState h2 objs vals) op).
Proof.
  intros F h1 h2 objs vals [op|i|b] A S; [apply step_agree; auto| |]; cbn [d_step]; unfold on_val, on_obj; cbn [hs_objs hs_vals hs_heap].
  - destruct (nth_error vals i); cbn; auto.
  - destruct (nth_error objs b); cbn; auto.
Qed.
