(** Proofs about const functions of Object. *)
From Verif Require Import Base ModelKeyed SpecKeyed ProofKeyed ModelValue ModelObject SpecObject ProofObject ModelConst SpecConst.

Lemma settled_list : forall o, settled o <-> unord_list o = [].
Proof. intros o. unfold settled, unord_list. destruct (o_unordered o) as [[c u]|]; tauto. Qed.
Lemma writes_settled : forall o, settled o -> optimize_writes o = [].
Proof. intros o H. unfold optimize_writes, settled in *. destruct (o_unordered o) as [[c u]|]; [subst u|]; reflexivity. Qed.
Lemma writes_unsettled : forall o, optimize_writes o = [] -> settled o.
Proof. intros o H. unfold optimize_writes, settled in *. destruct (o_unordered o) as [[c [|m u]]|]; auto. discriminate. Qed.

Lemma no_writes_same : forall o c, writes o c = [] -> forall o' a, const_call o c = Some (o', a) -> o' = o.
Proof.
  intros o c W o' a E.
  assert (X : optimize_writes o = [] -> obj_optimize o = o).
  { intros H. apply optimize_id, settled_list, writes_unsettled. exact H. }
  destruct c; cbn [const_call writes] in *.
  - unfold obj_read in E. destruct (o_unordered o) as [[cap u]|] eqn:Eu; [|cbn in E; inversion E; reflexivity].
    destruct (16 <? length u) eqn:L.
    + destruct (o_ordered o) as [[d l]|] eqn:Eo; [|discriminate]. cbn [andb] in W.
      destruct (length l / 2 <? length u) eqn:L2.
      * rewrite (X W), Eo in E. destruct (find_member l k); cbn in E; inversion E; reflexivity.
      * destruct (scan_back (rev u) k); [cbn in E; inversion E; reflexivity|]. rewrite Eo in E.
        destruct (find_member l k); cbn in E; inversion E; reflexivity.
    + destruct (scan_back (rev u) k); [cbn in E; inversion E; reflexivity|].
      destruct (o_ordered o) as [[d l]|]; [destruct (find_member l k)|]; cbn in E; inversion E; reflexivity.
  - pose proof (commit_state o) as C. destruct (obj_commit o) as [o1 v]. cbn in C. subst o1. inversion E; subst. auto.
  - unfold obj_commit_diff in E. inversion E; subst. auto.
  - unfold obj_iterate in E. destruct (is_undef (o_snap o)); [discriminate|]. inversion E; reflexivity.
  - inversion E; reflexivity.
  - unfold obj_copy in E. inversion E; subst. auto.
Qed.

Lemma settled_writes : forall o c, settled o -> calm o c -> writes o c = [].
Proof.
  intros o c S C. pose proof (writes_settled o S) as W. destruct c; cbn [writes]; auto.
  - destruct (o_unordered o) as [[cap u]|]; auto. destruct (o_ordered o) as [[d l]|]; auto.
    destruct (_ && _); auto.
  - rewrite (C eq_refl). reflexivity.
Qed.

Lemma settled_no_race : forall o c d, settled o -> calm o c -> calm o d -> ~ race o c d.
Proof.
  intros o c d S C D (f & H). rewrite (settled_writes o c S C), (settled_writes o d S D) in H. cbn in H. tauto.
Qed.

Lemma settled_read : forall o k, settled o -> exists v, obj_read o k = Some (o, v).
Proof.
  intros o k S. unfold obj_read. destruct (o_unordered o) as [[cap u]|] eqn:Eu; [|eauto].
  unfold settled in S. rewrite Eu in S. subst u. cbn. destruct (o_ordered o) as [[d l]|]; [destruct (find_member l k)|]; eauto.
Qed.
Lemma settled_call : forall o c, settled o -> calm o c -> exists a, const_call o c = Some (o, a).
Proof.
  intros o c S C.
  assert (Q : exists o' a, const_call o c = Some (o', a)).
  { destruct c; cbn [const_call].
    - destruct (settled_read o k S) as (v & ->). cbn. eauto.
    - destruct (obj_commit o). eauto.
    - unfold obj_commit_diff. eauto.
    - destruct (obj_iterate o). eauto.
    - eauto.
    - unfold obj_copy. eauto. }
  destruct Q as (o' & a & E). rewrite (no_writes_same o c (settled_writes o c S C) o' a E) in E. eauto.
Qed.

Lemma calls_alone : forall l o, settled o -> Forall (calm o) l ->
  exists r, const_calls o l = Some (o, r) /\ map Some r = map (fun c => option_map snd (const_call o c)) l.
Proof.
  induction l as [|c l IH]; intros o S F; [exists []; auto|]. inversion_clear F as [|? ? C F'].
  destruct (settled_call o c S C) as (a & E). destruct (IH o S F') as (r & E1 & E2).
  exists (a :: r). cbn [const_calls map]. rewrite E, E1. cbn. rewrite E2. auto.
Qed.

Lemma makes_settled : forall o c, c = KCommit \/ c = KCommitDiff \/ c = KCopy \/ (c = KIterate /\ is_undef (o_snap o) = true) ->
  exists o' a, const_call o c = Some (o', a) /\ settled o'.
Proof.
  intros o c H. destruct H as [->|[->|[->|[-> U]]]]; cbn [const_call].
  - pose proof (commit_state o) as C. destruct (obj_commit o) as [o1 v]. cbn in C. subst. exists (obj_optimize o), (AnsValue v).
    split; [reflexivity|]. apply settled_list, optimize_clears.
  - unfold obj_commit_diff. do 2 eexists. split; [reflexivity|]. apply settled_list, optimize_clears.
  - unfold obj_copy. do 2 eexists. split; [reflexivity|]. apply settled_list, optimize_clears.
  - unfold obj_iterate. rewrite U. pose proof (commit_state o) as C. destruct (obj_commit o) as [o1 v]. cbn in C. subst.
    do 2 eexists. split; [reflexivity|]. apply settled_list. exact (optimize_clears o).
Qed.

(** Builders with something to sort. *)
Lemma unsettled_race : forall o c, ~ settled o -> (c = KCommit \/ c = KCommitDiff \/ c = KCopy \/ (c = KIterate /\ is_undef (o_snap o) = true)) ->
  (forall d, (d = KIterate -> is_undef (o_snap o) = true) -> race o c d) /\
  forall o' a, const_call o c = Some (o', a) -> o' <> o.
Proof.
  intros o c N H.
  assert (W : optimize_writes o = [FUnordered; FOrdered]).
  { unfold optimize_writes, settled in *. destruct (o_unordered o) as [[cp u]|]; [|tauto]. destruct u; [tauto|reflexivity]. }
  split.
  - intros d D. exists FUnordered. left. split.
    + destruct H as [->|[->|[->|[-> U]]]]; cbn [writes]; try rewrite U; rewrite W; cbn; auto.
    + right. destruct d; cbn [reads]; try rewrite (D eq_refl); cbn; auto.
  - intros o' a E Q. subst o'. destruct (makes_settled o c H) as (o2 & a2 & E2 & S). rewrite E in E2. inversion E2; subst. tauto.
Qed.

(** What is written and read. *)
Lemma opt_fields : forall o f, ~ In f (optimize_writes o) -> same_field o (obj_optimize o) f.
Proof.
  intros o f N. destruct (optimize_writes o) eqn:W.
  - rewrite optimize_id; [destruct f; reflexivity|]. apply settled_list, writes_unsettled. exact W.
  - unfold optimize_writes in W. destruct (o_unordered o) as [[c u]|] eqn:Eu; [|discriminate].
    destruct (length u =? 0) eqn:L; [discriminate|]. inversion W; subst. cbn in N.
    destruct f; cbn; try tauto. unfold obj_optimize. rewrite Eu, L. reflexivity.
Qed.
Lemma opt_base : forall o, o_base (obj_optimize o) = o_base o.
Proof. intros o. unfold obj_optimize. destruct (o_unordered o) as [[c u]|]; auto. destruct (length u =? 0); auto. Qed.
Lemma opt_snap : forall o, o_snap (obj_optimize o) = o_snap o.
Proof. intros o. unfold obj_optimize. destruct (o_unordered o) as [[c u]|]; auto. destruct (length u =? 0); auto. Qed.

Lemma read_state : forall o k o' v, obj_read o k = Some (o', v) ->
  (writes o (KRead k) = [] /\ o' = o) \/ (writes o (KRead k) = optimize_writes o /\ o' = obj_optimize o).
Proof.
  intros o k o' v E. cbn [writes]. unfold obj_read in E.
  destruct (o_unordered o) as [[cap u]|] eqn:Eu; [|inversion E; auto].
  destruct (16 <? length u) eqn:L.
  - destruct (o_ordered o) as [[d l]|] eqn:Eo; [|discriminate].
    destruct (length l / 2 <? length u) eqn:L2; cbn [andb].
    + right. split; [reflexivity|]. destruct (o_ordered (obj_optimize o)) as [[d2 l2]|]; [destruct (find_member l2 k)|]; inversion E; auto.
    + left. split; [reflexivity|]. destruct (scan_back (rev u) k); [inversion E; auto|]. rewrite Eo in E.
      destruct (find_member l k); inversion E; auto.
  - left. split; [destruct (o_ordered o) as [[d l]|]; reflexivity|].
    destruct (scan_back (rev u) k); [inversion E; auto|].
    destruct (o_ordered o) as [[d l]|]; [destruct (find_member l k)|]; inversion E; auto.
Qed.

Lemma call_state : forall o c o' a, const_call o c = Some (o', a) ->
  (writes o c = [] /\ o' = o) \/ (writes o c = optimize_writes o /\ o' = obj_optimize o) \/
  (c = KIterate /\ writes o c = FSnap :: optimize_writes o /\
   o' = mkObj (o_base o) (snd (obj_commit o)) (o_ordered (obj_optimize o)) (o_unordered (obj_optimize o))).
Proof.
  intros o c o' a E. destruct c; cbn [const_call] in E.
  - destruct (obj_read o k) as [[o1 v]|] eqn:R; [|discriminate]. cbn in E. inversion E; subst.
    destruct (read_state _ _ _ _ R) as [H|H]; auto.
  - pose proof (commit_state o) as C. destruct (obj_commit o) as [o1 v]. cbn in C. subst. inversion E; subst. auto.
  - unfold obj_commit_diff in E. inversion E; subst. auto.
  - cbn [writes]. unfold obj_iterate in E. destruct (is_undef (o_snap o)).
    + right. right. pose proof (commit_state o) as C. destruct (obj_commit o) as [o1 v]. cbn in C. subst.
      inversion E; subst. rewrite opt_base. auto.
    + inversion E; subst. auto.
  - inversion E; subst. auto.
  - unfold obj_copy in E. inversion E; subst. auto.
Qed.

Lemma writes_exact : forall o c o' a, const_call o c = Some (o', a) ->
  o_base o' = o_base o /\ (forall f, ~ In f (writes o c) -> same_field o o' f) /\
  (writes o c <> [] -> o' <> o \/ (c = KIterate /\ is_undef (o_snap o') = true)).
Proof.
  intros o c o' a E. destruct (call_state o c o' a E) as [[W ->]|[[W ->]|(-> & W & ->)]]; rewrite W.
  - split; [reflexivity|]. split; [intros [] _; reflexivity|tauto].
  - split; [apply opt_base|]. split; [apply opt_fields|]. intros N. left. intros Q. apply N, writes_settled, settled_list.
    rewrite <- Q. apply optimize_clears.
  - split; [reflexivity|]. split.
    + intros f N. assert (N2 : ~ In f (optimize_writes o)) by (intros X; apply N; right; exact X).
      pose proof (opt_fields o f N2) as S. destruct f; cbn in *; auto. exfalso. apply N. left. reflexivity.
    + intros _. destruct (is_undef (snd (obj_commit o))) eqn:U; [right; auto|]. left. intros Q.
      assert (V : is_undef (o_snap o) = true).
      { destruct (is_undef (o_snap o)) eqn:V; auto. cbn [writes] in W. rewrite V in W. discriminate. }
      rewrite <- Q in V. cbn [o_snap] in V. congruence.
Qed.

(** Only what is read matters. *)
Lemma obj_ext : forall o1 o2, o_base o1 = o_base o2 -> o_snap o1 = o_snap o2 -> o_ordered o1 = o_ordered o2 ->
  o_unordered o1 = o_unordered o2 -> o1 = o2.
Proof. intros [] []; cbn; intros; subst; reflexivity. Qed.
Definition with_snap (o : obj) (s : value) : obj := mkObj (o_base o) s (o_ordered o) (o_unordered o).
Lemma opt_with : forall o s, obj_optimize (with_snap o s) = with_snap (obj_optimize o) s.
Proof. intros o s. unfold obj_optimize, with_snap. cbn. destruct (o_unordered o) as [[c u]|] eqn:E; [|rewrite E; reflexivity].
  destruct (length u =? 0); [rewrite E|]; reflexivity. Qed.
Lemma commit_diff_with : forall o s, snd (obj_commit_diff (with_snap o s)) = snd (obj_commit_diff o).
Proof. intros o s. unfold obj_commit_diff. rewrite opt_with. reflexivity. Qed.
Lemma commit_with : forall o s, snd (obj_commit (with_snap o s)) = snd (obj_commit o).
Proof.
  intros o s. unfold obj_commit. rewrite opt_with. unfold obj_commit_diff. rewrite opt_with.
  cbn [with_snap o_ordered o_base]. destruct (o_ordered (obj_optimize o)); reflexivity.
Qed.
Lemma read_with : forall o s k, option_map snd (obj_read (with_snap o s) k) = option_map snd (obj_read o k).
Proof.
  intros o s k. unfold obj_read. rewrite opt_with. cbn [with_snap o_unordered o_ordered o_base].
  destruct (o_unordered o) as [[cap u]|]; [|reflexivity].
  destruct (if 16 <? length u then _ else _) as [[|]|]; [| |reflexivity]; cbn [with_snap o_unordered o_ordered o_base].
  - destruct (o_ordered (obj_optimize o)) as [[d l]|]; [destruct (find_member l k)|]; reflexivity.
  - destruct (scan_back (rev u) k); [reflexivity|].
    destruct (o_ordered o) as [[d l]|]; [destruct (find_member l k)|]; reflexivity.
Qed.

Lemma reads_enough : forall o1 o2 c, o_base o1 = o_base o2 -> (forall f, In f (reads o1 c) -> same_field o1 o2 f) ->
  option_map snd (const_call o1 c) = option_map snd (const_call o2 c).
Proof.
  intros o1 o2 c B R.
  assert (X : In FOrdered (reads o1 c) -> In FUnordered (reads o1 c) -> o2 = with_snap o1 (o_snap o2)).
  { intros H1 H2. apply R in H1, H2. cbn in H1, H2. apply obj_ext; cbn; auto. }
  destruct c; cbn [reads] in *; cbn [const_call].
  1,2,3,5,6: rewrite (X (or_introl eq_refl) (or_intror (or_introl eq_refl))); clear X.
  - pose proof (read_with o1 (o_snap o2) k) as Q. destruct (obj_read o1 k), (obj_read (with_snap o1 (o_snap o2)) k); cbn in *; try discriminate; congruence.
  - pose proof (commit_with o1 (o_snap o2)) as Q. destruct (obj_commit o1), (obj_commit (with_snap o1 (o_snap o2))). cbn in *. congruence.
  - pose proof (commit_diff_with o1 (o_snap o2)) as Q. destruct (obj_commit_diff o1), (obj_commit_diff (with_snap o1 (o_snap o2))). cbn in *. congruence.
  - reflexivity.
  - unfold obj_copy. rewrite opt_with. reflexivity.
  - pose proof (R FSnap (or_introl eq_refl)) as S. cbn in S. unfold obj_iterate. rewrite <- S.
    destruct (is_undef (o_snap o1)) eqn:U.
    + assert (Q : o1 = o2). { apply obj_ext; auto; [apply (R FOrdered)|apply (R FUnordered)]; cbn; auto. }
      rewrite <- Q. reflexivity.
    + cbn. rewrite S. reflexivity.
Qed.

(** Calls on builders with changes waiting: none changes what another answers. *)
Definition later (o o' : obj) : Prop := exists v,
  (v = o_snap o \/ (is_undef (o_snap o) = true /\ v = snd (obj_commit o))) /\ (o' = with_snap o v \/ o' = with_snap (obj_optimize o) v).

Lemma with_snap_same : forall o, with_snap o (o_snap o) = o.
Proof. intros []. reflexivity. Qed.
Lemma opt_with_snap : forall o v, obj_optimize (with_snap o v) = with_snap (obj_optimize o) v.
Proof. exact opt_with. Qed.
Lemma opt_twice : forall o, obj_optimize (obj_optimize o) = obj_optimize o.
Proof. intros o. apply optimize_id, optimize_clears. Qed.
Lemma commit_opt : forall o, snd (obj_commit (obj_optimize o)) = snd (obj_commit o).
Proof. intros o. unfold obj_commit. rewrite opt_twice. reflexivity. Qed.
Lemma commit_snap : forall o v, snd (obj_commit (with_snap o v)) = snd (obj_commit o).
Proof. exact commit_with. Qed.
Lemma later_opt : forall o o', later o o' -> exists v, (v = o_snap o \/ (is_undef (o_snap o) = true /\ v = snd (obj_commit o))) /\
  o_snap o' = v /\ obj_optimize o' = with_snap (obj_optimize o) v /\ snd (obj_commit o') = snd (obj_commit o) /\ o_base o' = o_base o.
Proof.
  intros o o' (v & V & [->| ->]); exists v; (split; [exact V|]); (split; [reflexivity|]).
  - rewrite opt_with_snap, commit_snap. auto.
  - rewrite opt_with_snap, opt_twice, commit_snap, commit_opt. cbn. rewrite opt_base. auto.
Qed.
Lemma later_inv : forall o o' s, inv o s -> later o o' -> inv o' s.
Proof.
  intros o o' s I (v & _ & [->| ->]); apply inv_snap; [exact I|apply optimize_inv; exact I].
Qed.
Lemma later_optimized : forall o o', later o o' -> later o (obj_optimize o').
Proof.
  intros o o' H. destruct (later_opt o o' H) as (v & V & _ & E & _). exists v. split; [exact V|]. right. exact E.
Qed.

Lemma call_later : forall o o' s c, inv o s -> later o o' -> exists o'' a,
  const_call o' c = Some (o'', a) /\ later o o'' /\ option_map snd (const_call o c) = Some a.
Proof.
  intros o o' s c I H. pose proof (later_inv o o' s I H) as I'. pose proof (later_optimized o o' H) as H1.
  destruct (later_opt o o' H) as (v & V & Sv & Eo & Ec & Eb).
  destruct c; cbn [const_call].
  - destruct (read_spec o s k I) as (p & E & _). destruct (read_spec o' s k I') as (p' & E' & _). rewrite E, E'. cbn.
    exists p', (AnsValue (spec_read s k)). split; [reflexivity|]. split; [|reflexivity].
    destruct (read_state o' k p' _ E') as [(_ & ->)|(_ & ->)]; assumption.
  - pose proof (commit_state o') as C. destruct (obj_commit o') as [o1 w]. cbn in C, Ec. subst o1 w.
    exists (obj_optimize o'), (AnsValue (snd (obj_commit o))). split; [reflexivity|]. split; [exact H1|]. destruct (obj_commit o). reflexivity.
  - unfold obj_commit_diff. rewrite Eo. do 2 eexists. split; [reflexivity|]. split; [|reflexivity]. rewrite <- Eo. exact H1.
  - unfold obj_iterate. destruct (is_undef (o_snap o')) eqn:U.
    + pose proof (commit_state o') as C. destruct (obj_commit o') as [o1 w]. cbn in C, Ec. subst o1 w.
      exists (with_snap (obj_optimize o') (snd (obj_commit o))), (AnsItems (members_of (snd (obj_commit o)))).
      split; [reflexivity|]. assert (U0 : is_undef (o_snap o) = true).
      { destruct V as [V|[V _]]; [congruence|exact V]. }
      split; [|rewrite U0; destruct (obj_commit o); reflexivity].
      exists (snd (obj_commit o)). split; [right; auto|]. right. rewrite Eo. reflexivity.
    + exists o', (AnsItems (members_of (o_snap o'))). split; [reflexivity|]. split; [exact H|].
      rewrite Sv. destruct V as [->|[U0 ->]].
      * rewrite <- Sv, U. rewrite Sv. reflexivity.
      * rewrite U0. destruct (obj_commit o). reflexivity.
  - exists o', (AnsFlag (obj_dirty o')). split; [reflexivity|]. split; [exact H|].
    rewrite (dirty_changes o s I), (dirty_changes o' s I'). reflexivity.
  - unfold obj_copy. rewrite Eo, Eb. cbn. do 2 eexists. split; [reflexivity|]. split; [|reflexivity]. rewrite <- Eo. exact H1.
Qed.

Lemma calls_later : forall l o o' s, inv o s -> later o o' -> exists o'' r,
  const_calls o' l = Some (o'', r) /\ later o o'' /\ map Some r = map (fun c => option_map snd (const_call o c)) l.
Proof.
  induction l as [|c l IH]; intros o o' s I H; [exists o', []; auto|].
  destruct (call_later o o' s c I H) as (o1 & a & E & H1 & A). destruct (IH o o1 s I H1) as (o2 & r & E2 & H2 & A2).
  exists o2, (a :: r). cbn [const_calls map]. rewrite E, E2, A, A2. auto.
Qed.

Lemma calls_any : forall b1 b2 ops l, base_ok b1 -> base_ok b2 -> Forall op_ok ops ->
  exists x y, obj_run (obj_new b1, obj_new b2) ops = Some (x, y) /\ exists x' r,
    const_calls x l = Some (x', r) /\ map Some r = map (fun c => option_map snd (const_call x c)) l /\
    (forall c, option_map snd (const_call x' c) = option_map snd (const_call x c)) /\
    (settled x \/ Exists (fun c => c = KCommit \/ c = KCommitDiff \/ c = KCopy) l -> settled x').
Proof.
  intros b1 b2 ops l B1 B2 F.
  destruct (run_inv ops _ _ _ _ (new_inv b1 B1) (new_inv b2 B2) F) as (x & y & E & I & _).
  exists x, y. split; [exact E|].
  assert (R : later x x). { exists (o_snap x). split; [auto|]. left. symmetry. apply with_snap_same. }
  destruct (calls_later l x x _ I R) as (x' & r & E1 & H & A). exists x', r. split; [exact E1|]. split; [exact A|]. split.
  - intros c. destruct (call_later x x' _ c I H) as (x2 & a & E2 & _ & A2). rewrite E2, A2. reflexivity.
  - assert (K : forall c o o' a, const_call o c = Some (o', a) -> settled o -> settled o').
    { intros c o o' a C S. apply settled_list. apply settled_list in S. destruct c; cbn [const_call] in C.
      - destruct (obj_read o k) as [[p v]|] eqn:Er; [|discriminate]. cbn in C. inversion C; subst.
        destruct (read_state o k _ _ Er) as [(_ & ->)|(_ & ->)]; [exact S|apply optimize_clears].
      - pose proof (commit_state o) as Q. destruct (obj_commit o). cbn in Q. inversion C; subst. apply optimize_clears.
      - unfold obj_commit_diff in C. inversion C; subst. apply optimize_clears.
      - unfold obj_iterate in C. destruct (is_undef (o_snap o)); [|inversion C; subst; exact S].
        pose proof (commit_state o) as Q. destruct (obj_commit o). cbn in Q. inversion C; subst. exact (optimize_clears o).
      - inversion C; subst. exact S.
      - unfold obj_copy in C. inversion C; subst. apply optimize_clears. }
    clear H A I R E F. revert x x' r E1.
    induction l as [|c l IH]; intros x x' r E1 Hs.
    + cbn in E1. inversion E1; subst. destruct Hs as [Hs|Hs]; [exact Hs|inversion Hs].
    + cbn [const_calls] in E1. destruct (const_call x c) as [[o1 a]|] eqn:C; [|discriminate].
      destruct (const_calls o1 l) as [[o2 r2]|] eqn:C2; [|discriminate]. inversion E1; subst.
      apply (IH o1 _ r2 C2). destruct Hs as [Hs|Hs]; [left; eapply K; eauto|].
      inversion Hs as [? ? Hc|? ? Hc]; subst; [left|right; exact Hc].
      destruct (makes_settled x c ltac:(tauto)) as (o3 & a3 & E3 & S3). rewrite C in E3. inversion E3; subst. exact S3.
Qed.
