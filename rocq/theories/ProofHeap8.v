(** Whole programs. *)
From Verif Require Import Base ModelKeyed SpecKeyed ProofKeyed ModelValue ModelObject SpecObject ProofObject
  ModelHeap SpecHeap ProofHeap ProofHeap2 ProofHeap3 ProofHeap4 ProofHeap5 ProofHeap6 ProofHeap7.

Lemma run_sim : forall ops P st ss ss', agree P st ss -> sruns ss ops ss' ->
  exists st' P', h_run st ops = Some st' /\ agree P' st' ss'.
Proof.
  induction ops as [|op ops IH]; intros P st ss ss' A H; inversion H; subst.
  - exists st, P. auto.
  - destruct (step_sim _ _ _ _ _ A H3) as (st1 & P1 & E & A1). cbn [h_run]. rewrite E. eapply IH; eauto.
Qed.

Lemma init_agree : agree (fun _ => False) hs_init ([], []).
Proof. constructor; [exact init_ok|constructor|constructor]. Qed.

Theorem values_follow : forall ops bs vs, sruns ([], []) ops (bs, vs) ->
  exists st, h_run hs_init ops = Some st /\ Forall2 (shows (hs_heap st)) (hs_vals st) vs.
Proof.
  intros ops bs vs H. destruct (run_sim _ _ _ _ _ init_agree H) as (st & P & E & A). exists st. split; auto. apply A.
Qed.

(** *** The meaning is a function, and total on the operations that have one. *)
Lemma named_det : forall vs l m1 m2, Forall2 (named vs) l m1 -> Forall2 (named vs) l m2 -> m1 = m2.
Proof.
  intros vs l m1 m2 H. revert m2. induction H as [|x [k v] l m [H1 H2] H IH]; intros m2 H'; inversion H' as [|? [k' v'] ? m2' [G1 G2] G]; subst; auto.
  cbn [fst snd] in *. f_equal; [congruence|auto].
Qed.
Lemma named_arr : forall vs is l, Forall2 (fun i m => named vs ([], i) m) is l ->
  Forall2 (named vs) (map (fun i => ([], i)) is) l.
Proof. intros vs is l H. induction H; constructor; auto. Qed.

Ltac same_entries := repeat match goal with
  | E : nth_error ?l ?i = Some _, E' : nth_error ?l ?i = Some _ |- _ =>
    rewrite E in E'; inversion E'; clear E'; subst
  end.

Lemma step_det : forall ss op a b, sstep ss op a -> sstep ss op b -> a = b.
Proof.
  intros ss op a b H1 H2. inversion H1; subst; inversion H2; subst; same_entries; auto; try contradiction.
  all: try match goal with
    | A : committed ?s ?v, B : committed ?s ?w |- _ => rewrite (committed_det _ _ _ A B); reflexivity
    | A : committed_diff ?s ?v, B : committed_diff ?s ?w |- _ => rewrite (committed_diff_det _ _ _ A B); reflexivity
    | A : applied ?s ?t ?v, B : applied ?s ?t ?w |- _ => rewrite (applied_det _ _ _ _ A B); reflexivity
    end.
  - rewrite (named_det vs (map (fun i => ([], i)) is) l l0); auto using named_arr.
  - assert (ms = ms0) by (eapply named_det; eauto). subst ms0. rewrite (listed_det ms v v0); auto.
Qed.

Lemma runs_det : forall ops ss a b, sruns ss ops a -> sruns ss ops b -> a = b.
Proof.
  induction ops as [|op ops IH]; intros ss a b H1 H2; inversion H1; inversion H2; subst; auto.
  assert (s' = s'0) by (eapply step_det; eauto). subst. eauto.
Qed.

Lemma named_all : forall vs l, Forall (fun ki => has_val vs (snd ki)) l -> exists ms, Forall2 (named vs) l ms.
Proof.
  intros vs l H. induction H as [|[k i] l (v & Hv) H (ms & IH)]; [exists []; constructor|].
  exists ((k, v) :: ms). constructor; auto. split; auto.
Qed.

Lemma step_total : forall P st ss op, agree P st ss -> defined_op ss op -> exists ss', sstep ss op ss'.
Proof.
  intros P st [bs vs] op A D. destruct op; cbn [defined_op] in D;
    unfold in_use, has_val, has_base, has_builder in D.
  - eexists. apply S_lit.
  - assert (F : Forall (fun ki => has_val vs (snd ki)) (map (fun i => (@nil Z, i)) is)).
    { clear A. induction D; constructor; auto. }
    destruct (named_all _ _ F) as (ms & H). eexists. eapply (S_arr bs vs is ms). clear - H.
    remember (map (fun i => ([], i)) is) as l eqn:E. revert is E. induction H; intros [|i is] E; inversion E; subst; constructor; auto.
  - destruct D as (v & D1 & D2). eexists. eapply S_new; eauto.
  - destruct (named_all _ _ D) as (ms & H). eexists. eapply S_list; [exact H|]. apply listed_content.
  - destruct D as [(s & r & D1) (v & D2)]. eexists. eapply S_set; eauto.
  - destruct D as (s & r & D1). eexists. eapply S_unset; eauto.
  - destruct D as [(s & r & D1) (v & D2)]. eexists. eapply S_merge; eauto.
  - destruct D as (s & r & D1). eexists. eapply S_optimize; eauto.
  - destruct D as (s & r & D1). eexists. eapply S_read; eauto.
  - destruct D as (s & r & D1). destruct (agree_in_use _ _ _ _ _ _ _ A D1) as (o & p & _ & _ & _ & Iv & _).
    eexists. eapply S_commit; eauto. apply commit_content; eauto.
  - destruct D as (s & r & D1). destruct (agree_in_use _ _ _ _ _ _ _ A D1) as (o & p & _ & _ & _ & Iv & _).
    eexists. eapply S_commit_diff; eauto. apply commit_diff_content; eauto.
  - assert (D' : (exists s, nth_error bs b = Some (mkSB (Some s) None)) \/ exists n s, nth_error bs b = Some (mkSB n (Some s))).
    { destruct D as [(s & [r|] & D1)|D]; eauto. }
    destruct D' as [(s & D1)|(n & s & D1)].
    + destruct (agree_in_use _ _ _ _ _ _ _ A D1) as (o & p & _ & _ & _ & Iv & _).
      eexists. eapply S_iterate; eauto. apply commit_content; eauto.
    + destruct (agree_obj _ _ _ _ _ _ A D1) as (o & _ & B & _). destruct (brel_snap _ _ _ _ B) as (w & _ & W & _).
      eexists. eapply S_iterate_again; eauto.
  - destruct D as ([n r] & D). eexists. eapply S_clear; eauto.
  - destruct D as ([n r] & D). eexists. eapply S_revert; eauto.
  - destruct D as [([n r] & D) (v & D1 & D2)]. eexists. eapply S_set_base; eauto.
  - destruct D as (s & r & D1). eexists. eapply S_copy; eauto.
  - destruct (Nat.eq_dec b c) as [->|N].
    + destruct D as [(x & D) _]. eexists. eapply S_assign_self; eauto.
    + destruct D as [([n r] & D) [D1|(s & r' & D1)]]; [contradiction|]. eexists. eapply S_assign; eauto.
  - destruct D as ([n r] & D). eexists. eapply S_move_new; eauto.
  - destruct (Nat.eq_dec b c) as [->|N].
    + destruct D as [(x & D) _]. eexists. eapply S_move_self; eauto.
    + destruct D as [([n r] & D) ([n' r'] & D1)]. eexists. eapply S_move; eauto.
  - destruct D as (v & D1 & D2). eexists. eapply S_member; eauto.
  - destruct D as (v & D1). eexists. eapply S_item; eauto.
  - destruct D as [(b & D1 & D2) (d & D3 & D4)]. eexists. eapply S_apply_diff; eauto. apply apply_content; auto.
Qed.

Theorem meaning_total : forall ops ss op, sruns ([], []) ops ss ->
  (exists ss', sstep ss op ss' /\ forall ss'', sstep ss op ss'' -> ss'' = ss') <-> defined_op ss op.
Proof.
  intros ops ss op H. destruct (run_sim _ _ _ _ _ init_agree H) as (st & P & E & A). split.
  - intros (ss' & H1 & _). inversion H1; subst; cbn [defined_op]; unfold in_use, has_val, has_base, has_builder; eauto 10.
    + clear - H0. induction H0 as [|i [k v] is l [_ G]]; constructor; eauto.
    + clear - H0. induction H0 as [|i [k v] is l [_ G]]; constructor; eauto.
  - intros D. destruct (step_total _ _ _ _ A D) as (ss' & S'). exists ss'. split; auto. intros. eapply step_det; eauto.
Qed.

(** A builder no operation names keeps its contents. *)
Lemma nth_replaced : forall {A} (l : list A) i x c y, nth_error l i = Some y -> c <> i ->
  nth_error (replaced l i x) c = nth_error l c.
Proof.
  intros A l i x c y H N. rewrite replaced_put by (eapply nth_some_lt; eauto). rewrite nth_put.
  destruct (Nat.eqb_spec c i); [contradiction|auto].
Qed.
Lemma nth_more : forall {A} (l : list A) x c y, nth_error l c = Some y -> nth_error (l ++ [x]) c = Some y.
Proof. intros A l x c y H. rewrite nth_error_app1; auto. eapply nth_some_lt; eauto. Qed.

Lemma step_apart : forall ss op ss' c s r, sstep ss op ss' -> ~ In c (changed_by op) ->
  nth_error (fst ss) c = Some (mkSB (Some s) r) -> exists r', nth_error (fst ss') c = Some (mkSB (Some s) r').
Proof.
  intros ss op ss' c s r H N Hc. inversion H; subst; cbn [fst changed_by In] in *; eauto using nth_more;
    try (match goal with E : nth_error ?bs ?b = Some _ |- exists r, nth_error (replaced ?bs ?b _) _ = _ =>
      rewrite (nth_replaced _ _ _ _ _ E) by intuition; eauto end; fail).
  - destruct (Nat.eq_dec c b) as [->|Nb].
    + rewrite H0 in Hc. inversion Hc; subst. exists (seen_iter s None). rewrite replaced_put by (eapply nth_some_lt; eauto).
      rewrite nth_put, Nat.eqb_refl. pose proof (nth_some_lt _ _ _ H0) as L. apply Nat.ltb_lt in L. rewrite L. reflexivity.
    + rewrite (nth_replaced _ _ _ _ _ H0) by auto. eauto.
  - exists r. apply nth_more. rewrite (nth_replaced _ _ _ _ _ H0) by intuition. auto.
  - exists r. rewrite replaced_put by (unfold replaced; rewrite app_length; cbn [length]; rewrite firstn_length, skipn_length;
      apply nth_some_lt in H1; apply nth_some_lt in H2; lia).
    rewrite nth_put. destruct (Nat.eqb_spec c c0) as [->|_]; [tauto|]. rewrite (nth_replaced _ _ _ _ _ H1) by intuition. auto.
Qed.

Lemma runs_apart : forall ops ss ss' c s r, sruns ss ops ss' -> Forall (fun op => ~ In c (changed_by op)) ops ->
  nth_error (fst ss) c = Some (mkSB (Some s) r) -> exists r', nth_error (fst ss') c = Some (mkSB (Some s) r').
Proof.
  induction ops as [|op ops IH]; intros ss ss' c s r H F Hc; inversion H; inversion F; subst; eauto.
  destruct (step_apart _ _ _ _ _ _ H3 H8 Hc) as (r1 & H1). eauto.
Qed.

Theorem builders_apart : forall ops1 ops2 ss1 ss2 c k, sruns ([], []) ops1 ss1 -> sruns ss1 ops2 ss2 ->
  in_use (fst ss1) c -> Forall (fun op => ~ In c (changed_by op)) ops2 ->
  exists st1 st2 o1 o2 h1 h2 o1' o2' x1 x2 v, h_run hs_init ops1 = Some st1 /\ h_run st1 ops2 = Some st2 /\
    nth_error (hs_objs st1) c = Some o1 /\ nth_error (hs_objs st2) c = Some o2 /\
    h_read (hs_heap st1) o1 k = Some (h1, o1', x1) /\ h_read (hs_heap st2) o2 k = Some (h2, o2', x2) /\
    shows h1 x1 v /\ shows h2 x2 v.
Proof.
  intros ops1 ops2 [bs1 vs1] [bs2 vs2] c k H1 H2 (s & r & Hc) F. cbn [fst] in Hc.
  destruct (run_sim _ _ _ _ _ init_agree H1) as (st1 & P1 & E1 & A1).
  destruct (run_sim _ _ _ _ _ A1 H2) as (st2 & P2 & E2 & A2).
  destruct (runs_apart _ _ _ _ _ _ H2 F Hc) as (r' & Hc'). cbn [fst] in Hc'.
  destruct (agree_in_use _ _ _ _ _ _ _ A1 Hc) as (o1 & p1 & B1 & K1 & R1 & I1 & _).
  destruct (agree_in_use _ _ _ _ _ _ _ A2 Hc') as (o2 & p2 & B2 & K2 & R2 & I2 & _).
  destruct (read_spec p1 s k I1) as (q1 & Q1 & _). destruct (read_spec p2 s k I2) as (q2 & Q2 & _).
  destruct (read_sim _ _ _ _ _ _ _ (v_closed _ _ (a_inv _ _ _ A1)) K1 R1 Q1) as (h1 & o1' & x1 & X1 & _ & Y1).
  destruct (read_sim _ _ _ _ _ _ _ (v_closed _ _ (a_inv _ _ _ A2)) K2 R2 Q2) as (h2 & o2' & x2 & X2 & _ & Y2).
  exists st1, st2, o1, o2, h1, h2, o1', o2', x1, x2, (spec_read s k). auto 12.
Qed.
