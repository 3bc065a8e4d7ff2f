(** Proofs about the data kept with a connection. *)
From Coq Require Import Lia.
From Verif Require Import Base ModelKeyed SpecKeyed ModelValue ModelObject SpecObject ModelConst SpecConst ModelConn SpecConn ProofKeyed PropObject.

Definition as_op (op : conn_op) : oop := match op with DStore k v => OSet k v | DRetrieve k => ORead k end.
Lemma as_op_ok : forall ops, Forall op_ok (map as_op ops).
Proof. induction ops as [|[k v|k] ops IH]; constructor; auto; exact I. Qed.

Lemma last_app : forall A k (l m : list (bytes * A)), last_binding k (l ++ m) = match last_binding k m with Some v => Some v | None => last_binding k l end.
Proof.
  intros A k l m. induction l as [|[k' v] l IH]; cbn [app last_binding]; [destruct (last_binding k m); reflexivity|].
  rewrite IH. destruct (last_binding k m); reflexivity.
Qed.

Lemma obj_run_app : forall a b p, obj_run p (a ++ b) = match obj_run p a with Some q => obj_run q b | None => None end.
Proof.
  induction a as [|o a IH]; intros b [x y]; [reflexivity|]. cbn [app obj_run]. destruct (obj_step (x, y) o); [apply IH|reflexivity].
Qed.

Lemma base_empty : base_ok empty_object.
Proof. split; [constructor|]. intros _ k v []. Qed.

Lemma conn_gen : forall ops pre d y t, obj_run (conn_new, conn_new) (map as_op pre) = Some (d, y) ->
  (forall k, spec_read (fst (spec_run (mkSpec empty_object [], mkSpec empty_object []) (map as_op pre))) k = t k) ->
  exists d', conn_run d ops = Some (d', expected t ops) /\ obj_run (conn_new, conn_new) (map as_op (pre ++ ops)) = Some (d', y).
Proof.
  induction ops as [|op ops IH]; intros pre d y t Hr Ht; [exists d; rewrite app_nil_r; auto|].
  assert (Happ : forall d1, obj_step (d, y) (as_op op) = Some (d1, y) -> obj_run (conn_new, conn_new) (map as_op (pre ++ [op])) = Some (d1, y)).
  { intros d1 H. rewrite map_app, obj_run_app, Hr. cbn [map obj_run]. rewrite H. reflexivity. }
  replace (pre ++ op :: ops) with ((pre ++ [op]) ++ ops) by (rewrite <- app_assoc; reflexivity).
  destruct op as [k v|k]; cbn [conn_run conn_step expected].
  - destruct (IH (pre ++ [DStore k v]) (obj_set d (k, v)) y (put t k v)) as (d' & E1 & E2).
    + apply Happ. reflexivity.
    + intros k'. unfold spec_run. rewrite map_app, fold_left_app. fold (spec_run (mkSpec empty_object [], mkSpec empty_object []) (map as_op pre)).
      specialize (Ht k'). destruct (spec_run _ (map as_op pre)) as [u w]. cbn [map as_op fold_left spec_step fst] in *. unfold spec_read, spec_get, spec_add in *.
      cbn [s_changes s_base]. rewrite last_app. cbn [last_binding]. unfold put. destruct (beqb k k'); [reflexivity|exact Ht].
    + rewrite E1. exists d'. auto.
  - destruct (C11_read empty_object empty_object (map as_op pre) k base_empty base_empty (as_op_ok pre)) as (x1 & y1 & H1 & x2 & H2).
    unfold conn_new in Hr. rewrite Hr in H1. injection H1 as <- <-. rewrite Ht in H2. rewrite H2. cbn [option_map fst snd].
    destruct (IH (pre ++ [DRetrieve k]) x2 y t) as (d' & E1 & E2).
    + apply Happ. cbn [as_op obj_step]. rewrite H2. reflexivity.
    + intros k'. unfold spec_run. rewrite map_app, fold_left_app. fold (spec_run (mkSpec empty_object [], mkSpec empty_object []) (map as_op pre)).
      specialize (Ht k'). destruct (spec_run _ (map as_op pre)) as [u w]. exact Ht.
    + rewrite E1. exists d'. auto.
Qed.

Lemma conn_table : forall ops, exists d, conn_run conn_new ops = Some (d, expected (fun _ => VUndef) ops).
Proof.
  intros ops. destruct (conn_gen ops [] conn_new conn_new (fun _ => VUndef)) as (d & E & _); [reflexivity| |eauto].
  intros k. reflexivity.
Qed.

(** [n] stores so far. *)
Definition few (n : nat) (d : obj) : Prop :=
  (o_unordered d = None /\ n = 0) \/
  (exists u, o_unordered d = Some (8, u) /\ length u = n /\ n <= 8) \/
  (exists u, o_unordered d = Some (16, u) /\ 8 + length u = n /\ length u <= 16) \/
  (exists u, o_unordered d = Some (32, u) /\ 24 + length u = n).

Lemma few_read : forall n d k d' v, few n d -> n <= 40 -> obj_read d k = Some (d', v) -> d' = d.
Proof.
  intros n d k d' v F H R. assert (U : forall cap u, o_unordered d = Some (cap, u) -> length u <= 16).
  { intros cap u E. destruct F as [[F _]|[(w & F & F1 & F2)|[(w & F & F1 & F2)|(w & F & F1)]]]; rewrite F in E; try discriminate; injection E as <- <-; lia. }
  unfold obj_read in R. destruct (o_unordered d) as [[cap u]|] eqn:E; [|congruence]. specialize (U _ _ eq_refl).
  replace (16 <? length u) with false in R by (symmetry; apply Nat.ltb_ge; lia).
  destruct (scan_back (rev u) k); [congruence|]. destruct (o_ordered d) as [[? l]|]; [|congruence]. destruct (find_member l k); congruence.
Qed.
Lemma few_set : forall n d m, few n d -> n < 40 -> few (S n) (obj_set d m).
Proof.
  intros n d m F H. unfold obj_set, obj_set_internal, cpush. unfold few in *.
  destruct F as [[F ->]|[(u & F & F1 & F2)|[(u & F & F1 & F2)|(u & F & F1)]]]; rewrite F.
  - cbn. right. left. eexists. split; [reflexivity|]. cbn. lia.
  - destruct (Nat.ltb_spec (length u) 8) as [G|G].
    + cbn [fst o_unordered]. right. left. eexists. split; [reflexivity|]. rewrite app_length. cbn. lia.
    + replace (length u * 2) with 16 by lia. cbn [length Nat.ltb Nat.leb app fst o_unordered]. right. right. left. exists [m]. split; [reflexivity|]. cbn. lia.
  - destruct (Nat.ltb_spec (length u) 16) as [G|G].
    + cbn [fst o_unordered]. right. right. left. eexists. split; [reflexivity|]. rewrite app_length. cbn. lia.
    + replace (length u * 2) with 32 by lia. cbn [length Nat.ltb Nat.leb app fst o_unordered]. right. right. right. exists [m]. split; [reflexivity|]. cbn. lia.
  - destruct (Nat.ltb_spec (length u) 32) as [G|G]; [|lia]. cbn [fst o_unordered]. right. right. right. eexists. split; [reflexivity|]. rewrite app_length. cbn. lia.
Qed.
Lemma few_run : forall ops n d d' r, few n d -> n + stores ops <= 40 -> conn_run d ops = Some (d', r) -> few (n + stores ops) d'.
Proof.
  induction ops as [|[k v|k] ops IH]; intros n d d' r F H R; cbn [conn_run conn_step] in R; unfold stores in *; cbn [filter length] in *.
  - injection R as <- <-. rewrite Nat.add_0_r. exact F.
  - destruct (conn_run (obj_set d (k, v)) ops) as [[d2 r']|] eqn:E; [|discriminate]. injection R as <- <-.
    replace (n + S _) with (S n + length (filter (fun op => match op with DStore _ _ => true | DRetrieve _ => false end) ops)) by lia.
    eapply IH; [apply few_set; [exact F|lia]|lia|exact E].
  - destruct (obj_read d k) as [[d1 v]|] eqn:Er; [|discriminate]. cbn [option_map fst snd] in R. apply (few_read n) in Er; [|exact F|lia]. subst d1.
    destruct (conn_run d ops) as [[d2 r']|] eqn:E; [|discriminate]. injection R as <- <-. eapply IH; eauto.
Qed.

Lemma few_quiet : forall ops d r k k', stores ops <= 40 -> conn_run conn_new ops = Some (d, r) -> ~ race d (KRead k) (KRead k') /\
  exists v, obj_read d k = Some (d, v).
Proof.
  intros ops d r k k' H R. assert (F : few (stores ops) d) by (apply (few_run ops 0 conn_new d r); [left; auto|exact H|exact R]).
  assert (U : forall cap u, o_unordered d = Some (cap, u) -> length u <= 16).
  { intros cap u E. destruct F as [[F _]|[(w & F & F1 & F2)|[(w & F & F1 & F2)|(w & F & F1)]]]; rewrite F in E; try discriminate; injection E as <- <-; lia. }
  split.
  - assert (W : forall q, writes d (KRead q) = []).
    { intros q. cbn [writes]. destruct (o_unordered d) as [[cap u]|]; [|reflexivity]. destruct (o_ordered d) as [[b l]|]; [|reflexivity].
      specialize (U _ _ eq_refl). replace (16 <? length u) with false by (symmetry; apply Nat.ltb_ge; lia). reflexivity. }
    intros (f & [[X _]|[X _]]); rewrite W in X; destruct X.
  - destruct (conn_table (ops ++ [DRetrieve k])) as (d' & E). assert (G : forall o e, conn_run e ops = Some (d, o) -> conn_run e (ops ++ [DRetrieve k]) =
      match conn_step d (DRetrieve k) with Some (d2, q) => Some (d2, o ++ q) | None => None end).
    { clear. induction ops as [|op ops IH]; intros o e R; cbn [app conn_run] in *.
      - injection R as -> <-. destruct (conn_step d (DRetrieve k)) as [[d1 q]|]; [rewrite app_nil_r; reflexivity|reflexivity].
      - destruct (conn_step e op) as [[d1 q]|]; [|discriminate]. destruct (conn_run d1 ops) as [[d2 q']|] eqn:E; [|discriminate]. injection R as -> <-.
        rewrite (IH _ _ E). destruct (conn_step d (DRetrieve k)) as [[d3 q3]|]; [rewrite app_assoc; reflexivity|reflexivity]. }
    rewrite (G r conn_new R) in E. cbn [conn_step] in E. destruct (obj_read d k) as [[d1 v]|] eqn:Er; [|discriminate].
    apply (few_read (stores ops)) in Er as X; [|exact F|exact H]. subst d1. eauto.
Qed.
