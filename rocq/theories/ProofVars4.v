(** Converted subjects and emitted values. *)
From Coq Require Import String Ascii Lia ZifyBool ZifyNat.
From Verif Require Import Base ModelKeyed SpecKeyed ProofKeyed ModelValue ProofValue ModelText SpecText ModelObject SpecObject ProofObject ModelArray ModelEq ModelBin
  ModelUtf8 ModelJwt ModelString ModelPath ModelRpc ModelNumView ModelDate ModelValidator SpecValidator SpecVars ProofValidator ProofValidator2 ProofValidator3 ProofValidator4 ProofVars ProofVars2.
Local Open Scope Z_scope.
Local Open Scope list_scope.

Lemma key_rule : forall V vars m k e rules, let r := VArr ((k, VStr e (txt "key")) :: rules) in let n := ([], VStr None (fst m)) in
  (accepts V vars m r <-> one_accepts V vars n rules) /\ (rejects V vars m r <-> Forall (fun y => rejects V vars n (snd y)) rules).
Proof. intros V vars m k e rules r n. apply ends_alternatives. intros g p s E b. unfold rule_step, r. rewrite close_is. reflexivity. Qed.
Lemma tostring_rule : forall V vars m k e rules t, to_string (v_E V) (v_utf8 V) (snd m) = Some t ->
  let r := VArr ((k, VStr e (txt "tostring")) :: rules) in let n := ([], VStr None t) in
  (accepts V vars m r <-> one_accepts V vars n rules) /\ (rejects V vars m r <-> Forall (fun y => rejects V vars n (snd y)) rules).
Proof.
  intros V vars m k e rules t T r n. apply ends_alternatives. intros g p s E b. unfold rule_step, r. rewrite close_is.
  change (out_is (match to_string (v_E V) (v_utf8 V) (snd m) with Some t => alternatives (eval_rule V g) p ([], VStr None t) rules s | None => VThrow s end) b <-> out_is (alternatives (eval_rule V g) p n rules s) b).
  rewrite T. reflexivity.
Qed.
Lemma tonumber_rule : forall V vars m k e rules, let r := VArr ((k, VStr e (txt "tonumber")) :: rules) in
  let n := ([], value_of_double (value_dbl (v_L V) (v_F V) (snd m))) in
  (accepts V vars m r <-> one_accepts V vars n rules) /\ (rejects V vars m r <-> Forall (fun y => rejects V vars n (snd y)) rules).
Proof. intros V vars m k e rules r n. apply ends_alternatives. intros g p s E b. unfold rule_step, r. rewrite close_is. reflexivity. Qed.
Lemma explode_rule : forall V vars m k e k2 e2 sep rule, let r := VArr [(k, VStr e (txt "explode")); (k2, VStr e2 sep); rule] in
  let n := ([], VArr (map (fun t => ([], VStr None t)) (v_explode V (get_string (snd m)) sep None))) in
  (accepts V vars m r <-> accepts V vars n (snd rule)) /\ (rejects V vars m r <-> rejects V vars n (snd rule)).
Proof.
  intros V vars m k e k2 e2 sep rule r n.
  assert (Z : forall b, ends V vars m r b <-> ends V vars n (snd rule) b).
  { intros b. assert (St : forall g p s c, out_is (rule_step V (eval_rule V g) p m r s) c <-> out_is (eval_rule V g p n (snd rule) s) c).
    { intros g p s c. unfold rule_step, r. rewrite close_is. reflexivity. }
    split.
    - intros (f & E)%ends_step. specialize (E f (le_n f) [] (st0 vars) eq_refl). apply St in E as (t & T). exists f, [], (st0 vars), t. auto.
    - intros (f & E)%ends_all. apply ends_step. exists f. intros g L p s Ev. apply St. apply E; assumption. }
  split; apply Z.
Qed.

(** *** Templates *)
Section Inst.
Variables (V : venv) (vars : list member) (m : member).
Hypothesis O : in_order vars m.
Notation Inst := (instance V vars m).
Notation Walk := (walk_object V vars m).
Definition walk_list (l : list member) : list member := map (fun x => Walk (fst x) (snd x)) l.
Lemma walk_arr : forall k l, Walk k (VArr l) = match resolve_var V vars m (VArr l) with Some x => x | None => ([], VArr (keep_defined (walk_list l))) end.
Proof.
  intros k l. cbn [walk_object]. destruct (resolve_var V vars m (VArr l)); [reflexivity|]. do 3 f_equal. unfold walk_list.
  induction l as [|[k' x] l IH]; [reflexivity|]. cbn [map fst snd]. f_equal. exact IH.
Qed.
Lemma walk_obj : forall k d l, Walk k (VObj d l) = ([], snd (obj_commit (fold_left obj_set (combine (map fst l) (map snd (walk_list l))) (obj_new empty_object)))).
Proof.
  intros k d l. cbn [walk_object]. do 4 f_equal. unfold walk_list. induction l as [|[k' x] l IH]; [reflexivity|]. cbn [map fst snd combine]. f_equal. exact IH.
Qed.
Lemma filter_increasing : forall f (l : list member), keys_increasing l -> keys_increasing (filter f l).
Proof.
  intros f. induction l as [|[k x] l IH]; intros K; [exact K|]. apply keys_increasing_cons in K as (K & F). cbn [filter]. destruct (f (k, x)); [|exact (IH K)].
  apply keys_increasing_cons. split; [exact (IH K)|]. rewrite Forall_forall in *. intros y (I & _)%filter_In. exact (F y I).
Qed.
Lemma commit_list : forall l, keys_increasing l -> snd (obj_commit (fold_left obj_set l (obj_new empty_object))) = VObj false (filter (fun x => negb (is_undef (snd x))) l).
Proof.
  intros l K. pose proof (commit_content _ _ (set_all_inv l _ _ (new_inv empty_object empty_ok))) as C.
  apply (committed_det _ _ _ C). clear C. unfold committed, spec_add, s_base, s_changes. cbn [app]. destruct l as [|x0 l0] eqn:El; [reflexivity|].
  rewrite <- El in *. exists (filter (fun x => negb (is_undef (snd x))) l). split; [reflexivity|]. split; [apply filter_increasing; exact K|].
  intros k x. rewrite filter_In. cbn [snd]. unfold spec_get. cbn [s_changes s_base obj_members binding]. pose proof (keys_increasing_nodup _ K) as N.
  rewrite <- (binding_last k l N). split.
  - intros (I0 & U). apply (in_binding _ _ _ N) in I0. rewrite I0. split; [reflexivity|]. left. destruct (is_undef x); [discriminate|reflexivity].
  - intros (B & [U|U]); [|discriminate]. split; [|rewrite U; reflexivity]. destruct (binding k l) eqn:E; [|discriminate]. injection B as ->. apply binding_in. exact E.
Qed.
Lemma combine_fst : forall (a : list bytes) (b : list value), List.length a = List.length b -> map fst (combine a b) = a.
Proof. induction a as [|x a IH]; intros [|y b] E; try discriminate; [reflexivity|]. cbn. f_equal. apply IH. injection E. auto. Qed.
Lemma inst_list : forall l, Forall (fun x => forall k w, Walk k (snd x) = w <-> Inst (k, snd x) w) l -> forall l', walk_list l = l' <-> Forall2 Inst l l'.
Proof.
  induction l as [|[k v] l IH]; intros H l'.
  - split; [intros <-; constructor|]. intros F. inversion F. reflexivity.
  - apply Forall_cons_iff in H as (Hx & Hl). unfold walk_list. cbn [map fst snd]. split.
    + intros <-. constructor; [apply Hx; reflexivity|]. apply IH; [exact Hl|reflexivity].
    + intros F. inversion F as [|? y ? r A B]; subst. apply Hx in A. cbn [snd] in A. apply IH in B; [|exact Hl]. rewrite A, <- B. reflexivity.
Qed.
Lemma inst_all : forall v, all_sorted v -> forall k w, Walk k v = w <-> Inst (k, v) w.
Proof.
  destruct O as (Sv & Sm).
  assert (Rs : forall v x, resolve_var V vars m v = Some x <-> names V vars m v x) by (intros; apply resolve_spec; assumption).
  intros v. induction v as [| | | | |l IH|d l IH] using value_ind'; intros S k w.
  6:{ assert (W : forall l', walk_list l = l' <-> Forall2 Inst l l').
    { apply inst_list. inversion S as [? C|? F|]; subst; [destruct C|]. rewrite Forall_forall in *. intros x I. exact (IH x I (F x I)). }
    rewrite walk_arr. destruct (resolve_var V vars m (VArr l)) as [x|] eqn:R; split.
    - intros <-. apply Inst_named. apply Rs. exact R.
    - intros I. inversion I as [? ? Na| |? ? ? N|]; subst; [destruct (Na _ eq_refl)| |].
      + match goal with H : names _ _ _ _ _ |- _ => apply Rs in H; congruence end.
      + destruct N. exists x. apply Rs. exact R.
    - intros <-. apply (Inst_array V vars m k l (walk_list l)); [intros (x & X); apply Rs in X; congruence|]. apply W. reflexivity.
    - intros I. inversion I as [? ? Na| |? ? l' N F|]; subst; [destruct (Na _ eq_refl)| |].
      + match goal with H : names _ _ _ _ _ |- _ => apply Rs in H; congruence end.
      + apply W in F. rewrite F. reflexivity. }
  6:{ inversion S as [? C| |? ? K F]; subst; [destruct C|].
    assert (W : forall l', walk_list l = l' <-> Forall2 Inst l l').
    { apply inst_list. rewrite Forall_forall in *. intros x I. exact (IH x I (F x I)). }
    assert (K' : keys_increasing (combine (map fst l) (map snd (walk_list l)))).
    { unfold keys_increasing in *. rewrite combine_fst; [exact K|]. unfold walk_list. rewrite !map_length. reflexivity. }
    rewrite walk_obj. rewrite (commit_list _ K'). split.
    - intros <-. apply (Inst_object V vars m k d l (walk_list l)). apply W. reflexivity.
    - intros I. inversion I as [? ? ? No|? ? ? N| |? ? ? l' G]; subst; [destruct (No _ _ eq_refl)|inversion N|]. apply W in G. rewrite G. reflexivity. }
  all: cbn [walk_object]; split; [intros <-; apply Inst_plain; discriminate|]; intros I; inversion I as [|? ? ? N| |]; subst; [reflexivity|inversion N].
Qed.
Lemma inst_spec : forall t w, all_sorted (snd t) -> (Walk (fst t) (snd t) = w <-> Inst t w).
Proof. intros [k v] w S. apply inst_all. exact S. Qed.
End Inst.

(** *** emit *)
Lemma emit_run : forall V fuel p m k e t rule post s b s', in_order (vs_vars s) m -> all_sorted (snd t) ->
  eval_rule V fuel p m (VArr ((k, VStr e (txt "emit")) :: t :: rule :: post)) s = VDone b s' ->
  exists f s1, eval_rule V f p m (snd rule) s = VDone b s1 /\
    if b then exists w, instance V (vs_vars s) m t w /\ vs_emit s' = vs_emit s1 ++ [w] else vs_emit s' = vs_emit s1.
Proof.
  intros V fuel p m k e t rule post s b s' O St R. destruct fuel as [|f]; [discriminate|]. cbn [eval_rule] in R. unfold rule_step in R.
  change (eval_params V (eval_rule V f) p m ((k, VStr e (txt "emit")) :: t :: rule :: post) s) with (op_emit V (eval_rule V f) p m ((k, VStr e (txt "emit")) :: t :: rule :: post) s) in R.
  unfold op_emit in R. cbn [nth] in R. exists f. pose proof (eval_kept V f p m (snd rule) s) as K. destruct (eval_rule V f p m (snd rule) s) as [c s1|s1| |] eqn:E; try discriminate. cbn in K.
  destruct c; cbn in R; injection R as <- <-; exists s1; (split; [reflexivity|]).
  - exists (walk_object V (vs_vars s) m (fst t) (snd t)). split; [apply inst_spec; auto|]. cbn. destruct K as (-> & _). reflexivity.
  - unfold add_rejection. cbv zeta. destruct (veq _ _ _); [reflexivity|]. destruct (existsb _ _); reflexivity.
Qed.
Lemma emit_rule : forall V vars m k e t rule post, let r := VArr ((k, VStr e (txt "emit")) :: t :: rule :: post) in
  (accepts V vars m r <-> accepts V vars m (snd rule)) /\ (rejects V vars m r <-> rejects V vars m (snd rule)).
Proof.
  intros V vars m k e t rule post r.
  assert (St : forall g p s c, out_is (rule_step V (eval_rule V g) p m r s) c <-> out_is (eval_rule V g p m (snd rule) s) c).
  { intros g p s c. unfold rule_step, r. rewrite close_is. change (out_is (op_emit V (eval_rule V g) p m ((k, VStr e (txt "emit")) :: t :: rule :: post) s) c <-> out_is (eval_rule V g p m (snd rule) s) c).
    unfold op_emit. cbn [nth]. destruct (eval_rule V g p m (snd rule) s) as [b s1|s1| |]; cbn [vbind]; try (split; intros (u & U); discriminate). destruct b; rewrite !done_is; reflexivity. }
  assert (Z : forall b, ends V vars m r b <-> ends V vars m (snd rule) b).
  { intros b. split.
    - intros (f & E)%ends_step. specialize (E f (le_n f) [] (st0 vars) eq_refl). apply St in E as (u & T). exists f, [], (st0 vars), u. auto.
    - intros (f & E)%ends_all. apply ends_step. exists f. intros g L p s Ev. apply St. apply E; assumption. }
  split; apply Z.
Qed.
Lemma operand_some : forall V vars m q, in_order vars m -> exists x, operand V vars m q x.
Proof. intros V vars m q O. exists (get_var V vars m q). apply get_var_operand; auto. Qed.
Lemma instance_fun : forall V vars m t w w', in_order vars m -> all_sorted (snd t) -> instance V vars m t w -> instance V vars m t w' -> w = w'.
Proof. intros V vars m t w w' O S H H'. apply inst_spec in H; auto. apply inst_spec in H'; auto. congruence. Qed.
