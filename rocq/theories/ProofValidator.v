(** Evaluation of rules: the verdict does not depend on the bookkeeping, nothing
    is forgotten or left behind. *)
From Coq Require Import String Ascii Lia.
From Verif Require Import Base ModelKeyed ModelValue ModelText ModelObject ModelArray ModelEq ModelBin ModelUtf8
  ModelJwt ModelString ModelPath ModelRpc ModelNumView ModelDate ModelValidator.
Local Open Scope Z_scope.
Local Open Scope list_scope.

(** *** Same verdict from two states with the same variables *)
Definition grow (s1 s2 t1 t2 : vst) : Prop :=
  vs_vars t1 = vs_vars t2 /\ exists es, vs_emit t1 = vs_emit s1 ++ es /\ vs_emit t2 = vs_emit s2 ++ es.
Definition same_out (s1 s2 : vst) (o1 o2 : vout) : Prop :=
  match o1, o2 with
  | VFuel, _ => True
  | VDone b1 t1, VDone b2 t2 => b1 = b2 /\ grow s1 s2 t1 t2
  | VThrow t1, VThrow t2 => grow s1 s2 t1 t2
  | VBad, VBad => True
  | _, _ => False
  end.

Lemma grow_refl : forall s1 s2, vs_vars s1 = vs_vars s2 -> grow s1 s2 s1 s2.
Proof. intros s1 s2 H. split; [exact H|]. exists []. rewrite !app_nil_r. split; reflexivity. Qed.

Lemma grow_trans : forall s1 s2 t1 t2 u1 u2, grow s1 s2 t1 t2 -> grow t1 t2 u1 u2 -> grow s1 s2 u1 u2.
Proof.
  intros s1 s2 t1 t2 u1 u2 (V1 & e1 & A1 & B1) (V2 & e2 & A2 & B2). split; [exact V2|].
  exists (e1 ++ e2). rewrite A2, A1, B2, B1, !app_assoc. split; reflexivity.
Qed.

Lemma same_out_trans : forall s1 s2 t1 t2 o1 o2, grow s1 s2 t1 t2 -> same_out t1 t2 o1 o2 -> same_out s1 s2 o1 o2.
Proof.
  intros s1 s2 t1 t2 o1 o2 G H. destruct o1, o2; cbn in *; try exact H.
  - destruct H as (E & H). split; [exact E|]. exact (grow_trans _ _ _ _ _ _ G H).
  - exact (grow_trans _ _ _ _ _ _ G H).
Qed.

Lemma vbind_same : forall s1 s2 o1 o2 k1 k2, same_out s1 s2 o1 o2 ->
  (forall b t1 t2, grow s1 s2 t1 t2 -> vs_vars t1 = vs_vars t2 -> same_out t1 t2 (k1 b t1) (k2 b t2)) ->
  same_out s1 s2 (vbind o1 k1) (vbind o2 k2).
Proof.
  intros s1 s2 o1 o2 k1 k2 H K. destruct o1, o2; cbn in *; try exact H; try contradiction; try exact I.
  destruct H as (E & G). subst. exact (same_out_trans _ _ _ _ _ _ G (K b0 s s0 G (proj1 G))).
Qed.

Lemma done_same : forall s1 s2 b t1 t2, vs_vars t1 = vs_vars t2 -> vs_emit t1 = vs_emit s1 -> vs_emit t2 = vs_emit s2 ->
  same_out s1 s2 (VDone b t1) (VDone b t2).
Proof.
  intros s1 s2 b t1 t2 H E1 E2. split; [reflexivity|]. split; [exact H|].
  exists []. rewrite !app_nil_r. split; assumption.
Qed.

Lemma add_rejection_vars : forall V p r s, vs_vars (add_rejection V p r s) = vs_vars s.
Proof.
  intros V p r s. unfold add_rejection. set (r' := if is_undef r then _ else r).
  destruct (veq _ _ _); [reflexivity|]. destruct (existsb _ _); reflexivity.
Qed.
Lemma add_rejection_emit : forall V p r s, vs_emit (add_rejection V p r s) = vs_emit s.
Proof.
  intros V p r s. unfold add_rejection. set (r' := if is_undef r then _ else r).
  destruct (veq _ _ _); [reflexivity|]. destruct (existsb _ _); reflexivity.
Qed.
Lemma add_rejection_rej : forall V p r s, exists l, vs_rej (add_rejection V p r s) = vs_rej s ++ l.
Proof.
  intros V p r s. unfold add_rejection. set (r' := if is_undef r then _ else r).
  destruct (veq _ _ _); [exists []; rewrite app_nil_r; reflexivity|].
  destruct (existsb _ _); [exists []; rewrite app_nil_r; reflexivity|]. eexists. reflexivity.
Qed.

Section Same.
Variables (V : venv) (ev1 ev2 : path -> member -> value -> vst -> vout).
Hypothesis EV : forall p1 p2 m r s1 s2, vs_vars s1 = vs_vars s2 -> same_out s1 s2 (ev1 p1 m r s1) (ev2 p2 m r s2).

Lemma close_same : forall p1 p2 r n1 n2 s1 s2 o1 o2, same_out s1 s2 o1 o2 ->
  same_out s1 s2 (close_rule V p1 r n1 o1) (close_rule V p2 r n2 o2).
Proof.
  intros p1 p2 r n1 n2 s1 s2 o1 o2 H. apply vbind_same; [exact H|].
  intros b t1 t2 G E. destruct b; apply done_same; rewrite ?add_rejection_vars, ?add_rejection_emit; auto.
Qed.

Lemma alternatives_same : forall rules p1 p2 m s1 s2, vs_vars s1 = vs_vars s2 ->
  same_out s1 s2 (alternatives ev1 p1 m rules s1) (alternatives ev2 p2 m rules s2).
Proof.
  induction rules as [|r rules IH]; intros p1 p2 m s1 s2 E; cbn [alternatives]; [apply done_same; auto|].
  apply vbind_same; [apply EV; exact E|]. intros b t1 t2 G E'. destruct b; [apply done_same; auto|apply IH; exact E'].
Qed.

Lemma range_same : forall n rules p1 p2 m s1 s2, (length rules <= n)%nat -> vs_vars s1 = vs_vars s2 ->
  same_out s1 s2 (range_def V ev1 p1 m rules s1) (range_def V ev2 p2 m rules s2).
Proof.
  induction n as [|n IH]; intros rules p1 p2 m s1 s2 N E; destruct rules as [|r rules]; cbn [range_def];
    try (apply done_same; auto; fail); cbn [length] in N; [lia|].
  assert (O : same_out s1 s2
    (vbind (ev1 p1 m (snd r) s1) (fun b s => if b then range_def V ev1 p1 m rules s else VDone false s))
    (vbind (ev2 p2 m (snd r) s2) (fun b s => if b then range_def V ev2 p2 m rules s else VDone false s))).
  { apply vbind_same; [apply EV; exact E|]. intros b t1 t2 G E'. destruct b; [apply IH; [lia|exact E']|apply done_same; auto]. }
  destruct (snd r); try exact O. destruct (is_comment s); [apply IH; [lia|exact E]|].
  rewrite E. destruct (range_test _ _ _ _) as [[|]|]; [|apply done_same; auto|exact O].
  destruct rules as [|q rules]; [apply done_same; auto|]. apply IH; [cbn [length] in N; lia|exact E].
Qed.

Lemma tuple_same : forall rules p1 p2 v c i s1 s2, vs_vars s1 = vs_vars s2 ->
  same_out s1 s2 (tuple_items ev1 p1 v rules c i s1) (tuple_items ev2 p2 v rules c i s2).
Proof.
  induction rules as [|r rules IH]; intros p1 p2 v c i s1 s2 E; cbn [tuple_items]; destruct (c <=? i);
    try (apply done_same; auto; fail); unfold sub_index; [apply EV; exact E|].
  apply vbind_same; [apply EV; exact E|]. intros b t1 t2 G E'. destruct b; [apply IH; exact E'|apply done_same; auto].
Qed.

Lemma rest_same : forall items p1 p2 r i o s1 s2, vs_vars s1 = vs_vars s2 ->
  same_out s1 s2 (rest_items V ev1 p1 items r i o s1) (rest_items V ev2 p2 items r i o s2).
Proof.
  induction items as [|x items IH]; intros p1 p2 r i o s1 s2 E; cbn [rest_items]; [apply done_same; auto|].
  apply vbind_same; [unfold sub_alternatives; apply close_same, alternatives_same; exact E|].
  intros b t1 t2 G E'. destruct b; [apply IH; exact E'|apply done_same; auto].
Qed.

Lemma array_same : forall p1 p2 m r c s1 s2, vs_vars s1 = vs_vars s2 ->
  same_out s1 s2 (eval_array V ev1 p1 m r c s1) (eval_array V ev2 p2 m r c s2).
Proof.
  intros p1 p2 m r c s1 s2 E. unfold eval_array. destruct (snd m); try (apply done_same; auto; fail).
  apply vbind_same; [apply tuple_same; exact E|].
  intros b t1 t2 G E'. destruct b; [apply rest_same; exact E'|apply done_same; auto].
Qed.

Lemma prefix_same : forall p1 p2 m a s1 s2, vs_vars s1 = vs_vars s2 ->
  same_out s1 s2 (op_prefix V ev1 p1 m a s1) (op_prefix V ev2 p2 m a s2).
Proof.
  intros p1 p2 m a s1 s2 E. unfold op_prefix. rewrite E. destruct (snd (get_var _ _ _ _)).
  all: try (destruct (split_value _ _) as [x y]).
  all: match goal with |- context [if negb ?b then _ else _] => destruct b end; cbn [negb]; [|apply done_same; auto].
  all: destruct (defined _); [apply alternatives_same; exact E|apply done_same; auto].
Qed.

Lemma suffix_same : forall p1 p2 m a s1 s2, vs_vars s1 = vs_vars s2 ->
  same_out s1 s2 (op_suffix V ev1 p1 m a s1) (op_suffix V ev2 p2 m a s2).
Proof.
  intros p1 p2 m a s1 s2 E. unfold op_suffix. rewrite E. destruct (snd (get_var _ _ _ _)).
  all: try (destruct (split_value _ _) as [x y]).
  all: try match goal with |- context [if (length ?x <? ?y)%nat then _ else _] => destruct (length x <? y)%nat; [apply done_same; auto|] end.
  all: match goal with |- context [if negb ?b then _ else _] => destruct b end; cbn [negb]; [|apply done_same; auto].
  all: match goal with |- context [if ?b then _ else _] => destruct b end; [apply alternatives_same; exact E|apply done_same; auto].
Qed.

Lemma split_same : forall p1 p2 m a s1 s2, vs_vars s1 = vs_vars s2 ->
  same_out s1 s2 (op_split V ev1 p1 m a s1) (op_split V ev2 p2 m a s2).
Proof.
  intros p1 p2 m a s1 s2 E. unfold op_split. rewrite E. destruct (split_value _ _) as [x y].
  apply vbind_same; [apply EV; exact E|]. intros b t1 t2 G E'. destruct b; [apply EV; exact E'|apply done_same; auto].
Qed.

Lemma setvar_same : forall p1 p2 m a s1 s2, vs_vars s1 = vs_vars s2 ->
  same_out s1 s2 (op_setvar ev1 p1 m a s1) (op_setvar ev2 p2 m a s2).
Proof.
  intros p1 p2 m a s1 s2 E. unfold op_setvar. set (b := match get_string _ with [] => _ | _ => _ end).
  destruct b; [|apply done_same; auto].
  apply same_out_trans with (push_var (get_string (snd (nth 1 a ([], VUndef)))) (snd m) s1)
                            (push_var (get_string (snd (nth 1 a ([], VUndef)))) (snd m) s2).
  { split; [cbn; rewrite E; reflexivity|]. exists []. cbn. rewrite !app_nil_r. auto. }
  apply vbind_same; [apply alternatives_same; cbn; rewrite E; reflexivity|].
  intros b t1 t2 G E'. apply done_same; cbn; rewrite ?E'; auto.
Qed.

Lemma usevar_same : forall p1 p2 m a s1 s2, vs_vars s1 = vs_vars s2 ->
  same_out s1 s2 (op_usevar V ev1 p1 m a s1) (op_usevar V ev2 p2 m a s2).
Proof.
  intros p1 p2 m a s1 s2 E. unfold op_usevar. rewrite E. destruct (defined _); [apply alternatives_same; exact E|apply done_same; auto].
Qed.

Lemma emit_same : forall p1 p2 m a s1 s2, vs_vars s1 = vs_vars s2 ->
  same_out s1 s2 (op_emit V ev1 p1 m a s1) (op_emit V ev2 p2 m a s2).
Proof.
  intros p1 p2 m a s1 s2 E. unfold op_emit. apply vbind_same; [apply EV; exact E|].
  intros b t1 t2 G E'. destruct b; [|apply done_same; auto]. rewrite E'.
  split; [reflexivity|]. split; [exact E'|]. eexists. split; reflexivity.
Qed.

Lemma token_same : forall p1 p2 m t a s1 s2, vs_vars s1 = vs_vars s2 ->
  same_out s1 s2 (eval_token V ev1 p1 m t a s1) (eval_token V ev2 p2 m t a s2).
Proof.
  intros p1 p2 m t a s1 s2 E. unfold eval_token. rewrite E.
  repeat match goal with |- same_out _ _ (if ?b then _ else _) (if ?b then _ else _) => destruct b end;
    try (apply done_same; auto; fail); try (apply alternatives_same; exact E).
  - destruct (to_string _ _ _); [apply alternatives_same; exact E|apply grow_refl; exact E].
  - apply prefix_same; exact E.
  - apply suffix_same; exact E.
  - apply split_same; exact E.
  - unfold op_explode. rewrite E. apply EV; exact E.
  - apply (range_same (length a)); [apply le_n|exact E].
  - apply (range_same (length (skipn 1 a))); [apply le_n|exact E].
  - destruct (to_string _ _ _); [apply done_same; auto|apply grow_refl; exact E].
  - apply vbind_same; [apply alternatives_same; exact E|]. intros b t1 t2 G E'. apply done_same; auto.
  - apply setvar_same; exact E.
  - apply usevar_same; exact E.
  - apply emit_same; exact E.
Qed.

Lemma params_same : forall p1 p2 m a s1 s2, vs_vars s1 = vs_vars s2 ->
  same_out s1 s2 (eval_params V ev1 p1 m a s1) (eval_params V ev2 p2 m a s2).
Proof.
  intros p1 p2 m a s1 s2 E. unfold eval_params. destruct a as [|[k v] a]; [apply done_same; auto|].
  destruct v; try (apply alternatives_same; exact E); [apply token_same; exact E|].
  destruct l as [|[k' w] l]; [apply array_same; exact E|].
  destruct w; try (apply alternatives_same; exact E). destruct l; [apply array_same; exact E|apply alternatives_same; exact E].
Qed.

Lemma reject_same : forall p1 p2 k1 k2 r o1 o2 c1 c2 s1 s2, same_out s1 s2 o1 o2 ->
  (forall t1 t2, vs_vars t1 = vs_vars t2 -> same_out t1 t2 (c1 t1) (c2 t2)) ->
  same_out s1 s2 (reject_sub V p1 k1 r o1 c1) (reject_sub V p2 k2 r o2 c2).
Proof.
  intros p1 p2 k1 k2 r o1 o2 c1 c2 s1 s2 H C. apply vbind_same; [exact H|].
  intros b t1 t2 G E. destruct b; [apply C; exact E|]. apply done_same; rewrite ?add_rejection_vars, ?add_rejection_emit; auto.
Qed.

Lemma extra_same : forall ss p1 p2 w s1 s2, vs_vars s1 = vs_vars s2 ->
  same_out s1 s2 (extra_members V ev1 p1 w ss s1) (extra_members V ev2 p2 w ss s2).
Proof.
  induction ss as [|x ss IH]; intros p1 p2 w s1 s2 E; cbn [extra_members]; [apply done_same; auto|].
  apply reject_same; [apply EV; exact E|]. intros t1 t2 E'. apply IH; exact E'.
Qed.
Lemma missing_same : forall ts p1 p2 s1 s2, vs_vars s1 = vs_vars s2 ->
  same_out s1 s2 (missing_members V ev1 p1 ts s1) (missing_members V ev2 p2 ts s2).
Proof.
  induction ts as [|x ts IH]; intros p1 p2 s1 s2 E; cbn [missing_members]; [apply done_same; auto|].
  apply reject_same; [apply EV; exact E|]. intros t1 t2 E'. apply IH; exact E'.
Qed.
Lemma template_same : forall ss ts p1 p2 w s1 s2, vs_vars s1 = vs_vars s2 ->
  same_out s1 s2 (template_loop V ev1 p1 w ss ts s1) (template_loop V ev2 p2 w ss ts s2).
Proof.
  induction ss as [|x ss IHs]; [|induction ts as [|t ts IHt]]; intros.
  - destruct ts; apply missing_same; assumption.
  - apply extra_same; assumption.
  - cbn. destruct (parse_key (fst t)) as [tk spec]. destruct (kcmp (fst x) tk).
    + destruct spec; [apply IHs; assumption|]. apply reject_same; [apply EV; assumption|]. intros; apply IHs; assumption.
    + destruct spec; [apply IHs; assumption|]. apply reject_same; [apply EV; assumption|]. intros; apply IHs; assumption.
    + destruct spec; [apply IHt; assumption|]. apply reject_same; [apply EV; assumption|]. intros; apply IHt; assumption.
Qed.

Lemma step_same : forall p1 p2 m r s1 s2, vs_vars s1 = vs_vars s2 ->
  same_out s1 s2 (rule_step V ev1 p1 m r s1) (rule_step V ev2 p2 m r s2).
Proof.
  intros p1 p2 m r s1 s2 E. unfold rule_step. destruct r; try (apply done_same; auto; fail); apply close_same.
  - apply done_same; auto.
  - unfold eval_simple. destruct (simple_rule _ _ _); [apply done_same; auto|apply grow_refl; exact E|exact I|].
    unfold check_class. destruct (negb _); [apply grow_refl; exact E|]. destruct (beqb _ _); [apply done_same; auto|apply EV; exact E].
  - apply params_same; exact E.
  - unfold eval_object. destruct (snd m); try (apply done_same; auto; fail). apply template_same; exact E.
Qed.
End Same.

(** Two evaluations from states with the same variables, the second with at
    least the same bound. *)
Lemma eval_same : forall V f g p1 p2 m r s1 s2, (f <= g)%nat -> vs_vars s1 = vs_vars s2 ->
  same_out s1 s2 (eval_rule V f p1 m r s1) (eval_rule V g p2 m r s2).
Proof.
  induction f as [|f IH]; intros g p1 p2 m r s1 s2 L E; [exact I|].
  destruct g as [|g]; [lia|]. cbn [eval_rule]. apply step_same; [|exact E].
  intros. apply IH; [lia|assumption].
Qed.

(** *** What an evaluation leaves behind *)
Definition extends (s t : vst) : Prop := exists l, vs_rej t = vs_rej s ++ l.
Definition kept (s : vst) (o : vout) : Prop :=
  match o with
  | VDone b t => vs_vars t = vs_vars s /\ extends s t
  | VThrow t => (exists x, vs_vars t = x ++ vs_vars s) /\ extends s t
  | _ => True
  end.
Definition clean (s : vst) (o : vout) : Prop :=
  match o with VDone true t => vs_rej t = vs_rej s | _ => True end.

Lemma extends_refl : forall s, extends s s.
Proof. intros s. exists []. rewrite app_nil_r. reflexivity. Qed.
Lemma extends_trans : forall s t u, extends s t -> extends t u -> extends s u.
Proof. intros s t u (a & A) (b & B). exists (a ++ b). rewrite B, A, app_assoc. reflexivity. Qed.
Lemma extends_same : forall s t, vs_rej t = vs_rej s -> extends s t.
Proof. intros s t H. exists []. rewrite app_nil_r. exact H. Qed.

Lemma kept_done : forall s b t, vs_vars t = vs_vars s -> vs_rej t = vs_rej s -> kept s (VDone b t).
Proof. intros s b t A B. split; [exact A|apply extends_same; exact B]. Qed.
Lemma kept_throw : forall s, kept s (VThrow s).
Proof. intros s. split; [exists []; reflexivity|apply extends_refl]. Qed.
Lemma kept_reject : forall V p r s t, vs_vars t = vs_vars s -> extends s t -> kept s (VDone false (add_rejection V p r t)).
Proof.
  intros V p r s t A B. split; [rewrite add_rejection_vars; exact A|].
  apply (extends_trans _ _ _ B). destruct (add_rejection_rej V p r t) as (l & E). exists l. exact E.
Qed.

Lemma vbind_kept : forall s o k, kept s o ->
  (forall b t, vs_vars t = vs_vars s -> extends s t -> kept t (k b t)) -> kept s (vbind o k).
Proof.
  intros s o k H K. destruct o as [b t|t| |]; cbn in *; auto. destruct H as (A & B). specialize (K b t A B).
  destruct (k b t); cbn in *; auto; destruct K as (C & D).
  - split; [congruence|exact (extends_trans _ _ _ B D)].
  - rewrite A in C. split; [exact C|exact (extends_trans _ _ _ B D)].
Qed.

Section Kept.
Variables (V : venv) (ev : path -> member -> value -> vst -> vout).
Hypothesis EV : forall p m r s, kept s (ev p m r s).

Ltac done := apply kept_done; reflexivity.

Lemma close_kept : forall p r s o, kept s o -> kept s (close_rule V p r (length (vs_rej s)) o).
Proof.
  intros p r s o H. destruct o as [b t|t| |]; cbn in *; auto. destruct H as (A & B). destruct b.
  - split; [exact A|]. destruct B as (l & B). apply extends_same. cbn. rewrite B, firstn_app, Nat.sub_diag, firstn_all, firstn_O, app_nil_r. reflexivity.
  - apply kept_reject; assumption.
Qed.
Lemma close_clean : forall p r s o, kept s o -> clean s (close_rule V p r (length (vs_rej s)) o).
Proof.
  intros p r s o H. destruct o as [b t|t| |]; cbn in *; auto. destruct H as (A & B). destruct b; [|exact I].
  destruct B as (l & B). cbn. rewrite B, firstn_app, Nat.sub_diag, firstn_all, firstn_O, app_nil_r. reflexivity.
Qed.

Lemma alternatives_kept : forall rules p m s, kept s (alternatives ev p m rules s).
Proof.
  induction rules as [|r rules IH]; intros p m s; cbn [alternatives]; [done|].
  apply vbind_kept; [apply EV|]. intros b t A B. destruct b; [done|apply IH].
Qed.
Lemma range_kept : forall n rules p m s, (length rules <= n)%nat -> kept s (range_def V ev p m rules s).
Proof.
  induction n as [|n IH]; intros rules p m s N; destruct rules as [|r rules]; cbn [range_def]; try done; cbn [length] in N; [lia|].
  assert (O : kept s (vbind (ev p m (snd r) s) (fun b s => if b then range_def V ev p m rules s else VDone false s))).
  { apply vbind_kept; [apply EV|]. intros b t A B. destruct b; [apply IH; lia|done]. }
  destruct (snd r); try exact O. destruct (is_comment _); [apply IH; lia|].
  destruct (range_test _ _ _ _) as [[|]|]; [|done|exact O].
  destruct rules as [|q rules]; [done|]. apply IH. cbn [length] in N. lia.
Qed.
Lemma tuple_kept : forall rules p v c i s, kept s (tuple_items ev p v rules c i s).
Proof.
  induction rules as [|r rules IH]; intros p v c i s; cbn [tuple_items]; destruct (c <=? i); try done; unfold sub_index; [apply EV|].
  apply vbind_kept; [apply EV|]. intros b t A B. destruct b; [apply IH|done].
Qed.
Lemma rest_kept : forall items p r i o s, kept s (rest_items V ev p items r i o s).
Proof.
  induction items as [|x items IH]; intros p r i o s; cbn [rest_items]; [done|].
  apply vbind_kept; [apply close_kept, alternatives_kept|]. intros b t A B. destruct b; [apply IH|done].
Qed.
Lemma token_kept : forall p m t a s, kept s (eval_token V ev p m t a s).
Proof.
  intros p m t a s. unfold eval_token.
  repeat match goal with |- kept _ (if ?b then _ else _) => destruct b end; try done; try (apply alternatives_kept).
  - destruct (to_string _ _ _); [apply alternatives_kept|apply kept_throw].
  - unfold op_prefix. destruct (snd (get_var _ _ _ _)); try (destruct (split_value _ _) as [x y]);
      (match goal with |- context [if negb ?b then _ else _] => destruct b end; cbn [negb]; [|done]);
      (destruct (defined _); [apply alternatives_kept|done]).
  - unfold op_suffix. destruct (snd (get_var _ _ _ _)); try (destruct (split_value _ _) as [x y]);
      try match goal with |- context [if (length ?x <? ?y)%nat then _ else _] => destruct (length x <? y)%nat; [done|] end;
      (match goal with |- context [if negb ?b then _ else _] => destruct b end; cbn [negb]; [|done]);
      (match goal with |- context [if ?b then _ else _] => destruct b end; [apply alternatives_kept|done]).
  - unfold op_split. destruct (split_value _ _) as [x y]. apply vbind_kept; [apply EV|]. intros b t' A B. destruct b; [apply EV|done].
  - unfold op_explode. apply EV.
  - apply (range_kept (length a)), le_n.
  - apply (range_kept (length (skipn 1 a))), le_n.
  - destruct (to_string _ _ _); [done|apply kept_throw].
  - apply vbind_kept; [apply alternatives_kept|]. intros b t' A B. done.
  - unfold op_setvar. set (b := match get_string _ with [] => _ | _ => _ end). destruct b; [|done].
    set (s' := push_var _ _ _). pose proof (alternatives_kept (skipn 2 a) p m s') as K.
    destruct (alternatives ev p m (skipn 2 a) s') as [b u|u| |]; cbn in *; auto.
    + destruct K as (A & B). split; [cbn; rewrite A; reflexivity|exact B].
    + destruct K as ((x & A) & B). split; [|exact B]. eexists (x ++ [_]). rewrite <- app_assoc. exact A.
  - unfold op_usevar. destruct (defined _); [apply alternatives_kept|done].
  - unfold op_emit. apply vbind_kept; [apply EV|]. intros b t' A B. destruct b; done.
Qed.
Lemma array_kept : forall p m r c s, kept s (eval_array V ev p m r c s).
Proof.
  intros p m r c s. unfold eval_array. destruct (snd m); try done. apply vbind_kept; [apply tuple_kept|].
  intros b t A B. destruct b; [apply rest_kept|done].
Qed.
Lemma params_kept : forall p m a s, kept s (eval_params V ev p m a s).
Proof.
  intros p m a s. unfold eval_params. destruct a as [|[k v] a]; [done|].
  destruct v; try apply alternatives_kept; [apply token_kept|]. destruct l as [|[k' w] l]; [apply array_kept|].
  destruct w; try apply alternatives_kept. destruct l; [apply array_kept|apply alternatives_kept].
Qed.
Lemma reject_kept : forall p k r o c s, kept s o -> (forall t, kept t (c t)) -> kept s (reject_sub V p k r o c).
Proof.
  intros p k r o c s H C. apply vbind_kept; [exact H|]. intros b t A B. destruct b; [apply C|].
  apply kept_reject; [reflexivity|apply extends_refl].
Qed.
Lemma extra_kept : forall ss p w s, kept s (extra_members V ev p w ss s).
Proof. induction ss as [|x ss IH]; intros p w s; cbn [extra_members]; [done|]. apply reject_kept; [apply EV|]. intros t. apply IH. Qed.
Lemma missing_kept : forall ts p s, kept s (missing_members V ev p ts s).
Proof. induction ts as [|x ts IH]; intros p s; cbn [missing_members]; [done|]. apply reject_kept; [apply EV|]. intros t. apply IH. Qed.
Lemma template_kept : forall ss ts p w s, kept s (template_loop V ev p w ss ts s).
Proof.
  induction ss as [|x ss IHs]; [|induction ts as [|t ts IHt]]; intros.
  - destruct ts; apply missing_kept.
  - apply extra_kept.
  - cbn. destruct (parse_key (fst t)) as [tk spec].
    destruct (kcmp (fst x) tk); (destruct spec; [first [apply IHs | apply IHt]|]);
      (apply reject_kept; [apply EV|intros u; first [apply IHs | apply IHt]]).
Qed.
Lemma step_kept : forall p m r s, kept s (rule_step V ev p m r s) /\ clean s (rule_step V ev p m r s).
Proof.
  intros p m r s.
  assert (C : forall o, kept s o -> kept s (close_rule V p r (length (vs_rej s)) o) /\ clean s (close_rule V p r (length (vs_rej s)) o)).
  { intros o H. split; [apply close_kept; exact H|apply close_clean; exact H]. }
  unfold rule_step. destruct r; try (apply C).
  - done.
  - split; [done|]. cbn. destruct (veq _ _ _); exact eq_refl || exact I.
  - split; [done|]. cbn. destruct (veq _ _ _); exact eq_refl || exact I.
  - split; [done|]. cbn. destruct (veq _ _ _); exact eq_refl || exact I.
  - unfold eval_simple. destruct (simple_rule _ _ _); [done|apply kept_throw|exact I|].
    unfold check_class. destruct (negb _); [apply kept_throw|]. destruct (beqb _ _); [done|apply EV].
  - apply params_kept.
  - unfold eval_object. destruct (snd m); try done. apply template_kept.
Qed.
End Kept.

Lemma eval_kept : forall V f p m r s, kept s (eval_rule V f p m r s).
Proof.
  induction f as [|f IH]; intros p m r s; [exact I|]. cbn [eval_rule]. apply step_kept. exact IH.
Qed.
Lemma eval_clean : forall V f p m r s, clean s (eval_rule V f p m r s).
Proof.
  destruct f as [|f]; intros p m r s; [exact I|]. cbn [eval_rule]. apply step_kept. apply eval_kept.
Qed.
