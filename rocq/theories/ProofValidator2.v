(** Verdicts of lists of rules. *)
From Coq Require Import String Ascii Lia.
From Verif Require Import Base ModelKeyed SpecKeyed ProofKeyed ModelValue ModelText ModelObject ModelArray ModelEq ModelBin
  ModelUtf8 ModelJwt ModelString ModelPath ModelRpc ModelNumView ModelDate ModelValidator SpecValidator ProofValidator.
Local Open Scope Z_scope.
Local Open Scope list_scope.

(** *** Verdicts with a given bound *)
Definition st0 (vars : list member) : vst := mkVst [] VUndef [] vars 0.
Definition out_is (o : vout) (b : bool) : Prop := exists t, o = VDone b t.
(** With bound [g] the verdict is [b], whatever the bookkeeping. *)
Definition verdict (V : venv) (vars : list member) (g : nat) (m : member) (r : value) (b : bool) : Prop :=
  forall p s, vs_vars s = vars -> out_is (eval_rule V g p m r s) b.

Lemma verdict_one : forall V vars g m r b p s t, vs_vars s = vars -> eval_rule V g p m r s = VDone b t ->
  verdict V vars g m r b.
Proof.
  intros V vars g m r b p s t E H p' s' E'.
  pose proof (eval_same V g g p p' m r s s' (le_n g) ltac:(congruence)) as S. rewrite H in S.
  destruct (eval_rule V g p' m r s'); cbn in S; try contradiction. destruct S as (-> & _). eexists; reflexivity.
Qed.
Lemma verdict_le : forall V vars f g m r b, (f <= g)%nat -> verdict V vars f m r b -> verdict V vars g m r b.
Proof.
  intros V vars f g m r b L H p s E. destruct (H p s E) as (t & T).
  pose proof (eval_same V f g p p m r s s L eq_refl) as S. rewrite T in S.
  destruct (eval_rule V g p m r s); cbn in S; try contradiction. destruct S as (-> & _). eexists; reflexivity.
Qed.
Lemma verdict_eq : forall V vars f g m r b c, verdict V vars f m r b -> verdict V vars g m r c -> b = c.
Proof.
  intros V vars f g m r b c A B.
  pose proof (verdict_le V vars f (Nat.max f g) m r b (Nat.le_max_l _ _) A [] (st0 vars) eq_refl) as (t & T).
  pose proof (verdict_le V vars g (Nat.max f g) m r c (Nat.le_max_r _ _) B [] (st0 vars) eq_refl) as (u & U). congruence.
Qed.
Lemma ends_verdict : forall V vars m r b, ends V vars m r b <-> exists g, verdict V vars g m r b.
Proof.
  intros V vars m r b. split.
  - intros (g & p & s & t & E & H). exists g. exact (verdict_one _ _ _ _ _ _ _ _ _ E H).
  - intros (g & H). destruct (H [] (st0 vars) eq_refl) as (t & T). exists g, [], (st0 vars), t. auto.
Qed.
Lemma ends_fun : forall V vars m r b c, ends V vars m r b -> ends V vars m r c -> b = c.
Proof.
  intros V vars m r b c A B. apply ends_verdict in A as (f & A). apply ends_verdict in B as (g & B).
  exact (verdict_eq _ _ _ _ _ _ _ _ A B).
Qed.
(** Any evaluation with enough bound gives the verdict. *)
Lemma ends_all : forall V vars m r b, ends V vars m r b -> exists f, forall g, (f <= g)%nat -> verdict V vars g m r b.
Proof.
  intros V vars m r b H. apply ends_verdict in H as (f & H). exists f. intros g L. exact (verdict_le _ _ _ _ _ _ _ L H).
Qed.
Lemma eventually_Forall : forall {A} (P : nat -> A -> Prop) l,
  Forall (fun x => exists f, forall g, (f <= g)%nat -> P g x) l -> exists f, forall g, (f <= g)%nat -> Forall (P g) l.
Proof.
  intros A P l H. induction H as [|x l (f & Hx) _ (h & IH)]; [exists 0%nat; intros; constructor|].
  exists (Nat.max f h). intros g L. constructor; [apply Hx; lia|apply IH; lia].
Qed.

(** A rule evaluated one step. *)
Lemma verdict_step : forall V vars f m r b,
  (forall p s, vs_vars s = vars -> out_is (rule_step V (eval_rule V f) p m r s) b) -> verdict V vars (S f) m r b.
Proof. intros V vars f m r b H p s E. exact (H p s E). Qed.
Lemma ends_step : forall V vars m r b, ends V vars m r b <->
  exists f, forall g, (f <= g)%nat -> forall p s, vs_vars s = vars -> out_is (rule_step V (eval_rule V g) p m r s) b.
Proof.
  intros V vars m r b. split.
  - intros H. apply ends_all in H as (f & H). exists f. intros g L p s E. exact (H (S g) ltac:(lia) p s E).
  - intros (f & H). apply ends_verdict. exists (S f). intros p s E. exact (H f (le_n f) p s E).
Qed.
Lemma close_is : forall V p r n o b, out_is (close_rule V p r n o) b <-> out_is o b.
Proof.
  intros V p r n o b. unfold close_rule, out_is. destruct o as [c t|t| |]; cbn.
  - destruct c; split; intros (u & U); inversion U; eexists; reflexivity.
  - split; intros (u & U); discriminate.
  - split; intros (u & U); discriminate.
  - split; intros (u & U); discriminate.
Qed.
Lemma done_is : forall b t c, out_is (VDone b t) c <-> b = c.
Proof. intros b t c. split; [intros (u & U); congruence|intros ->; eexists; reflexivity]. Qed.

(** The items of a list of rules. *)
Section Lists.
Variables (V : venv) (vars : list member) (g : nat) (m : member).
Notation says r b := (verdict V vars g m (snd (r : member)) b).

Lemma eval_says : forall p s r b, vs_vars s = vars -> (out_is (eval_rule V g p m r s) b <-> verdict V vars g m r b).
Proof.
  intros p s r b E. split; [intros (t & T); exact (verdict_one _ _ _ _ _ _ _ _ _ E T)|]. intros H. exact (H p s E).
Qed.

(** [out_is] of a sequence: the first evaluation has a verdict and the rest
    runs in a state with the same variables. *)
Lemma bind_is : forall p r s k b, vs_vars s = vars ->
  (out_is (vbind (eval_rule V g p m r s) k) b <->
   exists c t, eval_rule V g p m r s = VDone c t /\ vs_vars t = vars /\ verdict V vars g m r c /\ out_is (k c t) b).
Proof.
  intros p r s k b E. pose proof (eval_kept V g p m r s) as K. split.
  - destruct (eval_rule V g p m r s) as [c t|t| |] eqn:H; cbn; try (intros (u & U); discriminate).
    intros U. exists c, t. cbn in K. split; [reflexivity|]. split; [destruct K; congruence|].
    split; [exact (verdict_one _ _ _ _ _ _ _ _ _ E H)|exact U].
  - intros (c & t & H & _ & _ & U). rewrite H. exact U.
Qed.

Lemma alternatives_true : forall rules p s, vs_vars s = vars ->
  (out_is (alternatives (eval_rule V g) p m rules s) true <->
   exists pre r post, rules = pre ++ r :: post /\ Forall (fun x => says x false) pre /\ says r true).
Proof.
  induction rules as [|r rules IH]; intros p s E; cbn [alternatives].
  - rewrite done_is. split; [discriminate|]. intros (pre & r & post & H & _). destruct pre; discriminate.
  - rewrite (bind_is p (snd r) s _ true E). split.
    + intros (c & t & H & E' & Vd & U). destruct c; [exists [], r, rules; auto|].
      apply IH in U as (pre & x & post & -> & A & B); [|exact E']. exists (r :: pre), x, post. split; [reflexivity|]. split; [constructor; assumption|exact B].
    + intros (pre & x & post & H & A & B). destruct pre as [|y pre]; injection H as -> ->.
      * destruct (B p s E) as (t & T). pose proof (eval_kept V g p m (snd x) s) as K. rewrite T in K.
        exists true, t. split; [exact T|]. split; [destruct K; congruence|]. split; [exact B|]. apply done_is. reflexivity.
      * inversion_clear A as [|? ? A1 A2]. destruct (A1 p s E) as (t & T). pose proof (eval_kept V g p m (snd y) s) as K. rewrite T in K.
        assert (E' : vs_vars t = vars) by (destruct K; congruence).
        exists false, t. split; [exact T|]. split; [exact E'|]. split; [exact A1|].
        apply (IH p t E'). exists pre, x, post. auto.
Qed.
Lemma alternatives_false : forall rules p s, vs_vars s = vars ->
  (out_is (alternatives (eval_rule V g) p m rules s) false <-> Forall (fun x => says x false) rules).
Proof.
  induction rules as [|r rules IH]; intros p s E; cbn [alternatives].
  - rewrite done_is. split; [constructor|reflexivity].
  - rewrite (bind_is p (snd r) s _ false E). split.
    + intros (c & t & H & E' & Vd & U). destruct c; [apply done_is in U; discriminate|].
      constructor; [exact Vd|]. exact (proj1 (IH p t E') U).
    + intros A. inversion_clear A as [|? ? A1 A2]. destruct (A1 p s E) as (t & T). pose proof (eval_kept V g p m (snd r) s) as K. rewrite T in K.
      assert (E' : vs_vars t = vars) by (destruct K; congruence).
      exists false, t. split; [exact T|]. split; [exact E'|]. split; [exact A1|]. apply (IH p t E'). exact A2.
Qed.
End Lists.

(** *** The same for verdicts without a bound *)
Lemma says_list : forall V vars m (l : list member) b, Forall (fun r => ends V vars m (snd r) b) l ->
  exists f, forall g, (f <= g)%nat -> Forall (fun r => verdict V vars g m (snd r) b) l.
Proof.
  intros V vars m l b H. apply (eventually_Forall (fun g r => verdict V vars g m (snd r) b)).
  eapply Forall_impl; [|exact H]. intros r. apply ends_all.
Qed.
Lemma ends_list : forall V vars m (l : list member) b g, Forall (fun r => verdict V vars g m (snd r) b) l ->
  Forall (fun r => ends V vars m (snd r) b) l.
Proof.
  intros V vars m l b g H. eapply Forall_impl; [|exact H]. intros r R. apply ends_verdict. exists g. exact R.
Qed.

(** A rule that ends with the alternatives [rules]. *)
Lemma ends_alternatives : forall V vars m n r rules,
  (forall g p s, vs_vars s = vars -> forall b, out_is (rule_step V (eval_rule V g) p m r s) b <->
     out_is (alternatives (eval_rule V g) p n rules s) b) ->
  (ends V vars m r true <-> exists pre x post, rules = pre ++ x :: post /\
     Forall (fun y => ends V vars n (snd y) false) pre /\ ends V vars n (snd x) true) /\
  (ends V vars m r false <-> Forall (fun y => ends V vars n (snd y) false) rules).
Proof.
  intros V vars m n r rules H. split.
  - rewrite ends_step. split.
    + intros (f & A). specialize (A f (le_n f) [] (st0 vars) eq_refl). apply H in A; [|reflexivity].
      apply (alternatives_true V vars f n) in A as (pre & x & post & -> & A & B); [|reflexivity].
      exists pre, x, post. split; [reflexivity|]. split; [exact (ends_list _ _ _ _ _ _ A)|]. apply ends_verdict. exists f. exact B.
    + intros (pre & x & post & -> & A & B). apply says_list in A as (f1 & A). apply ends_all in B as (f2 & B).
      exists (Nat.max f1 f2). intros g L p s E. apply H; [exact E|]. apply (alternatives_true V vars g n); [exact E|].
      exists pre, x, post. split; [reflexivity|]. split; [apply A; lia|apply B; lia].
  - rewrite ends_step. split.
    + intros (f & A). specialize (A f (le_n f) [] (st0 vars) eq_refl). apply H in A; [|reflexivity].
      apply (alternatives_false V vars f n) in A; [|reflexivity]. exact (ends_list _ _ _ _ _ _ A).
    + intros A. apply says_list in A as (f1 & A). exists f1. intros g L p s E. apply H; [exact E|].
      apply (alternatives_false V vars g n); [exact E|]. apply A. exact L.
Qed.
