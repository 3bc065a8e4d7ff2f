(** What evaluations leave behind; statements for the property files. *)
From Coq Require Import String Ascii Lia ZifyBool.
From Verif Require Import Base ModelKeyed SpecKeyed ProofKeyed ModelValue ModelText ModelObject ModelArray ModelEq ModelBin
  ModelUtf8 ModelJwt ModelString ModelPath ModelRpc ModelNumView ModelDate ModelValidator SpecValidator ProofValidator ProofValidator2
  ProofValidator3 ProofValidator4 ProofTemplate.
Local Open Scope Z_scope.
Local Open Scope list_scope.

Lemma ends_any : forall V vars m rule b, ends V vars m rule b ->
  exists fuel, forall g p s, (fuel <= g)%nat -> vs_vars s = vars -> exists t, eval_rule V g p m rule s = VDone b t.
Proof.
  intros V vars m rule b H. apply ends_all in H as (f & H). exists f. intros g p s L E. exact (H g L p s E).
Qed.
Lemma done_kept : forall V fuel p m rule s b t, eval_rule V fuel p m rule s = VDone b t ->
  vs_vars t = vs_vars s /\ exists l, vs_rej t = vs_rej s ++ l /\ (b = true -> l = []).
Proof.
  intros V fuel p m rule s b t H. pose proof (eval_kept V fuel p m rule s) as K. pose proof (eval_clean V fuel p m rule s) as C.
  rewrite H in K, C. destruct K as (A & l & B). split; [exact A|]. exists l. split; [exact B|]. intros ->. cbn in C.
  rewrite C in B. apply (f_equal (@length _)) in B. rewrite app_length in B. destruct l; [reflexivity|cbn in B; lia].
Qed.
Lemma throw_kept : forall V fuel p m rule s t, eval_rule V fuel p m rule s = VThrow t ->
  exists x, vs_vars t = x ++ vs_vars s.
Proof.
  intros V fuel p m rule s t H. pose proof (eval_kept V fuel p m rule s) as K. rewrite H in K. apply K.
Qed.
Lemma emits_same : forall V fuel p p' m rule s s' b t, eval_rule V fuel p m rule s = VDone b t -> vs_vars s' = vs_vars s ->
  exists t' l, eval_rule V fuel p' m rule s' = VDone b t' /\ vs_emit t = vs_emit s ++ l /\ vs_emit t' = vs_emit s' ++ l.
Proof.
  intros V fuel p p' m rule s s' b t H E.
  pose proof (eval_same V fuel fuel p p' m rule s s' (le_n _) (eq_sym E)) as S. rewrite H in S.
  destruct (eval_rule V fuel p' m rule s') as [c t'|t'| |] eqn:Q; cbn in S; try contradiction.
  destruct S as (-> & G). destruct G as (_ & l & A & B). exists t', l. auto.
Qed.
Lemma validate_success : forall V fuel m class p s t, validate V fuel m class p s = VDone true t ->
  get_rejections t = VArr [] /\ vs_vars t = vs_vars s.
Proof.
  intros V fuel m class p s t H. unfold validate in H.
  destruct (defined _ && _); [discriminate|]. pose proof (done_kept _ _ _ _ _ _ _ _ H) as (A & l & B & C).
  rewrite (C eq_refl), app_nil_r in B. cbn in A, B. unfold get_rejections. rewrite B. auto.
Qed.
Lemma validate_class : forall V m class p s b t fuel, validate V fuel m class p s = VDone b t ->
  value_member (v_def V) (txt "_version") = VUndef -> ends V (vs_vars s) m (value_member (v_def V) class) b.
Proof.
  intros V m class p s b t fuel H N. unfold validate in H. rewrite N in H. cbn in H.
  exists fuel, p, (clear_results s), t. split; [reflexivity|exact H].
Qed.

(** Alternatives of which all are decided. *)
Lemma first_of : forall V vars m (l : list member), Forall (fun y => decided V vars m (snd y)) l ->
  (one_accepts V vars m l <-> Exists (fun y => accepts V vars m (snd y)) l).
Proof.
  intros V vars m l D. split.
  - intros (pre & x & post & -> & _ & B). apply Exists_exists. exists x. split; [apply in_or_app; right; left; reflexivity|exact B].
  - intros H. induction D as [|x l Dx D IH]; [inversion H|]. destruct Dx as [A|A]; [exists [], x, l; auto|].
    inversion H; subst; [match goal with Q : accepts _ _ _ _ |- _ => pose proof (ends_fun _ _ _ _ _ _ A Q); discriminate end|].
    destruct IH as (pre & y & post & -> & B & C); [assumption|]. exists (x :: pre), y, post.
    split; [reflexivity|]. split; [constructor; assumption|exact C].
Qed.
Lemma never_both : forall V vars m r, accepts V vars m r -> rejects V vars m r -> False.
Proof. intros V vars m r A B. discriminate (ends_fun _ _ _ _ _ _ A B). Qed.
Lemma not_accepts_all : forall V vars m (l : list member), Forall (fun y => decided V vars m (snd y)) l ->
  (Forall (fun y => rejects V vars m (snd y)) l <-> ~ Exists (fun y => accepts V vars m (snd y)) l).
Proof.
  intros V vars m l D. split.
  - intros F E. apply Exists_exists in E as (x & I & A). rewrite Forall_forall in F. exact (never_both _ _ _ _ A (F x I)).
  - intros N. rewrite Forall_forall in *. intros x I. destruct (D x I) as [A|R]; [|exact R]. destruct N. apply Exists_exists. exists x. auto.
Qed.
Lemma list_some : forall V vars m args, plain_list vars m args -> Forall (fun y => decided V vars m (snd y)) args ->
  (accepts V vars m (VArr args) <-> Exists (fun y => accepts V vars m (snd y)) args) /\
  (rejects V vars m (VArr args) <-> ~ Exists (fun y => accepts V vars m (snd y)) args).
Proof.
  intros V vars m args P D. destruct (plain_ends V vars m args P) as (A & B). split.
  - rewrite A. apply first_of. exact D.
  - rewrite B. apply not_accepts_all. exact D.
Qed.
Lemma not_some : forall V vars m k e w args, In w (map txt ["not"; "!"]%string) -> Forall (fun y => decided V vars m (snd y)) args ->
  (accepts V vars m (VArr ((k, VStr e w) :: args)) <-> ~ Exists (fun y => accepts V vars m (snd y)) args) /\
  (rejects V vars m (VArr ((k, VStr e w) :: args)) <-> Exists (fun y => accepts V vars m (snd y)) args).
Proof.
  intros V vars m k e w args W D. destruct (not_ends V vars m k e w args W) as (A & B). split.
  - rewrite A. apply not_accepts_all. exact D.
  - rewrite B. apply first_of. exact D.
Qed.

(** Arrays. *)
Lemma tuple_rule : forall V vars m k k' n rules, 0 <= Z.of_nat n < 2 ^ 32 - 1 ->
  (accepts V vars m (VArr ((k, VArr [(k', VNum (NUInt (Z.of_nat n)))]) :: rules)) <->
   exists l, snd m = VArr l /\
     (forall i, (i < n)%nat -> accepts V vars (item l i) (snd (item rules i))) /\
     (forall x, In x (skipn n l) -> one_accepts V vars x (skipn n rules))).
Proof.
  intros V vars m k k' n rules N. apply array_ends; [|exact N|eexists; reflexivity].
  intros ev p s. unfold rule_step, eval_params. cbn [num_s64]. 
  replace (u32 (s64 (Z.of_nat n))) with (Z.of_nat n); [reflexivity|].
  unfold u32, s64. rewrite (Z.mod_small (Z.of_nat n) (2 ^ 64)) by lia. cbv zeta. destruct (Z.of_nat n <? 2 ^ 63) eqn:E; [|lia].
  rewrite Z.mod_small by lia. reflexivity.
Qed.
Lemma items_rule : forall V vars m k rules,
  (accepts V vars m (VArr ((k, VArr []) :: rules)) <->
   exists l, snd m = VArr l /\ forall x, In x l -> one_accepts V vars x rules).
Proof.
  intros V vars m k rules.
  assert (H := array_ends V vars m (VArr ((k, VArr []) :: rules)) 0 rules). cbn [Z.of_nat skipn] in H. rewrite H;
    [|intros ev p s; reflexivity|lia|eexists; reflexivity].
  split; intros (l & A & B).
  - exists l. split; [exact A|apply B].
  - exists l. split; [exact A|]. split; [intros i I; lia|exact B].
Qed.
