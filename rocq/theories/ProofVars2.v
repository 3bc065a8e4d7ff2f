(** Rules with variables, operands and parts of the subject. *)
From Coq Require Import String Ascii Lia ZifyBool.
From Verif Require Import Base ModelKeyed SpecKeyed ProofKeyed ModelValue ProofValue ModelText SpecText ModelObject SpecObject ProofObject ModelArray ModelEq ModelBin
  ModelUtf8 ModelJwt ModelString ModelPath ModelRpc ModelNumView ModelDate ModelValidator SpecValidator SpecVars ProofValidator ProofValidator2 ProofValidator3 ProofValidator4 ProofVars.
Local Open Scope Z_scope.
Local Open Scope list_scope.
Ltac Zify.zify_post_hook ::= Z.div_mod_to_equations.

Lemma get_var_operand : forall V vars m q x, in_order vars m -> (get_var V vars m q = x <-> operand V vars m q x).
Proof. intros V vars m q x (A & B). apply operand_spec; assumption. Qed.
Lemma step_ends : forall V vars m r r', (forall g p s, vs_vars s = vars -> forall b, out_is (rule_step V (eval_rule V g) p m r s) b <-> out_is (rule_step V (eval_rule V g) p m r' s) b) ->
  forall b, ends V vars m r b <-> ends V vars m r' b.
Proof.
  assert (H1 : forall V vars m r r', (forall g p s, vs_vars s = vars -> forall b, out_is (rule_step V (eval_rule V g) p m r s) b <-> out_is (rule_step V (eval_rule V g) p m r' s) b) ->
    forall b, ends V vars m r b -> ends V vars m r' b).
  { intros V vars m r r' H b E. apply ends_step in E as (f & E). apply ends_step. exists f. intros g L p s Ev. apply H; [exact Ev|]. apply E; assumption. }
  intros V vars m r r' H b. split; apply H1; [exact H|]. intros g p s Ev c. rewrite H by exact Ev. reflexivity.
Qed.

(** *** Operands *)
Lemma operand_rule : forall V vars m k e w q x post, in_order vars m -> In w operand_words -> operand V vars m q x -> operand V vars m x x ->
  forall b, ends V vars m (VArr ((k, VStr e w) :: q :: post)) b <-> ends V vars m (VArr ((k, VStr e w) :: x :: post)) b.
Proof.
  intros V vars m k e w q x post O W Q X. apply get_var_operand in Q; [|exact O]. apply get_var_operand in X; [|exact O].
  apply step_ends. intros g p s E b. rewrite <- E in Q, X. cbn [operand_words map] in W.
  destruct W as [<-|[<-|[<-|[<-|[<-|[<-|[<-|[]]]]]]]]; unfold rule_step; rewrite !close_is.
  - change (out_is (VDone (check_min_size (snd m) (uint_of V (snd (get_var V (vs_vars s) m q)))) s) b <-> out_is (VDone (check_min_size (snd m) (uint_of V (snd (get_var V (vs_vars s) m x)))) s) b). rewrite Q, X. reflexivity.
  - change (out_is (VDone (check_max_size (snd m) (uint_of V (snd (get_var V (vs_vars s) m q)))) s) b <-> out_is (VDone (check_max_size (snd m) (uint_of V (snd (get_var V (vs_vars s) m x)))) s) b). rewrite Q, X. reflexivity.
  - change (out_is (op_prefix V (eval_rule V g) p m ((k, VStr e (txt "prefix")) :: q :: post) s) b <-> out_is (op_prefix V (eval_rule V g) p m ((k, VStr e (txt "prefix")) :: x :: post) s) b).
    unfold op_prefix. cbn [nth skipn]. rewrite Q, X. reflexivity.
  - change (out_is (op_suffix V (eval_rule V g) p m ((k, VStr e (txt "suffix")) :: q :: post) s) b <-> out_is (op_suffix V (eval_rule V g) p m ((k, VStr e (txt "suffix")) :: x :: post) s) b).
    unfold op_suffix. cbn [nth skipn List.length]. rewrite Q, X. reflexivity.
  - change (out_is (op_split V (eval_rule V g) p m ((k, VStr e (txt "split")) :: q :: post) s) b <-> out_is (op_split V (eval_rule V g) p m ((k, VStr e (txt "split")) :: x :: post) s) b).
    unfold op_split. cbn [nth]. rewrite Q, X. reflexivity.
  - change (out_is (op_explode V (eval_rule V g) p m ((k, VStr e (txt "explode")) :: q :: post) s) b <-> out_is (op_explode V (eval_rule V g) p m ((k, VStr e (txt "explode")) :: x :: post) s) b).
    unfold op_explode. cbn [nth]. rewrite Q, X. reflexivity.
  - change (out_is (match to_string (v_E V) (v_utf8 V) (snd m) with
      | Some t => VDone (check_date_time (get_string (snd (get_var V (vs_vars s) m q))) t) s | None => VThrow s end) b <->
      out_is (match to_string (v_E V) (v_utf8 V) (snd m) with
      | Some t => VDone (check_date_time (get_string (snd (get_var V (vs_vars s) m x))) t) s | None => VThrow s end) b). rewrite Q, X. reflexivity.
Qed.
Lemma plain_operand : forall V vars m q, (forall l, snd q <> VArr l) -> operand V vars m q q.
Proof. intros V vars m q N. right. split; [|reflexivity]. intros (x & X). inversion X as [k e n rest ? ? ? ? ? E]. exact (N _ (eq_sym E)). Qed.

(** A comparison with an operand. *)
Lemma compare_rule : forall V vars m k e op q, in_order vars m -> In op ["<"; ">="; ">"; "<="]%string ->
  (accepts V vars m (VArr [(k, VStr e (txt op)); q]) <-> exists x, operand V vars m q x /\ satisfies (v_L V) (snd m) (snd x) op).
Proof.
  intros V vars m k e op q O Op. rewrite (range_ends V vars m k e op [q] Op). split.
  - intros H. exists (get_var V vars m q). split; [apply get_var_operand; [exact O|reflexivity]|].
    inversion H as [|? ? w ? ? E|? ? o ? ? Sa ? E|? ? o Sa E|? ? ? P ? ? E]; subst.
    + pose proof (op_not_comment op Op) as C. match goal with Q : 35 :: _ = txt op |- _ => rewrite <- Q in C; discriminate C | Q : txt op = 35 :: _ |- _ => rewrite Q in C; discriminate C end.
    + pose proof (satisfies_op _ _ _ _ Sa) as Op'. assert (o = op) as <-; [|exact Sa].
      cbn in Op, Op'. repeat match goal with H : _ \/ _ |- _ => destruct H as [<-|H] end; try contradiction; try reflexivity; match goal with Q : txt _ = txt _ |- _ => vm_compute in Q; discriminate Q end.
    + cbn in P. destruct P as (P & _). destruct P. cbn in Op. repeat match goal with H : _ \/ _ |- _ => destruct H as [<-|H] end; try contradiction; cbn; auto.
  - intros (x & X & Sa). apply get_var_operand in X; [|exact O]. apply AH_compare; [rewrite X; exact Sa|constructor].
Qed.

(** *** setvar, usevar, comparison with a variable *)
Lemma ends_alternatives_vars : forall V vars vars' m n r rules (push pop : vst -> vst), (forall s, vs_vars s = vars -> vs_vars (push s) = vars') ->
  (forall g p s, vs_vars s = vars -> forall b, out_is (rule_step V (eval_rule V g) p m r s) b <->
     out_is (vbind (alternatives (eval_rule V g) p n rules (push s)) (fun b s => VDone b (pop s))) b) ->
  (ends V vars m r true <-> one_accepts V vars' n rules) /\ (ends V vars m r false <-> Forall (fun y => rejects V vars' n (snd y)) rules).
Proof.
  intros V vars vars' m n r rules push pop Pv H0.
  assert (H : forall g p s, vs_vars s = vars -> forall b, out_is (rule_step V (eval_rule V g) p m r s) b <-> out_is (alternatives (eval_rule V g) p n rules (push s)) b).
  { intros g p s E b. rewrite (H0 g p s E b). destruct (alternatives (eval_rule V g) p n rules (push s)) as [c t|t| |]; cbn [vbind]; [rewrite !done_is; reflexivity|split; intros (u & U); discriminate..]. }
  clear H0. unfold one_accepts, accepts, rejects. split; rewrite ends_step; split.
  - intros (f & A). specialize (A f (le_n f) [] (st0 vars) eq_refl). apply H in A; [|reflexivity].
    apply (alternatives_true V vars' f n) in A as (pre & x & post & -> & A & B); [|apply Pv; reflexivity].
    exists pre, x, post. split; [reflexivity|]. split; [exact (ends_list _ _ _ _ _ _ A)|]. apply ends_verdict. exists f. exact B.
  - intros (pre & x & post & -> & A & B). apply says_list in A as (f1 & A). apply ends_all in B as (f2 & B).
    exists (Nat.max f1 f2). intros g L p s E. apply H; [exact E|]. apply (alternatives_true V vars' g n); [apply Pv; exact E|].
    exists pre, x, post. split; [reflexivity|]. split; [apply A; lia|apply B; lia].
  - intros (f & A). specialize (A f (le_n f) [] (st0 vars) eq_refl). apply H in A; [|reflexivity].
    apply (alternatives_false V vars' f n) in A; [|apply Pv; reflexivity]. exact (ends_list _ _ _ _ _ _ A).
  - intros A. apply says_list in A as (f1 & A). exists f1. intros g L p s E. apply H; [exact E|].
    apply (alternatives_false V vars' g n); [apply Pv; exact E|]. apply A. exact L.
Qed.
Lemma setvar_rule : forall V vars m k e k2 e2 n rules,
  let r := VArr ((k, VStr e (txt "setvar")) :: (k2, VStr e2 (36 :: n)) :: rules) in
  (accepts V vars m r <-> one_accepts V ((36 :: n, snd m) :: vars) m rules) /\
  (rejects V vars m r <-> Forall (fun y => rejects V ((36 :: n, snd m) :: vars) m (snd y)) rules).
Proof.
  intros V vars m k e k2 e2 n rules r. apply (ends_alternatives_vars V vars ((36 :: n, snd m) :: vars) m m r rules (push_var (36 :: n) (snd m)) pop_var).
  - intros s E. cbn. rewrite E. reflexivity.
  - intros g p s E b. unfold rule_step, r. rewrite close_is. reflexivity.
Qed.
Lemma setvar_bad : forall V vars m k e k2 v rules, (forall n, get_string v <> 36 :: n) -> rejects V vars m (VArr ((k, VStr e (txt "setvar")) :: (k2, v) :: rules)).
Proof.
  intros V vars m k e k2 v rules N. apply ends_step. exists 0%nat. intros g _ p s E. unfold rule_step. rewrite close_is.
  change (out_is (op_setvar (eval_rule V g) p m ((k, VStr e (txt "setvar")) :: (k2, v) :: rules) s) false). unfold op_setvar. cbn [nth snd].
  destruct (get_string v) as [|c n]; [apply done_is; reflexivity|]. destruct (Z.eqb_spec c 36) as [->|]; [destruct (N _ eq_refl)|apply done_is; reflexivity].
Qed.
Lemma usevar_step : forall V vars m k e k2 id rules x,
  match id with VArr _ => get_var V vars m (k2, id) | _ => find_var vars m (get_string id) end = x -> snd x <> VUndef ->
  let r := VArr ((k, VStr e (txt "usevar")) :: (k2, id) :: rules) in
  (accepts V vars m r <-> one_accepts V vars x rules) /\ (rejects V vars m r <-> Forall (fun y => rejects V vars x (snd y)) rules).
Proof.
  intros V vars m k e k2 id rules x X D r. apply ends_alternatives. intros g p s E b. unfold rule_step, r. rewrite close_is.
  change (out_is (op_usevar V (eval_rule V g) p m ((k, VStr e (txt "usevar")) :: (k2, id) :: rules) s) b <-> out_is (alternatives (eval_rule V g) p x rules s) b).
  unfold op_usevar. cbn [nth snd]. rewrite E. rewrite X. rewrite (proj2 (defined_spec _) D). reflexivity.
Qed.
Lemma usevar_rule : forall V vars m k e k2 e2 n rules x, var_is vars m n x -> snd x <> VUndef ->
  let r := VArr ((k, VStr e (txt "usevar")) :: (k2, VStr e2 n) :: rules) in
  (accepts V vars m r <-> one_accepts V vars x rules) /\ (rejects V vars m r <-> Forall (fun y => rejects V vars x (snd y)) rules).
Proof. intros V vars m k e k2 e2 n rules x X D. apply usevar_step; [|exact D]. apply find_var_is; assumption. Qed.
Lemma usevar_path : forall V vars m k e k2 l rules x, in_order vars m -> operand V vars m (k2, VArr l) x -> snd x <> VUndef ->
  let r := VArr ((k, VStr e (txt "usevar")) :: (k2, VArr l) :: rules) in
  (accepts V vars m r <-> one_accepts V vars x rules) /\ (rejects V vars m r <-> Forall (fun y => rejects V vars x (snd y)) rules).
Proof. intros V vars m k e k2 l rules x O X D. apply usevar_step; [|exact D]. apply get_var_operand; assumption. Qed.
Lemma usevar_unknown : forall V vars m k e k2 id rules,
  match id with VArr _ => get_var V vars m (k2, id) | _ => find_var vars m (get_string id) end = ([], VUndef) \/
  snd (match id with VArr _ => get_var V vars m (k2, id) | _ => find_var vars m (get_string id) end) = VUndef ->
  rejects V vars m (VArr ((k, VStr e (txt "usevar")) :: (k2, id) :: rules)).
Proof.
  intros V vars m k e k2 id rules X. assert (X' : snd (match id with VArr _ => get_var V vars m (k2, id) | _ => find_var vars m (get_string id) end) = VUndef) by (destruct X as [->|X]; [reflexivity|exact X]).
  apply ends_step. exists 0%nat. intros g _ p s E. unfold rule_step. rewrite close_is.
  change (out_is (op_usevar V (eval_rule V g) p m ((k, VStr e (txt "usevar")) :: (k2, id) :: rules) s) false). unfold op_usevar. cbn [nth snd]. rewrite E, X'. apply done_is. reflexivity.
Qed.
Lemma usevar_none : forall V vars m k e k2 e2 n rules, ~ known vars m n -> rejects V vars m (VArr ((k, VStr e (txt "usevar")) :: (k2, VStr e2 n) :: rules)).
Proof.
  intros V vars m k e k2 e2 n rules N. apply usevar_unknown. right. cbn [get_string]. destruct (defined (snd (find_var vars m n))) eqn:D; [destruct N; apply known_spec; exact D|].
  destruct (snd (find_var vars m n)); cbn in D; congruence.
Qed.
Lemma usevar_undef : forall V vars m k e k2 l rules x, in_order vars m -> operand V vars m (k2, VArr l) x -> snd x = VUndef ->
  rejects V vars m (VArr ((k, VStr e (txt "usevar")) :: (k2, VArr l) :: rules)).
Proof. intros V vars m k e k2 l rules x O X D. apply usevar_unknown. right. apply get_var_operand in X; [|exact O]. rewrite X. exact D. Qed.

Lemma token_var : forall V ev p m w args s, ~ In w keywords -> defined (snd (find_var (vs_vars s) m w)) = true ->
  eval_token V ev p m w args s = VDone (veq (v_L V) (snd m) (snd (get_var V (vs_vars s) m ([], VArr args)))) s.
Proof.
  intros V ev p m w args s N U.
  assert (H : forall k, In k keywords -> beqb w k = false). { intros k K. apply beqb_neq. intros ->. exact (N K). }
  unfold eval_token. rewrite !H by (unfold keywords; apply in_map; cbn [In]; tauto). cbn [orb]. rewrite U. reflexivity.
Qed.
Lemma equal_rule : forall V vars m k e n rest x, in_order vars m -> ~ In n keywords -> known vars m n -> operand V vars m ([], VArr ((k, VStr e n) :: rest)) x ->
  let r := VArr ((k, VStr e n) :: rest) in
  (accepts V vars m r <-> veq (v_L V) (snd m) (snd x) = true) /\ (rejects V vars m r <-> veq (v_L V) (snd m) (snd x) = false).
Proof.
  intros V vars m k e n rest x O N K X r. apply get_var_operand in X; [|exact O].
  assert (Z : forall c, ends V vars m r c <-> veq (v_L V) (snd m) (snd x) = c).
  { apply const_ends. intros ev p s E. unfold rule_step, r. rewrite close_is. unfold eval_params. rewrite token_var; [|exact N|rewrite E; apply known_spec; exact K].
    rewrite E, X. apply done_is. reflexivity. }
  split; apply Z.
Qed.

(** *** Parts *)
(** A rule that lets only some subjects through, and then the other rules, if any. *)
Lemma part_rule : forall V vars m r n rules,
  (forall g p s, vs_vars s = vars -> rule_step V (eval_rule V g) p m r s = close_rule V p r (length (vs_rej s)) (match rules with [] => VDone true s | _ => alternatives (eval_rule V g) p n rules s end)) ->
  (accepts V vars m r <-> rest_accepted V vars n rules) /\ (rejects V vars m r <-> rest_rejected V vars n rules).
Proof.
  intros V vars m r n rules H. unfold rest_accepted, rest_rejected. destruct rules as [|x rules].
  - assert (Z : forall c, ends V vars m r c <-> true = c).
    { intros c. split.
      - intros (f & E)%ends_step. destruct (E f (le_n f) [] (st0 vars) eq_refl) as (t & T). rewrite H in T by reflexivity. assert (out_is (close_rule V [] r (length (vs_rej (st0 vars))) (VDone true (st0 vars))) c) as Q by (eexists; exact T).
        apply close_is, done_is in Q. exact Q.
      - intros <-. apply ends_step. exists 0%nat. intros g _ p s E. rewrite H by exact E. apply close_is, done_is. reflexivity. }
    split; split; intros A.
    + left; reflexivity.
    + apply Z. reflexivity.
    + apply Z in A. discriminate.
    + destruct A as (A & _). contradiction.
  - destruct (ends_alternatives V vars m n r (x :: rules)) as (A & B).
    { intros g p s E b. rewrite H by exact E. apply close_is. }
    split.
    + unfold accepts. rewrite A. split; [intros C; right; exact C|]. intros [C|C]; [discriminate|exact C].
    + unfold rejects. rewrite B. split; [intros C; split; [discriminate|exact C]|]. intros (_ & C); exact C.
Qed.
Lemma false_rule : forall V vars m r, (forall ev p s, vs_vars s = vars -> rule_step V ev p m r s = close_rule V p r (length (vs_rej s)) (VDone false s)) ->
  rejects V vars m r /\ ~ accepts V vars m r.
Proof.
  intros V vars m r H. assert (Z : forall c, ends V vars m r c <-> false = c).
  { apply const_ends. intros ev p s E. rewrite H by exact E. apply close_is, done_is. reflexivity. }
  split; [apply Z; reflexivity|]. intros A. apply Z in A. discriminate.
Qed.
Lemma given_first : forall m rules ev p s, given rules ->
  (if defined (snd (nth 0 rules ([], VUndef))) then alternatives ev p m rules s else VDone true s) = match rules with [] => VDone true s | _ => alternatives ev p m rules s end.
Proof. intros m rules ev p s G. destruct rules as [|x rules]; [reflexivity|]. inversion G; subst. cbn [nth]. rewrite (proj2 (defined_spec _) H1). reflexivity. Qed.
Lemma beqb_refl : forall s, beqb s s = true.
Proof. intros s. apply beqb_eq. reflexivity. Qed.

Lemma prefix_text : forall V vars m k e k2 e2 pre rules, given rules ->
  let r := VArr ((k, VStr e (txt "prefix")) :: (k2, VStr e2 pre) :: rules) in
  (accepts V vars m r <-> exists rest, get_string (snd m) = pre ++ rest /\ rest_accepted V vars ([], VStr None rest) rules) /\
  (rejects V vars m r <-> forall rest, get_string (snd m) = pre ++ rest -> rest_rejected V vars ([], VStr None rest) rules).
Proof.
  intros V vars m k e k2 e2 pre rules G r.
  assert (St : forall ev p s, rule_step V ev p m r s = close_rule V p r (length (vs_rej s))
    (if negb (beqb (firstn (length pre) (get_string (snd m))) pre) then VDone false s
     else match rules with [] => VDone true s | _ => alternatives ev p ([], VStr None (skipn (length pre) (get_string (snd m)))) rules s end)).
  { intros ev p s. unfold rule_step, r. f_equal. change (op_prefix V ev p m ((k, VStr e (txt "prefix")) :: (k2, VStr e2 pre) :: rules) s = if negb (beqb (firstn (length pre) (get_string (snd m))) pre) then VDone false s
     else match rules with [] => VDone true s | _ => alternatives ev p ([], VStr None (skipn (length pre) (get_string (snd m)))) rules s end).
    unfold op_prefix. change (get_var V (vs_vars s) m (nth 1 ((k, VStr e (txt "prefix")) :: (k2, VStr e2 pre) :: rules) ([], VUndef))) with (k2, VStr e2 pre).
    cbn [snd get_string]. change (nth 2 ((k, VStr e (txt "prefix")) :: (k2, VStr e2 pre) :: rules) ([], VUndef)) with (nth 0 rules ([], VUndef)).
    change (skipn 2 ((k, VStr e (txt "prefix")) :: (k2, VStr e2 pre) :: rules)) with rules. rewrite given_first by auto. reflexivity. }
  destruct (beqb (firstn (length pre) (get_string (snd m))) pre) eqn:B.
  - apply beqb_eq in B. pose proof (firstn_skipn (length pre) (get_string (snd m))) as Fs. rewrite B in Fs.
    destruct (part_rule V vars m r ([], VStr None (skipn (length pre) (get_string (snd m)))) rules) as (A & R). { intros g p s E. rewrite St. reflexivity. }
    split.
    + rewrite A. split; [intros H; eexists; split; [symmetry; exact Fs|exact H]|]. intros (rest & E & H). rewrite E, skipn_app, skipn_all, Nat.sub_diag in *. exact H.
    + rewrite R. split; [|intros H; apply H; symmetry; exact Fs]. intros H rest E. rewrite E, skipn_app, skipn_all, Nat.sub_diag in H. exact H.
  - destruct (false_rule V vars m r) as (R & A). { intros ev p s E. rewrite St. reflexivity. }
    assert (N : forall rest, get_string (snd m) <> pre ++ rest). { intros rest E. rewrite E, firstn_app, firstn_all, Nat.sub_diag, app_nil_r, beqb_refl in B. discriminate. }
    split; [split; [intros H; contradiction|intros (rest & E & _); destruct (N rest E)]|]. split; [intros _ rest E; destruct (N rest E)|intros _; exact R].
Qed.
Lemma suffix_text : forall V vars m k e k2 e2 suf rules,
  let r := VArr ((k, VStr e (txt "suffix")) :: (k2, VStr e2 suf) :: rules) in
  (accepts V vars m r <-> exists rest, get_string (snd m) = rest ++ suf /\ rest_accepted V vars ([], VStr None rest) rules) /\
  (rejects V vars m r <-> forall rest, get_string (snd m) = rest ++ suf -> rest_rejected V vars ([], VStr None rest) rules).
Proof.
  intros V vars m k e k2 e2 suf rules r. set (t := get_string (snd m)). set (pos := (length t - length suf)%nat).
  assert (St : forall ev p s, rule_step V ev p m r s = close_rule V p r (length (vs_rej s))
    (if (length t <? length suf)%nat then VDone false s else if negb (beqb (skipn pos t) suf) then VDone false s
     else match rules with [] => VDone true s | _ => alternatives ev p ([], VStr None (firstn pos t)) rules s end)).
  { intros ev p s. unfold rule_step, r. f_equal. change (op_suffix V ev p m ((k, VStr e (txt "suffix")) :: (k2, VStr e2 suf) :: rules) s = if (length t <? length suf)%nat then VDone false s else if negb (beqb (skipn pos t) suf) then VDone false s
     else match rules with [] => VDone true s | _ => alternatives ev p ([], VStr None (firstn pos t)) rules s end).
    unfold op_suffix. change (get_var V (vs_vars s) m (nth 1 ((k, VStr e (txt "suffix")) :: (k2, VStr e2 suf) :: rules) ([], VUndef))) with (k2, VStr e2 suf).
    cbn [snd get_string]. fold t. fold pos. destruct (length t <? length suf)%nat; [reflexivity|]. destruct (beqb (skipn pos t) suf); [|reflexivity]. cbn [negb].
    destruct rules; reflexivity. }
  assert (Sp : forall rest, t = rest ++ suf -> (length t <? length suf)%nat = false /\ skipn pos t = suf /\ firstn pos t = rest).
  { intros rest E. assert (L : length t = (length rest + length suf)%nat) by (rewrite E; apply app_length).
    assert (P : pos = length rest) by (unfold pos; lia). rewrite P. rewrite E at 2 3. split; [apply Nat.ltb_ge; lia|].
    rewrite skipn_app, skipn_all, Nat.sub_diag. split; [reflexivity|]. rewrite firstn_app, firstn_all, Nat.sub_diag. apply app_nil_r. }
  destruct ((length t <? length suf)%nat || negb (beqb (skipn pos t) suf)) eqn:B.
  - destruct (false_rule V vars m r) as (R & A). { intros ev p s E. rewrite St. apply orb_true_iff in B. destruct (length t <? length suf)%nat; [reflexivity|]. destruct B as [B|B]; [discriminate|]. rewrite B. reflexivity. }
    assert (N : forall rest, t <> rest ++ suf). { intros rest E. destruct (Sp rest E) as (L & S1 & _). rewrite L, S1, beqb_refl in B. discriminate. }
    split; [split; [intros H; contradiction|intros (rest & E & _); destruct (N rest E)]|]. split; [intros _ rest E; destruct (N rest E)|intros _; exact R].
  - apply orb_false_iff in B as (L & B). apply negb_false_iff, beqb_eq in B. pose proof (firstn_skipn pos t) as Fs. rewrite B in Fs.
    destruct (part_rule V vars m r ([], VStr None (firstn pos t)) rules) as (A & R). { intros g p s E. rewrite St, L, B, beqb_refl. reflexivity. }
    split.
    + rewrite A. split; [intros H; eexists; split; [symmetry; exact Fs|exact H]|]. intros (rest & E & H). destruct (Sp rest E) as (_ & _ & ->). exact H.
    + rewrite R. split; [|intros H; apply H; symmetry; exact Fs]. intros H rest E. destruct (Sp rest E) as (_ & _ & E'). rewrite E' in H. exact H.
Qed.
