(** Parts of arrays, splitting, converted subjects and emitted values. *)
From Coq Require Import String Ascii Lia ZifyBool ZifyNat.
From Verif Require Import Base ModelKeyed SpecKeyed ProofKeyed ModelValue ProofValue ModelText SpecText ModelObject SpecObject ProofObject ModelArray ModelEq ModelBin
  ModelUtf8 ModelJwt ModelString ModelPath ModelRpc ModelNumView ModelDate ModelValidator SpecValidator SpecVars ProofValidator ProofValidator2 ProofValidator3 ProofValidator4 ProofVars ProofVars2.
Local Open Scope Z_scope.
Local Open Scope list_scope.
Ltac Zify.zify_post_hook ::= Z.div_mod_to_equations.

Lemma veq_length : forall L a b, veq L (VArr a) (VArr b) = true -> length a = length b.
Proof.
  intros L. induction a as [|x a IH]; intros [|y b] H; try discriminate; [reflexivity|]. cbn [veq] in H. apply andb_true_iff in H as (_ & H).
  cbn [length]. f_equal. apply IH. exact H.
Qed.
Lemma s32_small : forall z, - 2 ^ 31 <= z < 2 ^ 31 -> s32 z = z.
Proof. intros z H. unfold s32. cbv zeta. destruct (Z.ltb_spec (z mod 2 ^ 32) (2 ^ 31)); lia. Qed.

Section Arr.
Variables (V : venv) (vars : list member) (k0 : bytes) (l : list member).
Notation m := (k0, VArr l).
Hypothesis O : in_order vars m.

Lemma prefix_array : forall k e q kx pre rules, operand V vars m q (kx, VArr pre) -> Z.of_nat (length pre) < 2 ^ 31 -> given rules ->
  let r := VArr ((k, VStr e (txt "prefix")) :: q :: rules) in
  (accepts V vars m r <-> exists a b, l = a ++ b /\ veq (v_L V) (VArr a) (VArr pre) = true /\ rest_accepted V vars ([], VArr b) rules) /\
  (rejects V vars m r <-> forall a b, l = a ++ b -> veq (v_L V) (VArr a) (VArr pre) = true -> rest_rejected V vars ([], VArr b) rules).
Proof.
  intros k e q kx pre rules Q Sm G r. apply get_var_operand in Q; [|exact O]. set (n := length pre).
  assert (Sv : split_value (VArr l) (s32 (Z.of_nat n)) = (VArr (firstn n l), VArr (skipn n l))).
  { unfold split_value. rewrite s32_small by (unfold n; lia). destruct (Z.ltb_spec (Z.of_nat n) 0); [lia|]. unfold split_value_pos. change (vsize (VArr l)) with (length l). cbn [members_of].
    rewrite Nat2Z.id. destruct (Z.ltb_spec 0 (Z.of_nat n)).
    - destruct (Z.ltb_spec (Z.of_nat n) (Z.of_nat (length l))); [reflexivity|]. rewrite firstn_all2, skipn_all2 by lia. reflexivity.
    - replace n with 0%nat by lia. reflexivity. }
  assert (St : forall ev p s, vs_vars s = vars -> rule_step V ev p m r s = close_rule V p r (length (vs_rej s))
    (if negb (veq (v_L V) (VArr (firstn n l)) (VArr pre)) then VDone false s
     else match rules with [] => VDone true s | _ => alternatives ev p ([], VArr (skipn n l)) rules s end)).
  { intros ev p s E. unfold rule_step, r. f_equal. change (op_prefix V ev p m ((k, VStr e (txt "prefix")) :: q :: rules) s = if negb (veq (v_L V) (VArr (firstn n l)) (VArr pre)) then VDone false s
     else match rules with [] => VDone true s | _ => alternatives ev p ([], VArr (skipn n l)) rules s end).
    unfold op_prefix. change (nth 1 ((k, VStr e (txt "prefix")) :: q :: rules) ([], VUndef)) with q. rewrite E, Q. cbn [snd]. fold n. rewrite Sv.
    change (nth 2 ((k, VStr e (txt "prefix")) :: q :: rules) ([], VUndef)) with (nth 0 rules ([], VUndef)).
    change (skipn 2 ((k, VStr e (txt "prefix")) :: q :: rules)) with rules. rewrite given_first by auto. reflexivity. }
  assert (Sp : forall a b, l = a ++ b -> veq (v_L V) (VArr a) (VArr pre) = true -> firstn n l = a /\ skipn n l = b).
  { intros a b E Q2. apply veq_length in Q2. unfold n. rewrite <- Q2, E, firstn_app, skipn_app, firstn_all, skipn_all, Nat.sub_diag. cbn. rewrite app_nil_r. auto. }
  destruct (veq (v_L V) (VArr (firstn n l)) (VArr pre)) eqn:B.
  - destruct (part_rule V vars m r ([], VArr (skipn n l)) rules) as (A & R). { intros g p s E. rewrite St by exact E. reflexivity. }
    split.
    + rewrite A. split; [intros H; exists (firstn n l), (skipn n l); split; [symmetry; apply firstn_skipn|]; split; [exact B|exact H]|].
      intros (a & b & E & Q2 & H). destruct (Sp a b E Q2) as (_ & ->). exact H.
    + rewrite R. split; [|intros H; apply (H (firstn n l)); [symmetry; apply firstn_skipn|exact B]]. intros H a b E Q2. destruct (Sp a b E Q2) as (_ & E'). rewrite E' in H. exact H.
  - destruct (false_rule V vars m r) as (R & A). { intros ev p s E. rewrite St by exact E. reflexivity. }
    assert (N : forall a b, l = a ++ b -> veq (v_L V) (VArr a) (VArr pre) = true -> False). { intros a b E Q2. destruct (Sp a b E Q2) as (E' & _). rewrite E' in B. congruence. }
    split; [split; [intros H; contradiction|intros (a & b & E & Q2 & _); destruct (N a b E Q2)]|]. split; [intros _ a b E Q2; destruct (N a b E Q2)|intros _; exact R].
Qed.
Lemma suffix_array : forall k e q kx suf rules, operand V vars m q (kx, VArr suf) -> suf <> [] -> Z.of_nat (length suf) < 2 ^ 31 -> Z.of_nat (length l) < 2 ^ 31 -> given rules ->
  let r := VArr ((k, VStr e (txt "suffix")) :: q :: rules) in
  (accepts V vars m r <-> exists a b, l = a ++ b /\ veq (v_L V) (VArr b) (VArr suf) = true /\ rest_accepted V vars ([], VArr a) rules) /\
  (rejects V vars m r <-> forall a b, l = a ++ b -> veq (v_L V) (VArr b) (VArr suf) = true -> rest_rejected V vars ([], VArr a) rules).
Proof.
  intros k e q kx suf rules Q Ne Sm Sl G r. apply get_var_operand in Q; [|exact O]. set (n := (length l - length suf)%nat).
  assert (Pos : (0 < length suf)%nat) by (destruct suf; [contradiction|cbn; lia]).
  assert (Sv : split_value (VArr l) (- s32 (Z.of_nat (length suf))) = (VArr (firstn n l), VArr (skipn n l))).
  { unfold split_value. rewrite (s32_small (Z.of_nat (length suf))) by lia. destruct (Z.ltb_spec (- Z.of_nat (length suf)) 0); [|lia]. cbv zeta. change (vsize (VArr l)) with (length l).
    rewrite s32_small by lia. destruct (Z.ltb_spec 0 (Z.of_nat (length l) + - Z.of_nat (length suf))).
    - unfold split_value_pos. change (vsize (VArr l)) with (length l). cbn [members_of]. destruct (Z.ltb_spec 0 (Z.of_nat (length l) + - Z.of_nat (length suf))); [|lia].
      destruct (Z.ltb_spec (Z.of_nat (length l) + - Z.of_nat (length suf)) (Z.of_nat (length l))); [|lia]. replace (Z.to_nat (Z.of_nat (length l) + - Z.of_nat (length suf))) with n by (unfold n; lia). reflexivity.
    - replace n with 0%nat by (unfold n; lia). reflexivity. }
  assert (St : forall ev p s, vs_vars s = vars -> rule_step V ev p m r s = close_rule V p r (length (vs_rej s))
    (if negb (veq (v_L V) (VArr (skipn n l)) (VArr suf)) then VDone false s
     else match rules with [] => VDone true s | _ => alternatives ev p ([], VArr (firstn n l)) rules s end)).
  { intros ev p s E. unfold rule_step, r. f_equal. change (op_suffix V ev p m ((k, VStr e (txt "suffix")) :: q :: rules) s = if negb (veq (v_L V) (VArr (skipn n l)) (VArr suf)) then VDone false s
     else match rules with [] => VDone true s | _ => alternatives ev p ([], VArr (firstn n l)) rules s end).
    unfold op_suffix. change (nth 1 ((k, VStr e (txt "suffix")) :: q :: rules) ([], VUndef)) with q. rewrite E, Q. cbn [snd]. rewrite Sv.
    change (nth 2 ((k, VStr e (txt "suffix")) :: q :: rules) ([], VUndef)) with (nth 0 rules ([], VUndef)).
    change (skipn 2 ((k, VStr e (txt "suffix")) :: q :: rules)) with rules. rewrite given_first by auto. reflexivity. }
  assert (Sp : forall a b, l = a ++ b -> veq (v_L V) (VArr b) (VArr suf) = true -> firstn n l = a /\ skipn n l = b).
  { intros a b E Q2. apply veq_length in Q2. assert (n = length a) as -> by (unfold n; rewrite E, app_length; lia). rewrite E, firstn_app, skipn_app, firstn_all, skipn_all, Nat.sub_diag. cbn. rewrite app_nil_r. auto. }
  destruct (veq (v_L V) (VArr (skipn n l)) (VArr suf)) eqn:B.
  - destruct (part_rule V vars m r ([], VArr (firstn n l)) rules) as (A & R). { intros g p s E. rewrite St by exact E. reflexivity. }
    split.
    + rewrite A. split; [intros H; exists (firstn n l), (skipn n l); split; [symmetry; apply firstn_skipn|]; split; [exact B|exact H]|].
      intros (a & b & E & Q2 & H). destruct (Sp a b E Q2) as (-> & _). exact H.
    + rewrite R. split; [|intros H; apply (H _ (skipn n l)); [symmetry; apply firstn_skipn|exact B]]. intros H a b E Q2. destruct (Sp a b E Q2) as (E' & _). rewrite E' in H. exact H.
  - destruct (false_rule V vars m r) as (R & A). { intros ev p s E. rewrite St by exact E. reflexivity. }
    assert (N : forall a b, l = a ++ b -> veq (v_L V) (VArr b) (VArr suf) = true -> False). { intros a b E Q2. destruct (Sp a b E Q2) as (_ & E'). rewrite E' in B. congruence. }
    split; [split; [intros H; contradiction|intros (a & b & E & Q2 & _); destruct (N a b E Q2)]|]. split; [intros _ a b E Q2; destruct (N a b E Q2)|intros _; exact R].
Qed.
End Arr.

(** *** split *)
Lemma split_ends : forall V vars m k e q left right post a b, in_order vars m ->
  (forall x, operand V vars m q x -> split_value (snd m) (s32 (uint_of V (snd x))) = (a, b)) ->
  let r := VArr ((k, VStr e (txt "split")) :: q :: left :: right :: post) in
  (accepts V vars m r <-> accepts V vars ([], a) (snd left) /\ accepts V vars ([], b) (snd right)) /\
  (rejects V vars m r <-> rejects V vars ([], a) (snd left) \/ accepts V vars ([], a) (snd left) /\ rejects V vars ([], b) (snd right)).
Proof.
  intros V vars m k e q left right post a b O Sv r.
  assert (Sv' : split_value (snd m) (s32 (uint_of V (snd (get_var V vars m q)))) = (a, b)) by (apply Sv; apply get_var_operand; [exact O|reflexivity]).
  assert (St : forall g p s c, vs_vars s = vars -> out_is (rule_step V (eval_rule V g) p m r s) c <->
    out_is (vbind (eval_rule V g p ([], a) (snd left) s) (fun r s => if r then eval_rule V g p ([], b) (snd right) s else VDone false s)) c).
  { intros g p s c E. unfold rule_step, r. rewrite close_is. change (out_is (op_split V (eval_rule V g) p m ((k, VStr e (txt "split")) :: q :: left :: right :: post) s) c <->
    out_is (vbind (eval_rule V g p ([], a) (snd left) s) (fun r s => if r then eval_rule V g p ([], b) (snd right) s else VDone false s)) c).
    unfold op_split. cbn [nth]. rewrite E, Sv'. reflexivity. }
  assert (Z : forall c, ends V vars m r c <-> exists d, ends V vars ([], a) (snd left) d /\ if d then ends V vars ([], b) (snd right) c else c = false).
  { intros c. split.
    - intros (f & E)%ends_step. specialize (E f (le_n f) [] (st0 vars) eq_refl). apply St in E; [|reflexivity]. apply (bind_is V vars f ([], a)) in E; [|reflexivity].
      destruct E as (d & t & T & Et & Vd & U). exists d. split; [apply ends_verdict; exists f; exact Vd|]. destruct d; [|apply done_is in U; symmetry; exact U].
      destruct U as (u & U). exists f, [], t, u. auto.
    - intros (d & D & R). apply ends_all in D as (f1 & D). destruct d.
      + apply ends_all in R as (f2 & R). apply ends_step. exists (Nat.max f1 f2). intros g L p s E. apply St; [exact E|]. apply (bind_is V vars g ([], a)); [exact E|].
        destruct (D g ltac:(lia) p s E) as (t & T). exists true, t. split; [exact T|]. pose proof (eval_kept V g p ([], a) (snd left) s) as K. rewrite T in K.
        assert (Et : vs_vars t = vars) by (destruct K; congruence). split; [exact Et|]. split; [apply D; lia|]. apply R; [lia|exact Et].
      + subst c. apply ends_step. exists f1. intros g L p s E. apply St; [exact E|]. apply (bind_is V vars g ([], a)); [exact E|].
        destruct (D g ltac:(lia) p s E) as (t & T). exists false, t. split; [exact T|]. pose proof (eval_kept V g p ([], a) (snd left) s) as K. rewrite T in K.
        split; [destruct K; congruence|]. split; [apply D; lia|]. apply done_is. reflexivity. }
  unfold accepts, rejects. split; rewrite Z.
  - split; [intros ([] & A & B); [auto|discriminate]|]. intros (A & B). exists true. auto.
  - split; [intros ([] & A & B); auto|]. intros [A|(A & B)]; [exists false; auto|exists true; auto].
Qed.
(** A number of 32 bits given as an operand, negative ones stored as signed. *)
Lemma position_value : forall V n z, position n z -> s32 (uint_of V (VNum n)) = z.
Proof.
  intros V n z (R & [(-> & P)| ->]).
  - change (s32 z = z). apply s32_small. exact R.
  - change (s32 (u64 z) = z). unfold s32, u64. cbv zeta. destruct (Z.ltb_spec ((z mod 2 ^ 64) mod 2 ^ 32) (2 ^ 31)); lia.
Qed.
Lemma operand_fun : forall V vars m q x y, in_order vars m -> operand V vars m q x -> operand V vars m q y -> x = y.
Proof. intros V vars m q x y O A B. apply get_var_operand in A; [|exact O]. apply get_var_operand in B; [|exact O]. congruence. Qed.
(** Characters or items before a position, negative from the end. *)
Lemma split_array : forall V vars k0 l k e q kx n z left right post, in_order vars (k0, VArr l) -> operand V vars (k0, VArr l) q (kx, VNum n) -> position n z ->
  Z.of_nat (length l) < 2 ^ 31 ->
  let r := VArr ((k, VStr e (txt "split")) :: q :: left :: right :: post) in
  let a := ([], VArr (firstn (before (length l) z) l)) in let b := ([], VArr (skipn (before (length l) z) l)) in
  (accepts V vars (k0, VArr l) r <-> accepts V vars a (snd left) /\ accepts V vars b (snd right)) /\
  (rejects V vars (k0, VArr l) r <-> rejects V vars a (snd left) \/ accepts V vars a (snd left) /\ rejects V vars b (snd right)).
Proof.
  intros V vars k0 l k e q kx n z left right post O Q P Sl. apply split_ends; [exact O|]. intros x X. rewrite (operand_fun _ _ _ _ _ _ O X Q). cbn [snd].
  rewrite (position_value V n z P). destruct P as (R & _). unfold split_value, before. destruct (Z.ltb_spec z 0).
  - cbv zeta. change (vsize (VArr l)) with (length l). rewrite s32_small by lia. destruct (Z.ltb_spec 0 (Z.of_nat (length l) + z)).
    + unfold split_value_pos. change (vsize (VArr l)) with (length l). cbn [members_of]. destruct (Z.ltb_spec 0 (Z.of_nat (length l) + z)); [|lia].
      destruct (Z.ltb_spec (Z.of_nat (length l) + z) (Z.of_nat (length l))); [|lia]. replace (Z.to_nat (Z.of_nat (length l) + z)) with (length l - Z.to_nat (- z))%nat by lia. reflexivity.
    + replace (length l - Z.to_nat (- z))%nat with 0%nat by lia. reflexivity.
  - unfold split_value_pos. change (vsize (VArr l)) with (length l). cbn [members_of]. destruct (Z.ltb_spec 0 z).
    + destruct (Z.ltb_spec z (Z.of_nat (length l))); [reflexivity|]. rewrite firstn_all2, skipn_all2 by lia. reflexivity.
    + replace z with 0 by lia. reflexivity.
Qed.
(** Strings split properly only between two characters. *)
Lemma split_text : forall V vars k0 e0 t k e q kx n z left right post, in_order vars (k0, VStr e0 t) -> operand V vars (k0, VStr e0 t) q (kx, VNum n) -> position n z ->
  Z.of_nat (length t) < 2 ^ 31 -> (0 < before (length t) z < length t)%nat ->
  let r := VArr ((k, VStr e (txt "split")) :: q :: left :: right :: post) in
  let a := ([], VStr None (firstn (before (length t) z) t)) in let b := ([], VStr None (skipn (before (length t) z) t)) in
  (accepts V vars (k0, VStr e0 t) r <-> accepts V vars a (snd left) /\ accepts V vars b (snd right)) /\
  (rejects V vars (k0, VStr e0 t) r <-> rejects V vars a (snd left) \/ accepts V vars a (snd left) /\ rejects V vars b (snd right)).
Proof.
  intros V vars k0 e0 t k e q kx n z left right post O Q P Sl In_. apply split_ends; [exact O|]. intros x X. rewrite (operand_fun _ _ _ _ _ _ O X Q). cbn [snd].
  rewrite (position_value V n z P). destruct P as (R & _). unfold split_value, str_split_at, before in *. cbn [get_string]. cbv zeta.
  assert (Sp : forall p, 0 < p < Z.of_nat (length t) -> split_at_pos (VStr e0 t) p = (VStr None (firstn (Z.to_nat p) t), VStr None (skipn (Z.to_nat p) t))).
  { intros p Hp. unfold split_at_pos. cbn [get_string]. cbv zeta. rewrite Z.mod_small by lia. destruct (Z.ltb_spec p (Z.of_nat (length t))); [|lia].
    unfold sub_string, substr. cbn [skipn]. f_equal. f_equal. apply firstn_all2. rewrite skipn_length. lia. }
  destruct (Z.ltb_spec z 0).
  - destruct (Z.ltb_spec 0 z); [lia|]. rewrite s32_small by lia. destruct (Z.ltb_spec 0 (Z.of_nat (length t) + z)); [|lia]. rewrite Sp by lia.
    replace (Z.to_nat (Z.of_nat (length t) + z)) with (length t - Z.to_nat (- z))%nat by lia. reflexivity.
  - destruct (Z.ltb_spec 0 z); [|lia]. rewrite Sp by lia. reflexivity.
Qed.
