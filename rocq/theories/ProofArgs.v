(** Proofs about the check of arguments. *)
From Coq Require Import String Ascii Lia.
From Verif Require Import Base ModelKeyed SpecKeyed ProofKeyed ModelValue ModelText ModelObject SpecObject ModelArray SpecArray ModelEq ModelBin
  ModelUtf8 ModelJwt ModelString ModelPath ModelRpc SpecRpc ProofRpc ProofRpc2 ModelNumView ModelDate ModelValidator SpecValidator ProofValidator
  ProofValidator2 ProofValidator4 ProofValidator5 ProofArray ProofSearch ModelArgs SpecArgs.
Local Open Scope Z_scope.
Local Open Scope list_scope.
Notation length := List.length.

(** *** Rejections lie under the path of the rule *)
Definition under (p : path) (s t : vst) : Prop :=
  exists l, vs_rej t = vs_rej s ++ l /\ Forall (fun x => exists q, fst x = q ++ p) l.
Definition under_out (p : path) (s : vst) (o : vout) : Prop :=
  match o with VDone _ t | VThrow t => under p s t | _ => True end.

Lemma under_same : forall p s t, vs_rej t = vs_rej s -> under p s t.
Proof. intros p s t H. exists []. rewrite app_nil_r. split; [exact H|constructor]. Qed.
Lemma under_trans : forall p s t u, under p s t -> under p t u -> under p s u.
Proof.
  intros p s t u (a & A & FA) (b & B & FB). exists (a ++ b). rewrite B, A, app_assoc. split; [reflexivity|]. apply Forall_app. auto.
Qed.
Lemma under_up : forall x p s t, under (x :: p) s t -> under p s t.
Proof.
  intros x p s t (l & E & F). exists l. split; [exact E|]. apply Forall_impl with (2 := F). intros a (q & Q). exists (q ++ [x]).
  rewrite <- app_assoc. exact Q.
Qed.
Lemma under_out_up : forall x p s o, under_out (x :: p) s o -> under_out p s o.
Proof. intros x p s o H. destruct o; cbn in *; eauto using under_up. Qed.
Lemma under_add : forall V q p r s t, under p s t -> under p s (add_rejection V (q ++ p) r t).
Proof.
  intros V q p r s t H. apply (under_trans _ _ _ _ H). unfold add_rejection. set (r' := if is_undef r then _ else _).
  destruct (veq _ _ _); [apply under_same; reflexivity|]. destruct (existsb _ _); [apply under_same; reflexivity|].
  exists [(q ++ p, r')]. split; [reflexivity|]. constructor; [exists q; reflexivity|constructor].
Qed.
Lemma under_bind : forall p s o k, under_out p s o -> (forall b t, under_out p t (k b t)) -> under_out p s (vbind o k).
Proof.
  intros p s o k H K. destruct o as [b t|t| |]; cbn in *; auto. specialize (K b t).
  destruct (k b t); cbn in *; auto; exact (under_trans _ _ _ _ H K).
Qed.

Section Under.
Variables (V : venv) (ev : path -> member -> value -> vst -> vout).
Hypothesis EV : forall p m r s, under_out p s (ev p m r s).

Ltac done := apply under_same; reflexivity.

Lemma under_close : forall p r s o, under_out p s o -> under_out p s (close_rule V p r (length (vs_rej s)) o).
Proof.
  intros p r s o H. destruct o as [b t|t| |]; cbn in *; auto. destruct b; cbn.
  - destruct H as (l & B & _). apply under_same. cbn. rewrite B, firstn_app, Nat.sub_diag, firstn_all, firstn_O, app_nil_r. reflexivity.
  - apply (under_add V [] p r s t H).
Qed.
Lemma under_alternatives : forall rules p m s, under_out p s (alternatives ev p m rules s).
Proof.
  induction rules as [|r rules IH]; intros p m s; cbn [alternatives]; [done|].
  apply under_bind; [apply EV|]. intros b t. destruct b; [done|apply IH].
Qed.
Lemma under_range : forall n rules p m s, (length rules <= n)%nat -> under_out p s (range_def V ev p m rules s).
Proof.
  induction n as [|n IH]; intros rules p m s N; destruct rules as [|r rules]; cbn [range_def]; try done; cbn [length] in N; [lia|].
  assert (O : under_out p s (vbind (ev p m (snd r) s) (fun b s => if b then range_def V ev p m rules s else VDone false s))).
  { apply under_bind; [apply EV|]. intros b t. destruct b; [apply IH; lia|done]. }
  destruct (snd r); try exact O. destruct (is_comment _); [apply IH; lia|].
  destruct (range_test _ _ _ _) as [[|]|]; [|done|exact O].
  destruct rules as [|q rules]; [done|]. apply IH. cbn [length] in N. lia.
Qed.
Lemma under_tuple : forall rules p v c i s, under_out p s (tuple_items ev p v rules c i s).
Proof.
  induction rules as [|r rules IH]; intros p v c i s; cbn [tuple_items]; destruct (c <=? i); try done; unfold sub_index.
  - apply (under_out_up _ _ _ _ (EV _ _ _ _)).
  - apply under_bind; [apply (under_out_up _ _ _ _ (EV _ _ _ _))|]. intros b t. destruct b; [apply IH|done].
Qed.
Lemma under_sub_alternatives : forall p x r i o s, under_out (pindex (u32 i) :: p) s (sub_alternatives V ev p x r i o s).
Proof. intros. apply under_close, under_alternatives. Qed.
Lemma under_rest : forall items p r i o s, under_out p s (rest_items V ev p items r i o s).
Proof.
  induction items as [|x items IH]; intros p r i o s; cbn [rest_items]; [done|].
  apply under_bind; [apply (under_out_up _ _ _ _ (under_sub_alternatives _ _ _ _ _ _))|]. intros b t. destruct b; [apply IH|done].
Qed.
Lemma under_token : forall p m t a s, under_out p s (eval_token V ev p m t a s).
Proof.
  intros p m t a s. unfold eval_token.
  repeat match goal with |- under_out _ _ (if ?b then _ else _) => destruct b end; try done; try (apply under_alternatives).
  - destruct (to_string _ _ _); [apply under_alternatives|done].
  - unfold op_prefix. destruct (snd (get_var _ _ _ _)); try (destruct (split_value _ _) as [x y]);
      (match goal with |- context [if negb ?b then _ else _] => destruct b end; cbn [negb]; [|done]);
      (destruct (defined _); [apply under_alternatives|done]).
  - unfold op_suffix. destruct (snd (get_var _ _ _ _)); try (destruct (split_value _ _) as [x y]);
      try match goal with |- context [if (length ?x <? ?y)%nat then _ else _] => destruct (length x <? y)%nat; [done|] end;
      (match goal with |- context [if negb ?b then _ else _] => destruct b end; cbn [negb]; [|done]);
      (match goal with |- context [if ?b then _ else _] => destruct b end; [apply under_alternatives|done]).
  - unfold op_split. destruct (split_value _ _) as [x y]. apply under_bind; [apply EV|]. intros b t'. destruct b; [apply EV|done].
  - unfold op_explode. apply EV.
  - apply (under_range (length a)), le_n.
  - apply (under_range (length (skipn 1 a))), le_n.
  - destruct (to_string _ _ _); done.
  - apply under_bind; [apply under_alternatives|]. intros b t'. done.
  - unfold op_setvar. set (b := match get_string _ with [] => _ | _ => _ end). destruct b; [|done].
    set (s' := push_var _ _ _). pose proof (under_alternatives (skipn 2 a) p m s') as K.
    destruct (alternatives ev p m (skipn 2 a) s') as [b u|u| |]; cbn in *; auto.
  - unfold op_usevar. destruct (defined _); [apply under_alternatives|done].
  - unfold op_emit. apply under_bind; [apply EV|]. intros b t'. destruct b; done.
Qed.
Lemma under_array : forall p m r c s, under_out p s (eval_array V ev p m r c s).
Proof.
  intros p m r c s. unfold eval_array. destruct (snd m); try done. apply under_bind; [apply under_tuple|].
  intros b t. destruct b; [apply under_rest|done].
Qed.
Lemma under_params : forall p m a s, under_out p s (eval_params V ev p m a s).
Proof.
  intros p m a s. unfold eval_params. destruct a as [|[k v] a]; [done|].
  destruct v; try apply under_alternatives; [apply under_token|]. destruct l as [|[k' w] l]; [apply under_array|].
  destruct w; try apply under_alternatives. destruct l; [apply under_array|apply under_alternatives].
Qed.
Lemma under_reject : forall p k r o c s, under_out (pkey k :: p) s o -> (forall t, under_out p t (c t)) -> under_out p s (reject_sub V p k r o c).
Proof.
  intros p k r o c s H C. apply under_bind; [exact (under_out_up _ _ _ _ H)|]. intros b t. destruct b; [apply C|].
  apply (under_add V [pkey k] p r t t). done.
Qed.
Lemma under_extra : forall ss p w s, under_out p s (extra_members V ev p w ss s).
Proof. induction ss as [|x ss IH]; intros p w s; cbn [extra_members]; [done|]. apply under_reject; [apply EV|]. intros t. apply IH. Qed.
Lemma under_missing : forall ts p s, under_out p s (missing_members V ev p ts s).
Proof. induction ts as [|x ts IH]; intros p s; cbn [missing_members]; [done|]. apply under_reject; [apply EV|]. intros t. apply IH. Qed.
Lemma under_template : forall ss ts p w s, under_out p s (template_loop V ev p w ss ts s).
Proof.
  induction ss as [|x ss IHs]; [|induction ts as [|t ts IHt]]; intros.
  - destruct ts; apply under_missing.
  - apply under_extra.
  - cbn. destruct (parse_key (fst t)) as [tk spec].
    destruct (kcmp (fst x) tk); (destruct spec; [first [apply IHs | apply IHt]|]);
      (apply under_reject; [apply EV|intros u; first [apply IHs | apply IHt]]).
Qed.
Lemma under_step : forall p m r s, under_out p s (rule_step V ev p m r s).
Proof.
  intros p m r s. unfold rule_step. destruct r; try (apply under_close); try done.
  - unfold eval_simple. destruct (simple_rule _ _ _); [done|done|exact I|].
    unfold check_class. destruct (negb _); [done|]. destruct (beqb _ _); [done|apply EV].
  - apply under_params.
  - unfold eval_object. destruct (snd m); try done. apply under_template.
Qed.
End Under.
Lemma under_eval : forall V f p m r s, under_out p s (eval_rule V f p m r s).
Proof. induction f as [|f IH]; intros p m r s; [exact I|]. cbn [eval_rule]. apply under_step. exact IH. Qed.

(** *** The verdict *)
Lemma item_at_index : forall v i, 0 <= i -> vitem v (Z.to_nat (Z.min i (Z.of_nat (vsize v)))) = item (members_of v) (Z.to_nat i).
Proof.
  intros v i I. unfold vitem, item, vsize. destruct (Z_lt_le_dec i (Z.of_nat (length (members_of v)))).
  - rewrite Z.min_l by lia. reflexivity.
  - rewrite Z.min_r by lia. rewrite Nat2Z.id, !nth_overflow; [reflexivity|lia|lia].
Qed.

(** What the first loop leaves: it has accepted everything, or the first rule
    that rejects stopped it. *)
Lemma tuple_run : forall V g l rules i s b t, vs_vars s = [] -> vs_rej s = [] ->
  tuple_items (eval_rule V g) [] (VArr l) rules (Z.of_nat (i + length rules)) (Z.of_nat i) s = VDone b t ->
  vs_vars t = [] /\
  if b then vs_rej t = [] /\ forall k, (k < length rules)%nat -> verdict V [] g (item l (i + k)) (snd (item rules k)) true
  else exists k, (k < length rules)%nat /\ (forall j, (j < k)%nat -> verdict V [] g (item l (i + j)) (snd (item rules j)) true) /\
    verdict V [] g (item l (i + k)) (snd (item rules k)) false /\
    Forall (fun x => exists q, fst x = q ++ [pindex (u32 (Z.of_nat (i + k)))]) (vs_rej t).
Proof.
  intros V g l. induction rules as [|r rules IH]; intros i s b t Hv Hr H; cbn [tuple_items length] in H.
  - replace (Z.of_nat (i + 0) <=? Z.of_nat i) with true in H by lia. injection H as <- <-. split; [exact Hv|]. split; [exact Hr|]. intros k K. cbn in K. lia.
  - replace (Z.of_nat (i + S (length rules)) <=? Z.of_nat i) with false in H by lia.
    rewrite item_at_index in H by lia. rewrite Nat2Z.id in H. cbn [members_of] in H. unfold sub_index in H.
    set (p := [pindex (u32 (Z.of_nat i))]) in *.
    pose proof (eval_kept V g p (item l i) (snd r) s) as Kp. pose proof (eval_clean V g p (item l i) (snd r) s) as Cl.
    pose proof (under_eval V g p (item l i) (snd r) s) as Un.
    destruct (eval_rule V g p (item l i) (snd r) s) as [c u|u| |] eqn:E; try discriminate. cbn [vbind] in H.
    pose proof (verdict_one V [] g _ _ _ _ _ _ Hv E) as Vd. destruct Kp as (Kv & _). rewrite Hv in Kv. destruct c.
    + cbn in Cl. rewrite Hr in Cl.
      replace (Z.of_nat (i + S (length rules))) with (Z.of_nat (S i + length rules)) in H by lia.
      replace (Z.of_nat i + 1) with (Z.of_nat (S i)) in H by lia.
      destruct (IH _ _ _ _ Kv Cl H) as (A & B). split; [exact A|]. destruct b.
      * destruct B as (B1 & B2). split; [exact B1|]. intros [|k] K; [rewrite Nat.add_0_r; exact Vd|]. replace (i + S k)%nat with (S i + k)%nat by lia.
        apply B2. cbn in K. lia.
      * destruct B as (k & K & Bj & Bk & F). exists (S k). split; [cbn; lia|]. split; [|split].
        -- intros [|j] J; [rewrite Nat.add_0_r; exact Vd|]. replace (i + S j)%nat with (S i + j)%nat by lia. apply Bj. lia.
        -- replace (i + S k)%nat with (S i + k)%nat by lia. exact Bk.
        -- replace (i + S k)%nat with (S i + k)%nat by lia. exact F.
    + injection H as <- <-. split; [exact Kv|]. exists O. split; [cbn; lia|]. split; [intros j J; lia|]. rewrite Nat.add_0_r. split; [exact Vd|].
      destruct Un as (ls & Els & F). rewrite Hr in Els. cbn in Els. rewrite Els. exact F.
Qed.

Lemma rest_none : forall V g items rules i s b t, vs_rej s = [] ->
  rest_items V (eval_rule V g) [] items (VArr rules) i (length rules) s = VDone b t ->
  (b = true <-> items = []) /\ (b = false -> Forall (fun x => exists q, fst x = q ++ [pindex (u32 i)]) (vs_rej t)).
Proof.
  intros V g items rules i s b t Hr H. destruct items as [|x items]; cbn [rest_items] in H.
  - injection H as <- <-. split; [split; auto|discriminate].
  - pose proof (under_sub_alternatives V (eval_rule V g) (under_eval V g) [] x (VArr rules) i (length rules) s) as Un.
    unfold sub_alternatives in *. cbn [members_of] in *. rewrite skipn_all in H, Un.
    cbn [alternatives close_rule vbind] in H, Un. cbn [vbind] in H. injection H as <- <-. split; [split; discriminate|]. intros _.
    destruct Un as (ls & Els & F). rewrite Hr in Els. cbn in Els. rewrite Els. exact F.
Qed.

Lemma check_run : forall V g l rules b t, check_args V g (VArr l) (VArr rules) = VDone b t ->
  if b then (length l <= length rules)%nat /\ (forall k, (k < length rules)%nat -> verdict V [] g (item l k) (snd (item rules k)) true)
  else exists k, (forall j, (j < k)%nat -> (j < length rules)%nat -> verdict V [] g (item l j) (snd (item rules j)) true) /\
    ((k < length rules)%nat /\ verdict V [] g (item l k) (snd (item rules k)) false \/ k = length rules /\ (length rules < length l)%nat) /\
    Forall (fun x => exists q, fst x = q ++ [pindex (u32 (Z.of_nat k))]) (vs_rej t).
Proof.
  intros V g l rules b t H. unfold check_args, check_tuple in H. cbn [arg_rules] in H.
  destruct (tuple_items _ _ _ _ _ _ _) as [c u|u| |] eqn:E; try discriminate. cbn [vbind] in H.
  destruct (tuple_run V g l rules 0 v_init c u eq_refl eq_refl E) as (Kv & B). cbn [Nat.add] in B. destruct c.
  - destruct B as (B1 & B2). destruct (rest_none V g _ _ _ _ _ _ B1 H) as (R1 & R2).
    assert (Le : skipn (length rules) l = [] <-> (length l <= length rules)%nat).
    { rewrite <- length_zero_iff_nil, skipn_length. lia. }
    destruct b.
    + split; [apply Le, R1; reflexivity|exact B2].
    + exists (length rules). split; [intros j _ J; exact (B2 j J)|]. split; [|exact (R2 eq_refl)]. right. split; [reflexivity|].
      destruct (Nat.le_gt_cases (length l) (length rules)) as [L|L]; [|exact L]. apply Le, R1 in L. discriminate.
  - injection H as <- <-. destruct B as (k & K & Bj & Bk & F). exists k. split; [intros j J _; exact (Bj j J)|]. split; [left; auto|exact F].
Qed.

Lemma not_array : forall V g params rules, (forall l, params <> VArr l) -> check_args V g params rules = VDone false v_init.
Proof. intros V g params rules H. unfold check_args, check_tuple. destruct params; try reflexivity. destruct (H l eq_refl). Qed.

(** The other way: verdicts of the rules give a verdict of the check. *)
Lemma tuple_goes : forall V g l rules i s, vs_vars s = [] ->
  (forall k, (k < length rules)%nat -> verdict V [] g (item l (i + k)) (snd (item rules k)) true) ->
  exists t, tuple_items (eval_rule V g) [] (VArr l) rules (Z.of_nat (i + length rules)) (Z.of_nat i) s = VDone true t.
Proof.
  intros V g l rules i s Hv H. pose proof (tuple_true V [] g rules [] (VArr l) (Z.of_nat (i + length rules)) (Z.of_nat i) s Hv ltac:(lia)) as T.
  apply T. intros k K. rewrite Nat2Z.id. apply H. lia.
Qed.
Lemma tuple_stops : forall V g l rules i s k, vs_vars s = [] -> (k < length rules)%nat ->
  (forall j, (j < k)%nat -> verdict V [] g (item l (i + j)) (snd (item rules j)) true) ->
  verdict V [] g (item l (i + k)) (snd (item rules k)) false ->
  exists t, tuple_items (eval_rule V g) [] (VArr l) rules (Z.of_nat (i + length rules)) (Z.of_nat i) s = VDone false t.
Proof.
  intros V g l. induction rules as [|r rules IH]; intros i s k Hv K Hj Hk; cbn [length] in K; [lia|]. cbn [tuple_items length].
  replace (Z.of_nat (i + S (length rules)) <=? Z.of_nat i) with false by lia.
  rewrite item_at_index by lia. rewrite Nat2Z.id. cbn [members_of]. unfold sub_index.
  destruct k as [|k].
  - rewrite Nat.add_0_r in Hk. destruct (Hk [pindex (u32 (Z.of_nat i))] s Hv) as (u & E). cbn [item nth] in E.
    rewrite E. exists u. reflexivity.
  - pose proof (Hj O ltac:(lia)) as H0. rewrite Nat.add_0_r in H0. destruct (H0 [pindex (u32 (Z.of_nat i))] s Hv) as (u & E). cbn [item nth] in E.
    pose proof (eval_kept V g [pindex (u32 (Z.of_nat i))] (item l i) (snd r) s) as Kp. change (snd (nth 0 (r :: rules) ([], VUndef))) with (snd r) in E.
    rewrite E in Kp |- *. cbn [vbind].
    replace (Z.of_nat (i + S (length rules))) with (Z.of_nat (S i + length rules)) by lia.
    replace (Z.of_nat i + 1) with (Z.of_nat (S i)) by lia.
    apply (IH (S i) u k); [destruct Kp; congruence|lia| |].
    + intros j J. replace (S i + j)%nat with (i + S j)%nat by lia. apply (Hj (S j)). lia.
    + replace (S i + k)%nat with (i + S k)%nat by lia. exact Hk.
Qed.

Lemma fits_bound : forall V l rules n, (n <= length rules)%nat -> (forall i, (i < n)%nat -> fits V l rules i) ->
  exists f, forall g, (f <= g)%nat -> forall i, (i < n)%nat -> verdict V [] g (item l i) (snd (item rules i)) true.
Proof.
  intros V l rules n Ln H.
  destruct (eventually_Forall (fun g i => verdict V [] g (item l i) (snd (item rules i)) true) (seq 0 n)) as (f & F).
  - apply Forall_forall. intros i I. apply in_seq in I. apply ends_all. apply H. lia.
  - exists f. intros g L i I. specialize (F g L). rewrite Forall_forall in F. apply F. apply in_seq. lia.
Qed.

Lemma accepted_args : forall V params rules,
  (exists fuel t, check_args V fuel params (VArr rules) = VDone true t) <-> args_fit V params rules.
Proof.
  intros V params rules. split.
  - intros (g & t & H). assert (A : exists l, params = VArr l) by (destruct params; try discriminate H; eexists; reflexivity).
    destruct A as (l & ->). apply check_run in H as (L & H). exists l. split; [reflexivity|]. split; [exact L|]. intros i I. apply ends_verdict. exists g. auto.
  - intros (l & -> & L & H). destruct (fits_bound V l rules (length rules) (le_n _) H) as (g & Hg). specialize (Hg g (le_n g)).
    exists g. unfold check_args, check_tuple. cbn [arg_rules]. destruct (tuple_goes V g l rules 0 v_init eq_refl Hg) as (t & T). cbn [Nat.add] in T.
    change (Z.of_nat 0) with 0 in T. rewrite T. cbn [vbind]. rewrite skipn_all2 by exact L. exists t. reflexivity.
Qed.
Lemma refused_args : forall V params rules,
  (exists fuel t, check_args V fuel params (VArr rules) = VDone false t) <->
  (forall l, params <> VArr l) \/ exists l i, params = VArr l /\ first_wrong V l rules i.
Proof.
  intros V params rules. split.
  - intros (g & t & H). destruct params as [| | | | |l|]; try (left; intros ?; discriminate). right. apply check_run in H as (k & Hj & Hk & _).
    exists l, k. split; [reflexivity|]. split.
    + intros j J J'. apply ends_verdict. exists g. auto.
    + destruct Hk as [(K & Hk)|Hk]; [left; split; [exact K|apply ends_verdict; exists g; exact Hk]|right; exact Hk].
  - intros [H|(l & i & -> & Hj & [(I & Hi)|(-> & Hl)])].
    + exists O, v_init. apply not_array. exact H.
    + destruct (fits_bound V l rules i ltac:(lia) ltac:(intros j J; apply Hj; lia)) as (f1 & H1).
      apply ends_all in Hi as (f2 & H2). set (g := Nat.max f1 f2). specialize (H1 g ltac:(lia)). specialize (H2 g ltac:(lia)).
      destruct (tuple_stops V g l rules 0 v_init i eq_refl I H1 H2) as (t & T). exists g, t. unfold check_args, check_tuple. cbn [arg_rules Nat.add] in *.
      change (Z.of_nat 0) with 0 in T. rewrite T. reflexivity.
    + destruct (fits_bound V l rules (length rules) (le_n _) ltac:(intros j J; apply Hj; lia)) as (g & Hg). specialize (Hg g (le_n g)).
      destruct (tuple_goes V g l rules 0 v_init eq_refl Hg) as (t & T). exists g. unfold check_args, check_tuple. cbn [arg_rules Nat.add] in *.
      change (Z.of_nat 0) with 0 in T. rewrite T. cbn [vbind].
      destruct (skipn (length rules) l) as [|x items] eqn:E; [apply (f_equal (@length _)) in E; rewrite skipn_length in E; cbn in E; lia|].
      cbn [rest_items]. unfold sub_alternatives. cbn [members_of]. rewrite skipn_all. cbn. eexists. reflexivity.
Qed.
Lemma check_one : forall V f g params pattern b c t u, check_args V f params pattern = VDone b t -> check_args V g params pattern = VDone c u -> b = c.
Proof.
  intros V f g params pattern b c t u A B.
  assert (W : forall b t f, check_args V f params pattern = VDone b t -> check_args V f params (VArr (arg_rules pattern)) = VDone b t) by (intros; destruct pattern; assumption).
  apply W in A, B. set (rules := arg_rules pattern) in *.
  assert (X : forall f g t u, check_args V f params (VArr rules) = VDone true t -> check_args V g params (VArr rules) = VDone false u -> False).
  { clear. intros f g t u A B.
    assert (P : exists l, params = VArr l) by (destruct params; try discriminate A; eexists; reflexivity). destruct P as (l & ->).
    apply check_run in A as (L & A). apply check_run in B as (k & _ & [(K & Bk)|(_ & Bk)] & _); [|lia].
    pose proof (verdict_eq _ _ _ _ _ _ _ _ (A k K) Bk). discriminate. }
  destruct b, c; try reflexivity; exfalso; eauto.
Qed.

(** *** The list of rejections *)
Lemma path_items_app : forall p q, path_items (p ++ q) = path_items q ++ path_items p.
Proof.
  induction p as [|x p IH]; intros q; cbn [app path_items]; [rewrite app_nil_r; reflexivity|]. rewrite IH, app_assoc. reflexivity.
Qed.
Lemma path_starts : forall q i, 0 <= i < 2 ^ 32 -> exists rest, path_to_value (q ++ [pindex i]) = VArr (([], VNum (NUInt i)) :: rest).
Proof.
  intros q i I. unfold path_to_value. rewrite arr_new_commit, path_items_app. cbn [path_items app]. unfold is_index. cbn [pindex pe_index].
  assert (N : i =? no_index = false) by (unfold no_index; lia). rewrite N. cbn [negb]. unfold defined_only. cbn [filter snd is_undef negb].
  eexists. reflexivity.
Qed.
Lemma refused_where : forall V fuel l rules t, Z.of_nat (length rules) < 2 ^ 32 -> check_args V fuel (VArr l) (VArr rules) = VDone false t ->
  exists i, first_wrong V l rules i /\
    forall x, In x (members_of (get_rejections t)) -> exists rest rule,
      snd x = VArr [([], VArr (([], VNum (NUInt (Z.of_nat i))) :: rest)); ([], rule)].
Proof.
  intros V g l rules t N H. apply check_run in H as (k & Hj & Hk & F). exists k.
  assert (B : Z.of_nat k < 2 ^ 32) by (destruct Hk as [(K & _)|(K & _)]; lia). split.
  - split; [intros j J J'; apply ends_verdict; exists g; auto|].
    destruct Hk as [(K & Hk)|Hk]; [left; split; [exact K|apply ends_verdict; exists g; exact Hk]|right; exact Hk].
  - intros x I. unfold get_rejections in I. cbn [members_of] in I. apply in_map_iff in I as (y & <- & I).
    rewrite Forall_forall in F. destruct (F y I) as (q & Q). rewrite Q. unfold u32. rewrite Z.mod_small by lia.
    destruct (path_starts q (Z.of_nat k) ltac:(lia)) as (rest & ->). exists rest, (snd y). reflexivity.
Qed.
Lemma refused_first : forall V fuel l k e w rules t, simple_rule V (snd (item l 0)) w = SVerdict false ->
  check_args V fuel (VArr l) (VArr ((k, VStr e w) :: rules)) = VDone false t ->
  get_rejections t = VArr [([], VArr [([], VArr [([], VNum (NUInt 0))]); ([], VStr e w)])].
Proof.
  intros V g l k e w rules t Hs H. unfold check_args, check_tuple in H. cbn [arg_rules length] in H.
  cbn [tuple_items] in H. replace (Z.of_nat (S (length rules)) <=? 0) with false in H by lia.
  rewrite item_at_index in H by lia. cbn [members_of] in H. change (Z.to_nat 0) with 0%nat in H. unfold sub_index in H.
  destruct g as [|g]; cbn [eval_rule] in H; [discriminate|].
  unfold rule_step at 1 in H. unfold eval_simple at 1 in H. cbn [snd] in H. rewrite Hs in H.
  assert (St : exists u, close_rule V [pindex (u32 0)] (VStr e w) (length (vs_rej v_init)) (VDone false v_init) = VDone false u /\
     vs_rej u = [([pindex 0], VStr e w)]).
  { unfold close_rule. cbn [vbind]. unfold add_rejection. cbn [is_undef v_init vs_last vs_rej members_of existsb app].
    assert (Q : veq (v_L V) (VStr e w) VUndef = false) by reflexivity. rewrite Q. eexists. split; reflexivity. }
  destruct St as (u & Eu & Er). rewrite Eu in H. cbn [vbind] in H. injection H as <-.
  unfold get_rejections. rewrite Er. reflexivity.
Qed.

(** *** Servers *)
Lemma guard_ok : forall V fuel pattern what b body r t, check_args V fuel (rq_params r) pattern = VDone true t ->
  guarded V fuel pattern what b body r = body r.
Proof. intros V fuel pattern what b body r t H. unfold guarded. rewrite H. reflexivity. Qed.

Lemma guard_server : forall sv p ph pi r flags V fuel pattern what b body t, valid_request r -> has_id r = true ->
  reg_find (sv_reg sv) (get_string (rq_method r)) = Some (guarded V fuel pattern what b body) ->
  check_args V fuel (rq_params (rs_req (create ByFunction r flags))) pattern = VDone false t ->
  forall e, sv_format sv (-32602) (txt "Invalid params") (get_rejections t) = Some e ->
  exists s, exec sv p ph pi (create ByFunction r flags) = Some s /\ rs_sent s = true /\
    rs_log s = exchanges [(error_message (req_version r) (rq_id r) e, Accepts b)].
Proof.
  intros sv p ph pi r flags V fuel pattern what b body t Hv Hi Hm Hc e He.
  assert (Hl : guarded V fuel pattern what b body (rs_req (create ByFunction r flags)) = ([set_arg_error t [] (Accepts b)], Returns tt)).
  { unfold guarded. rewrite Hc. reflexivity. }
  eexists. split; [exact (exec_method sv p ph pi ByFunction r flags _ _ Hv Hm Hl)|].
  rewrite rrun_cons. cbn [rrun fold_left].
  destruct (plain_error (fst (rstep (create ByFunction r flags) (RInit (sv_format sv)))) (sv_format sv) (-32602) (txt "Invalid params") (get_rejections t) e b
    eq_refl Hi eq_refl eq_refl He) as (_ & A & B).
  split; [exact B|exact A].
Qed.
Lemma guard_throws : forall sv p pi r flags V fuel pattern what b b' body t e, valid_request r -> has_id r = true ->
  reg_find (sv_reg sv) (get_string (rq_method r)) = Some (guarded V fuel pattern what b body) -> sv_handler sv = None ->
  check_args V fuel (rq_params (rs_req (create ByFunction r flags))) pattern = VThrow t ->
  sv_format sv (-32603)%Z (txt "Internal error") (match what with Some w => VStr None w | None => VUndef end) = Some e ->
  exists s, exec sv p ([], Accepts b') pi (create ByFunction r flags) = Some s /\ rs_sent s = true /\
    rs_log s = exchanges [(error_message (req_version r) (rq_id r) e, Accepts b')].
Proof.
  intros sv p pi r flags V fuel pattern what b b' body t e Hv Hi Hm Hh Hc He.
  assert (Hl : guarded V fuel pattern what b body (rs_req (create ByFunction r flags)) = ([], Raises what)).
  { unfold guarded. rewrite Hc. reflexivity. }
  destruct (exec_raises sv p pi r flags _ _ _ e b' Hv Hi Hm Hh Hl eq_refl He) as (s & A & B). exists s. split; [exact A|].
  cbn [rrun fold_left fst rstep set_svc create rs_sent rs_log] in B. destruct B as (B1 & B2). split; [exact B1|]. rewrite B2. reflexivity.
Qed.

Lemma plain_answer : forall sv p ph pi r flags m v b, valid_request r -> has_id r = true ->
  reg_find (sv_reg sv) (get_string (rq_method r)) = Some m ->
  m (rs_req (create ByFunction r flags)) = ([RResult v VUndef [] (Accepts b)], Returns tt) ->
  exists s, exec sv p ph pi (create ByFunction r flags) = Some s /\ rs_sent s = true /\
    rs_log s = exchanges [(result_message (req_version r) (rq_id r) v VUndef, Accepts b)].
Proof.
  intros sv p ph pi r flags m v b Hv Hi Hm Hl. eexists. split; [exact (exec_method sv p ph pi ByFunction r flags _ _ Hv Hm Hl)|].
  unfold rrun. cbn [fold_left fst rstep]. unfold send_result. cbn [set_svc create rs_kind rs_req rs_sent].
  assert (Hi' : has_id (mkReq (rq_method r) (wrap_params flags (rq_params r)) (rq_id r) (rq_context r) (rq_version r)) = true) by exact Hi.
  rewrite Hi'. split; reflexivity.
Qed.
Lemma ping_server : forall sv p ph pi r flags b, valid_request r -> has_id r = true ->
  reg_find (sv_reg sv) (get_string (rq_method r)) = Some (ping_method b) ->
  exists s, exec sv p ph pi (create ByFunction r flags) = Some s /\ rs_sent s = true /\
    rs_log s = exchanges [(result_message (req_version r) (rq_id r) (wrap_params flags (rq_params r)) VUndef, Accepts b)].
Proof. intros sv p ph pi r flags b Hv Hi Hm. exact (plain_answer sv p ph pi r flags _ _ b Hv Hi Hm eq_refl). Qed.
Lemma help_server : forall sv p ph pi r flags help b, valid_request r -> has_id r = true ->
  reg_find (sv_reg sv) (get_string (rq_method r)) = Some (help_method help b) ->
  exists s, exec sv p ph pi (create ByFunction r flags) = Some s /\ rs_sent s = true /\
    rs_log s = exchanges [(result_message (req_version r) (rq_id r)
      (value_member help (get_string (snd (item (members_of (wrap_params flags (rq_params r))) 0)))) VUndef, Accepts b)].
Proof. intros sv p ph pi r flags help b Hv Hi Hm. exact (plain_answer sv p ph pi r flags _ _ b Hv Hi Hm eq_refl). Qed.
Lemma guard_accepts : forall sv p ph pi r flags V fuel pattern what b body t l, valid_request r ->
  reg_find (sv_reg sv) (get_string (rq_method r)) = Some (guarded V fuel pattern what b body) ->
  check_args V fuel (wrap_params flags (rq_params r)) pattern = VDone true t ->
  body (rs_req (create ByFunction r flags)) = (l, Returns tt) ->
  exec sv p ph pi (create ByFunction r flags) = Some (rrun (create ByFunction r flags) (RInit (sv_format sv) :: l)).
Proof.
  intros sv p ph pi r flags V fuel pattern what b body t l Hv Hm Hc Hl. apply (exec_method sv p ph pi ByFunction r flags _ _ Hv Hm).
  rewrite (guard_ok V fuel pattern what b body _ t); [exact Hl|exact Hc].
Qed.
Lemma named_refused : forall V fuel params pattern b t, (forall l, params <> VArr l) ->
  check_args V fuel params pattern = VDone b t -> b = false /\ get_rejections t = VArr [].
Proof. intros V fuel params pattern b t N H. rewrite (not_array V fuel params pattern N) in H. injection H as <- <-. split; reflexivity. Qed.
Lemma ping_reply : forall sv p ph pi r flags b, valid_request r -> has_id r = true ->
  reg_find (sv_reg sv) (get_string (rq_method r)) = Some (ping_method b) ->
  exists s, exec sv p ph pi (create ByFunction r flags) = Some s /\ rs_sent s = true /\
    rs_log s = exchanges [(result_message (req_version r) (rq_id r) (wrap_params flags (rq_params r)) VUndef, Accepts b)] /\
    response_result (result_message (req_version r) (rq_id r) (wrap_params flags (rq_params r)) VUndef) =
      Some (mkRR (wrap_params flags (rq_params r)) false VUndef).
Proof.
  intros sv p ph pi r flags b Hv Hi Hm. destruct (ping_server sv p ph pi r flags b Hv Hi Hm) as (s & A & B & C). exists s.
  split; [exact A|]. split; [exact B|]. split; [exact C|]. rewrite result_reply.
  assert (N : is_undef (wrap_params flags (rq_params r)) = false).
  { unfold wrap_params. destruct (rq_params r); try reflexivity. destruct (has_flag _ _); reflexivity. }
  rewrite N. reflexivity.
Qed.
Lemma help_reply : forall sv p ph pi r flags help b v, valid_request r -> has_id r = true ->
  reg_find (sv_reg sv) (get_string (rq_method r)) = Some (help_method help b) ->
  value_member help (get_string (snd (item (members_of (wrap_params flags (rq_params r))) 0))) = v ->
  exists s m, exec sv p ph pi (create ByFunction r flags) = Some s /\ rs_sent s = true /\ rs_log s = exchanges [(m, Accepts b)] /\
    value_member m k_id = rq_id r /\
    (v <> VUndef -> response_result m = Some (mkRR v false VUndef)) /\
    (v = VUndef -> response_result m = match req_version r with Ver1 => Some (mkRR VNull true VUndef) | Ver2 => None end).
Proof.
  intros sv p ph pi r flags help b v Hv Hi Hm <-. destruct (help_server sv p ph pi r flags help b Hv Hi Hm) as (s & A & B & C). exists s. eexists.
  split; [exact A|]. split; [exact B|]. split; [exact C|]. split; [apply result_member_id|]. rewrite result_reply.
  set (v := value_member _ _). split; intros H.
  - destruct v; try reflexivity. destruct (H eq_refl).
  - rewrite H. reflexivity.
Qed.
Lemma bare_args : forall V params,
  ((exists fuel t, check_args V fuel params VUndef = VDone true t) <-> params = VArr []) /\
  forall pattern, pattern <> VUndef -> (forall l, pattern <> VArr l) ->
    ((exists fuel t, check_args V fuel params pattern = VDone true t) <-> args_fit V params [([], pattern)]).
Proof.
  intros V params. split.
  - split.
    + intros (fuel & t & H). destruct (proj1 (accepted_args V params [])) as (l & -> & L & _); [exists fuel, t; exact H|].
      destruct l; [reflexivity|cbn in L; lia].
    + intros ->. exists 0%nat, v_init. reflexivity.
  - intros pattern U A. rewrite <- (accepted_args V params [([], pattern)]). split; intros (fuel & t & H); exists fuel, t; destruct pattern; try exact H; try congruence; exfalso; eapply A; reflexivity.
Qed.
