(** Sound definitions: every evaluation ends. *)
From Coq Require Import String Ascii Lia ZifyBool.
From Verif Require Import Base ModelKeyed SpecKeyed ProofKeyed ModelValue ModelText ModelObject ModelArray ModelEq ModelBin
  ModelUtf8 ModelEnc ModelJwt ModelString ModelPath ModelRpc ModelNumView ModelDate ModelValidator SpecValidator ProofValidator ProofValidator2
  ProofValidator3 ProofValidator4 SpecTerm.
Local Open Scope Z_scope.
Local Open Scope list_scope.

(** *** Computations that end with the same verdict whatever the bookkeeping *)
Definition runs (vars : list member) (o : nat -> path -> vst -> vout) : Prop :=
  exists f b, forall g p s, (f <= g)%nat -> vs_vars s = vars -> exists t, o g p s = VDone b t /\ vs_vars t = vars.

Section Runs.
Variables (V : venv) (vars : list member).
Notation EV := (eval_rule V).

Lemma runs_done : forall b, runs vars (fun _ _ s => VDone b s).
Proof. intros b. exists O, b. intros g p s _ E. exists s. auto. Qed.
Lemma runs_state : forall b (h : path -> vst -> vst), (forall p s, vs_vars (h p s) = vs_vars s) -> runs vars (fun _ p s => VDone b (h p s)).
Proof. intros b h H. exists O, b. intros g p s _ E. exists (h p s). rewrite H. auto. Qed.
Lemma runs_path : forall o (h : path -> path), runs vars o -> runs vars (fun g p s => o g (h p) s).
Proof. intros o h (f & b & H). exists f, b. intros g p s L E. exact (H g (h p) s L E). Qed.
Lemma runs_ext : forall o o', (forall g p s, vs_vars s = vars -> o g p s = o' g p s) -> runs vars o' -> runs vars o.
Proof. intros o o' X (f & b & H). exists f, b. intros g p s L E. rewrite X by exact E. exact (H g p s L E). Qed.
Lemma runs_bind : forall o (k : bool -> nat -> path -> vst -> vout), runs vars o -> (forall b, runs vars (k b)) ->
  runs vars (fun g p s => vbind (o g p s) (fun b t => k b g p t)).
Proof.
  intros o k (f & b & H) K. destruct (K b) as (f' & b' & H'). exists (Nat.max f f'), b'. intros g p s L E.
  destruct (H g p s ltac:(lia) E) as (t & -> & E'). cbn [vbind]. exact (H' g p t ltac:(lia) E').
Qed.
Lemma runs_close : forall r (n : vst -> nat) o, runs vars o -> runs vars (fun g p s => close_rule V p r (n s) (o g p s)).
Proof.
  intros r n o (f & b & H). exists f, b. intros g p s L E. destruct (H g p s L E) as (t & -> & E').
  unfold close_rule. cbn [vbind]. destruct b; eexists; (split; [reflexivity|]); [exact E'|rewrite add_rejection_vars; exact E'].
Qed.
Lemma runs_rule : forall m r, decided V vars m r -> runs vars (fun g p s => EV g p m r s).
Proof.
  assert (G : forall m r b, ends V vars m r b -> runs vars (fun g p s => EV g p m r s)).
  { intros m r b H. apply ends_all in H as (f & H). exists f, b. intros g p s L E.
    destruct (H g L p s E) as (t & T). exists t. split; [exact T|]. pose proof (eval_kept V g p m r s) as K. rewrite T in K. destruct K; congruence. }
  intros m r [H|H]; exact (G _ _ _ H).
Qed.
Lemma decided_step : forall m r, runs vars (fun g p s => rule_step V (EV g) p m r s) -> decided V vars m r.
Proof.
  intros m r (f & b & H).
  assert (E : ends V vars m r b).
  { apply ends_step. exists f. intros g L p s E. destruct (H g p s L E) as (t & T & _). exists t. exact T. }
  destruct b; [left|right]; exact E.
Qed.

Lemma runs_alternatives : forall m rules, (forall x, In x rules -> decided V vars m (snd x)) ->
  runs vars (fun g p s => alternatives (EV g) p m rules s).
Proof.
  intros m. induction rules as [|r rules IH]; intros H; cbn [alternatives]; [apply runs_done|].
  apply (runs_bind _ (fun b g p t => if b then VDone true t else alternatives (EV g) p m rules t)).
  - apply runs_rule, H. left. reflexivity.
  - intros b. destruct b; [apply runs_done|]. apply IH. intros x X. apply H. right. exact X.
Qed.
Lemma runs_tuple : forall v rules c i, decided V vars (vitem v (Z.to_nat (Z.min (i + Z.of_nat (length rules)) (Z.of_nat (vsize v))))) VUndef ->
  (forall x j, In x rules -> decided V vars (vitem v j) (snd x)) ->
  runs vars (fun g p s => tuple_items (EV g) p v rules c i s).
Proof.
  intros v. induction rules as [|r rules IH]; intros c i U H; cbn [tuple_items]; destruct (c <=? i); try apply runs_done.
  - unfold sub_index. apply (runs_path (fun g p s => EV g p _ VUndef s)). apply runs_rule. cbn in U. rewrite Z.add_0_r in U. exact U.
  - unfold sub_index. apply (runs_bind (fun g p s => EV g (pindex (u32 i) :: p) _ (snd r) s)
      (fun b g p t => if b then tuple_items (EV g) p v rules c (i + 1) t else VDone false t)).
    + apply (runs_path (fun g p s => EV g p _ (snd r) s)). apply runs_rule. apply H. left. reflexivity.
    + intros b. destruct b; [|apply runs_done]. apply IH.
      * replace (i + 1 + Z.of_nat (length rules)) with (i + Z.of_nat (length (r :: rules))) by (cbn [length]; lia). exact U.
      * intros x j X. apply H. right. exact X.
Qed.
Lemma runs_rest : forall items r i o, (forall x y, In x items -> In y (skipn o (members_of r)) -> decided V vars x (snd y)) ->
  runs vars (fun g p s => rest_items V (EV g) p items r i o s).
Proof.
  induction items as [|x items IH]; intros r i o H; cbn [rest_items]; [apply runs_done|].
  apply (runs_bind (fun g p s => sub_alternatives V (EV g) p x r i o s)
    (fun b g p t => if b then rest_items V (EV g) p items r (i + 1) o t else VDone false t)).
  - unfold sub_alternatives.
    apply (runs_path (fun g p s => close_rule V p r (length (vs_rej s)) (alternatives (EV g) p x (skipn o (members_of r)) s))).
    apply (runs_close r (fun s => length (vs_rej s))). apply runs_alternatives. intros y Y. apply H; [left; reflexivity|exact Y].
  - intros b. destruct b; [|apply runs_done]. apply IH. intros y z Y Z. apply H; [right; exact Y|exact Z].
Qed.

Lemma runs_reject : forall k r o (c : nat -> path -> vst -> vout), runs vars o -> runs vars c ->
  runs vars (fun g p s => reject_sub V p k r (o g p s) (c g p)).
Proof.
  intros k r o c O C. unfold reject_sub.
  apply (runs_bind o (fun b g p t => if b then c g p t else VDone false (add_rejection V (pkey k :: p) r t))); [exact O|].
  intros b. destruct b; [exact C|]. apply (runs_state false (fun p t => add_rejection V (pkey k :: p) r t)). intros. apply add_rejection_vars.
Qed.
Lemma runs_key : forall m r k, decided V vars m r -> runs vars (fun g p s => sub_key (EV g) p m r k s).
Proof. intros m r k H. unfold sub_key. apply (runs_path (fun g p s => EV g p m r s)). apply runs_rule, H. Qed.
Lemma runs_extra : forall w ss, (forall x, In x ss -> decided V vars x w) ->
  runs vars (fun g p s => extra_members V (EV g) p w ss s).
Proof.
  intros w. induction ss as [|x ss IH]; intros H; cbn [extra_members]; [apply runs_done|].
  apply (runs_reject (fst x) w _ (fun g p s => extra_members V (EV g) p w ss s)).
  - apply runs_key, H. left. reflexivity.
  - apply IH. intros y Y. apply H. right. exact Y.
Qed.
Lemma runs_missing : forall ts, (forall t, In t ts -> decided V vars ([], VUndef) (snd t)) ->
  runs vars (fun g p s => missing_members V (EV g) p ts s).
Proof.
  induction ts as [|t ts IH]; intros H; cbn [missing_members]; [apply runs_done|].
  apply (runs_reject (fst t) (snd t) _ (fun g p s => missing_members V (EV g) p ts s)).
  - apply runs_key, H. left. reflexivity.
  - apply IH. intros y Y. apply H. right. exact Y.
Qed.
Lemma runs_template : forall w ss ts, (forall x, In x ss -> decided V vars x w) ->
  (forall x t, In x ss -> In t ts -> decided V vars x (snd t)) -> (forall t, In t ts -> decided V vars ([], VUndef) (snd t)) ->
  runs vars (fun g p s => template_loop V (EV g) p w ss ts s).
Proof.
  intros w. induction ss as [|x ss IHs]; [|induction ts as [|t ts IHt]]; [intros ts W X U|intros W X U..].
  - apply (runs_ext _ (fun g p s => missing_members V (EV g) p ts s)); [intros; destruct ts; reflexivity|]. apply runs_missing, U.
  - apply (runs_extra w (x :: ss)), W.
  - apply (runs_ext _ (fun g p s =>
      let '(tk, spec) := parse_key (fst t) in
      match kcmp (fst x) tk with
      | Lt => if spec then template_loop V (EV g) p w ss (t :: ts) s
        else reject_sub V p (fst x) w (sub_key (EV g) p x w (fst x) s) (template_loop V (EV g) p w ss (t :: ts))
      | Gt => if spec then template_loop V (EV g) p w (x :: ss) ts s
        else reject_sub V p tk (snd t) (sub_key (EV g) p ([], VUndef) (snd t) tk s) (template_loop V (EV g) p w (x :: ss) ts)
      | Eq => if spec then template_loop V (EV g) p w ss ts s
        else reject_sub V p (fst x) (snd t) (sub_key (EV g) p x (snd t) (fst x) s) (template_loop V (EV g) p w ss ts)
      end)); [intros; reflexivity|].
    destruct (parse_key (fst t)) as [tk spec].
    assert (A : runs vars (fun g p s => template_loop V (EV g) p w ss (t :: ts) s)).
    { apply IHs; [intros y Y; apply W; right; exact Y|intros y z Y Z; apply X; [right; exact Y|exact Z]|exact U]. }
    assert (B : runs vars (fun g p s => template_loop V (EV g) p w (x :: ss) ts s)).
    { apply IHt; [exact W|intros y z Y Z; apply X; [exact Y|right; exact Z]|intros z Z; apply U; right; exact Z]. }
    assert (C : runs vars (fun g p s => template_loop V (EV g) p w ss ts s)).
    { apply IHs; [intros y Y; apply W; right; exact Y|intros y z Y Z; apply X; right; assumption|intros z Z; apply U; right; exact Z]. }
    destruct (kcmp (fst x) tk), spec; try assumption.
    + apply (runs_reject (fst x) (snd t) _ (fun g p s => template_loop V (EV g) p w ss ts s)); [|exact C].
      apply runs_key, X; left; reflexivity.
    + apply (runs_reject (fst x) w _ (fun g p s => template_loop V (EV g) p w ss (t :: ts) s)); [|exact A].
      apply runs_key, W; left; reflexivity.
    + apply (runs_reject tk (snd t) _ (fun g p s => template_loop V (EV g) p w (x :: ss) ts s)); [|exact B].
      apply runs_key, U; left; reflexivity.
Qed.
End Runs.

(** *** Words *)
Lemma to_string_total : forall E u v, exists t, to_string E u v = Some t.
Proof.
  intros E u v. destruct v as [| |b|n|[e|] s|l|d l]; cbn [to_string]; eauto.
  - destruct n; eauto.
  - replace (get_binary e (VStr (Some e) s)) with (Some s) by (destruct s; reflexivity). eexists. reflexivity.
Qed.
Lemma on_text_ends : forall V v f, exists b, on_text V v f = SVerdict b.
Proof. intros V v f. unfold on_text. destruct (to_string_total (v_E V) (v_utf8 V) v) as (t & ->). eauto. Qed.
Lemma ranges_end : forall k x n l, (length l <= k)%nat -> n <= Z.of_nat (length l) - 2 -> charset_ranges x n l <> None.
Proof.
  induction k as [|k IH]; intros x n l K N.
  - destruct l; [|cbn in K; lia]. cbn in *. destruct (Z.leb_spec n 0); [discriminate|lia].
  - destruct l as [|a [|b l1]]; cbn [charset_ranges]; cbn [length] in *.
    + destruct (Z.leb_spec n 0); [discriminate|lia].
    + destruct (Z.leb_spec n 0); [discriminate|lia].
    + destruct (Z.leb_spec n 0); [discriminate|]. destruct (b =? 45).
      * destruct l1 as [|c l2]; [cbn in *; lia|]. cbn [length] in *. destruct ((a <=? x) && (x <=? c)); [discriminate|]. apply IH; lia.
      * destruct (x =? a); [discriminate|]. apply (IH x (n - 1) (b :: l1)); cbn [length]; lia.
Qed.
Lemma charset_char_ends : forall r mem x, length r <> 1%nat -> r <> [] -> (length r <= length mem)%nat -> charset_char r mem x <> None.
Proof.
  intros r mem x A B C. unfold charset_char. assert (D : (2 <= length r)%nat) by (destruct r as [|? [|? ?]]; cbn in *; congruence || lia).
  assert (u64 (Z.of_nat (length r) - 2) <= Z.of_nat (length r) - 2).
  { unfold u64. apply Z.mod_le; lia. }
  pose proof (ranges_end (length mem) x (u64 (Z.of_nat (length r) - 2)) mem (le_n _) ltac:(lia)).
  destruct (charset_ranges _ _ _) as [[|]|]; congruence.
Qed.
Lemma charset_all_ends : forall neg r mem s, length r <> 1%nat -> r <> [] -> (length r <= length mem)%nat -> charset_all neg r mem s <> None.
Proof.
  intros neg r mem s A B C. induction s as [|x s IH]; cbn [charset_all]; [discriminate|].
  pose proof (charset_char_ends r mem x A B C). destruct (charset_char r mem x) as [f|]; [|congruence].
  destruct (Bool.eqb f neg); [discriminate|exact IH].
Qed.
Lemma test_charset_ends : forall s w, length w <> 3%nat -> (nth 1 w 0 = 94 -> length w <> 4%nat) -> test_charset s w <> None.
Proof.
  intros s w A B. unfold test_charset. destruct (length w <? 2)%nat eqn:L.
  - destruct w as [|a [|b w]]; cbn in L; try discriminate; cbn; discriminate.
  - apply Nat.ltb_ge in L. destruct w as [|a w]; [cbn in L; lia|]. cbn [tl length] in *.
    set (r := firstn (S (length w) - 2) w).
    assert (R : length r = (length w - 1)%nat) by (unfold r; rewrite firstn_length; lia).
    assert (N : match r with c :: _ => nth 0 w 0 = c | [] => True end).
    { unfold r. destruct w as [|c w]; [cbn in L; lia|]. cbn [length]. destruct (S (S (length w)) - 2)%nat; reflexivity. }
    destruct r as [|c r']; [discriminate|]. destruct s as [|x s]; [discriminate|]. set (ss := x :: s) in *.
    assert (G : charset_all false (c :: r') (w ++ [0]) ss <> None).
    { apply charset_all_ends; [rewrite R; lia|discriminate|rewrite app_length, R; cbn; lia]. }
    destruct r' as [|d r']; [exact G|]. destruct (c =? 94) eqn:C; [|exact G].
    apply charset_all_ends; [|discriminate|].
    + cbn [nth] in B. apply Z.eqb_eq in C. rewrite N in B. specialize (B C). cbn [length] in *. lia.
    + destruct w as [|e w]; [cbn in R; lia|]. cbn [tl app]. rewrite app_length. cbn [length] in *. lia.
Qed.

Lemma builtin_ends : forall V v w, builtin w -> exists b, simple_rule V v w = SVerdict b.
Proof.
  intros V v w [->|[(t & ->)|[(t & ->)|[(c & -> & A & B)|I]]]].
  - exists false. reflexivity.
  - eexists. reflexivity.
  - exists false. reflexivity.
  - assert (L : last (91 :: c ++ [93]) 0 = 93).
    { change (91 :: c ++ [93]) with ((91 :: c) ++ [93]). apply last_last. }
    unfold simple_rule. change ((91 =? 39)) with false. change (91 =? 35) with false. cbv iota. rewrite L.
    change ((91 =? 91) && (93 =? 93)) with true. cbv iota. destruct v; try (eexists; reflexivity).
    pose proof (test_charset_ends (wstr s) (wstr (91 :: c ++ [93])) A B). destruct (test_charset _ _); [eexists; reflexivity|congruence].
  - unfold builtin_words in I. cbn [map In] in I.
    repeat (destruct I as [<-|I]; [first [eexists; reflexivity | apply on_text_ends]|]). destruct I.
Qed.
Lemma class_word_rule : forall V v w, class_word w -> simple_rule V v w = SClass.
Proof.
  intros V v w (A & B & C & D). destruct w as [|c w]; [congruence|].
  assert (K : forall k, In k builtin_words -> beqb (c :: w) k = false).
  { intros k K. apply beqb_neq. intros E. rewrite E in D. exact (D K). }
  unfold simple_rule. destruct (c =? 39) eqn:E1; [apply Z.eqb_eq in E1; subst; destruct (B w); congruence|].
  destruct (c =? 35) eqn:E2; [apply Z.eqb_eq in E2; subst; destruct (B w); congruence|].
  destruct (c =? 91) eqn:E3; [apply Z.eqb_eq in E3; subst; destruct (C w); congruence|]. cbn [andb].
  rewrite !K by (unfold builtin_words; apply in_map; cbn [In]; tauto). reflexivity.
Qed.

(** *** Weights *)
Definition weights (l : list member) : nat := fold_right (fun x n => (S (weight (snd x)) + n)%nat) O l.
Lemma weight_members : forall v, weight v = match v with VArr l | VObj _ l => S (weights l) | _ => O end.
Proof. intros v. destruct v; reflexivity. Qed.
Lemma weights_in : forall l x, In x l -> (weight (snd x) < S (weights l))%nat.
Proof.
  induction l as [|y l IH]; intros x I; [destruct I|]. destruct I as [->|I]; cbn [weights fold_right]; [lia|].
  specialize (IH x I). fold (weights l). lia.
Qed.
Lemma weights_app : forall a b, weights (a ++ b) = (weights a + weights b)%nat.
Proof. induction a as [|x a IH]; intros b; [reflexivity|]. cbn [app weights fold_right]. fold (weights a) (weights (a ++ b)). rewrite IH. lia. Qed.
Lemma weights_parts : forall l n, (weights (firstn n l) <= weights l)%nat /\ (weights (skipn n l) <= weights l)%nat.
Proof. intros l n. rewrite <- (firstn_skipn n l) at 2 4. rewrite weights_app. lia. Qed.
Lemma weight_member : forall v x, In x (members_of v) -> (weight (snd x) < weight v)%nat.
Proof. intros v x I. rewrite (weight_members v). destruct v; try destruct I; cbn [members_of] in I; apply weights_in in I; exact I. Qed.
Lemma weight_item : forall l i, (weight (snd (vitem (VArr l) i)) < weight (VArr l))%nat.
Proof.
  intros l i. unfold vitem. cbn [members_of]. destruct (nth_in_or_default i l ([], VUndef)) as [I| ->].
  - exact (weight_member (VArr l) _ I).
  - rewrite (weight_members (VArr l)). cbn [snd weight]. lia.
Qed.
Lemma find_loop_in : forall fuel (l : list member) w a b m, find_loop fuel l w a b = Ok (Some m) -> In m l.
Proof.
  induction fuel as [|fuel IH]; intros l w a b m; cbn [find_loop]; [discriminate|].
  destruct (a <? b)%nat; [|discriminate]. destruct (nth_error l _) as [it|] eqn:E; [|discriminate].
  destruct (kcmp w (fst it)); try apply IH. intros X. injection X as <-. exact (nth_error_In _ _ E).
Qed.
Lemma value_member_in : forall d l w, value_member (VObj d l) w = VUndef \/ exists x, In x l /\ value_member (VObj d l) w = snd x.
Proof.
  intros d l w. unfold value_member, find_member. destruct (findSorted l w) as [[x|]| |] eqn:E; auto.
  right. exists x. split; [exact (find_loop_in _ _ _ _ _ _ E)|reflexivity].
Qed.

Lemma split_pos_weight : forall v p l L,
  (veq L (fst (split_value_pos v p)) (VArr l) = true -> (weight (snd (split_value_pos v p)) <= weight v)%nat) /\
  (veq L (snd (split_value_pos v p)) (VArr l) = true -> (weight (fst (split_value_pos v p)) <= weight v)%nat).
Proof.
  intros v p l L. unfold split_value_pos. destruct (Z.ltb_spec 0 p) as [P|P]; cbn [fst snd].
  - destruct (Z.ltb_spec p (Z.of_nat (vsize v))) as [Lt|_]; cbn [fst snd].
    + pose proof (weights_parts (members_of v) (Z.to_nat p)). rewrite (weight_members v), (weight_members (VArr (firstn _ _))), (weight_members (VArr (skipn _ _))). unfold vsize in Lt.
      destruct v; cbn [members_of length] in *; split; intros; lia.
    + split; intros; [|lia]. destruct v; try discriminate. rewrite (weight_members (VArr l0)). cbn. lia.
  - split; intros; [lia|]. destruct v; try discriminate. rewrite (weight_members (VArr l0)). cbn. lia.
Qed.
Lemma split_weight : forall v p l L,
  (veq L (fst (split_value v p)) (VArr l) = true -> (weight (snd (split_value v p)) <= weight v)%nat) /\
  (veq L (snd (split_value v p)) (VArr l) = true -> (weight (fst (split_value v p)) <= weight v)%nat).
Proof.
  intros v p l L.
  assert (Str : forall e s q, let r := str_split_at (VStr e s) q in weight (fst r) = O /\ weight (snd r) = O).
  { intros e s q. unfold str_split_at, split_at_pos.
    repeat match goal with |- context [if ?b then _ else _] => destruct b end; cbn [fst snd]; unfold sub_string;
    repeat match goal with |- context [match ?x with _ => _ end] => destruct x end; cbn; auto. }
  assert (G : forall q, let r := if 0 <? q then split_value_pos v q else (VArr [], v) in
    (veq L (fst r) (VArr l) = true -> (weight (snd r) <= weight v)%nat) /\
    (veq L (snd r) (VArr l) = true -> (weight (fst r) <= weight v)%nat)).
  { intros q. destruct (0 <? q); [apply split_pos_weight|]. cbn [fst snd]. split; intros; [lia|]. destruct v; try discriminate.
    rewrite (weight_members (VArr l0)). cbn. lia. }
  unfold split_value. destruct v; try (destruct (p <? 0); [apply G|apply split_pos_weight]).
  destruct (Str e s p) as [-> ->]. split; intros; lia.
Qed.

(** *** The main induction *)
Scheme sound_ind' := Minimality for sound Sort Prop
  with sound_all_ind' := Minimality for sound_all Sort Prop.
Combined Scheme sound_mut from sound_ind', sound_all_ind'.

Definition fits (W : nat) (p : place) (m : member) : Prop :=
  match p with Same => (weight (snd m) <= W)%nat | Smaller => (weight (snd m) < W)%nat | Other => True end.
Lemma fits_le : forall W p m n, fits W p m -> (weight (snd n) <= weight (snd m))%nat -> fits W p n.
Proof. intros W p m n H L. destruct p; cbn in *; lia. Qed.
Lemma fits_inner : forall W p m n, fits W p m -> (weight (snd n) < weight (snd m))%nat -> fits W (inner p) n.
Proof. intros W p m n H L. destruct p; cbn in *; lia. Qed.

Lemma undef_decided : forall V vars m, decided V vars m VUndef.
Proof. intros V vars m. apply decided_step. cbn [rule_step]. apply (runs_close V vars VUndef (fun s => length (vs_rej s))), runs_done. Qed.
Lemma class_decided : forall V vars m e w, class_word w -> value_member (v_def V) w <> VUndef ->
  (get_string (value_member (v_def V) w) <> txt "native" -> decided V vars m (value_member (v_def V) w)) -> decided V vars m (VStr e w).
Proof.
  intros V vars m e w C D H. apply decided_step. cbn [rule_step]. apply (runs_close V vars _ (fun s => length (vs_rej s))).
  unfold eval_simple. rewrite (class_word_rule V (snd m) w C). unfold check_class.
  replace (defined (value_member (v_def V) w)) with true by (destruct (value_member (v_def V) w); [congruence|reflexivity..]). cbn [negb].
  destruct (beqb _ _) eqn:E; [apply runs_done|]. apply runs_rule, H. apply beqb_neq, E.
Qed.
Lemma skipn_in : forall {A} n (l : list A) x, In x (skipn n l) -> In x l.
Proof. intros A n l x I. rewrite <- (firstn_skipn n l). apply in_or_app. right. exact I. Qed.
Lemma nth_skipn_in : forall (l : list member) k i (P : value -> Prop), (k <= i)%nat -> P VUndef ->
  (forall x, In x (skipn k l) -> P (snd x)) -> P (snd (nth i l ([], VUndef))).
Proof.
  intros l k i P L U H. destruct (Nat.lt_ge_cases i (length l)) as [B|B].
  - apply H. rewrite <- (firstn_skipn k l) at 1. rewrite app_nth2 by (rewrite firstn_length; lia). apply nth_In.
    rewrite firstn_length, skipn_length. lia.
  - rewrite nth_overflow by exact B. exact U.
Qed.

Section Main.
Variables (V : venv) (rank : bytes -> nat * nat).
Hypothesis Def : sound_definition (v_def V) rank.
Notation EV := (eval_rule V).

Section Step.
Variables (M W n : nat).
Hypothesis IHM : forall vars m w, (fst (rank w) < M)%nat -> decided V vars m (value_member (v_def V) w).
Hypothesis IHW : forall vars m w, fst (rank w) = M -> (weight (snd m) < W)%nat -> decided V vars m (value_member (v_def V) w).
Hypothesis IHn : forall vars m w, fst (rank w) = M -> (snd (rank w) < n)%nat -> (weight (snd m) <= W)%nat -> decided V vars m (value_member (v_def V) w).
Let P (p : place) (r : value) := forall vars m, fits W p m -> decided V vars m r.
Let Q (p : place) (args : list member) := forall vars m, fits W p m -> runs vars (fun g p s => range_def V (EV g) p m args s).

Lemma params_decided : forall vars m args, runs vars (fun g p s => eval_params V (EV g) p m args s) -> decided V vars m (VArr args).
Proof. intros vars m args H. apply decided_step. cbn [rule_step]. apply (runs_close V vars _ (fun s => length (vs_rej s))), H. Qed.

Lemma class_case : forall p e w, class_word w -> value_member (v_def V) w <> VUndef -> may_use (M, n) p (rank w) -> P p (VStr e w).
Proof.
  intros p e w C D U vars m F. apply class_decided; [exact C|exact D|]. intros _. destruct U as [U|[U1 U2]]; cbn [fst snd] in *.
  - apply IHM, U.
  - destruct p; cbn in F, U2; [apply IHn; assumption|apply IHW; assumption|destruct U2].
Qed.
Lemma object_case : forall p d l, (forall x, In x l -> P (inner p) (snd x)) -> P p (VObj d l).
Proof.
  intros p d l H vars m F. apply decided_step. cbn [rule_step]. apply (runs_close V vars _ (fun s => length (vs_rej s))).
  unfold eval_object. destruct (snd m) as [| | | | | |d' ss] eqn:E; try apply runs_done. cbn [members_of].
  assert (In_ : forall x r, In x ss -> In r l -> decided V vars x (snd r)).
  { intros x r X R. apply (H r R). apply (fits_inner W p m); [exact F|]. rewrite E. exact (weight_member (VObj d' ss) x X). }
  apply runs_template.
  - intros x X. destruct (value_member_in d l [37]) as [->|(r & R & ->)]; [apply undef_decided|apply In_; assumption].
  - exact In_.
  - intros r R. apply (H r R). apply (fits_inner W p m); [exact F|]. rewrite E, (weight_members (VObj _ _)). cbn. lia.
Qed.
Lemma array_case : forall p x rules vars m c, (forall m, decided V vars m (snd x)) ->
  (forall x, In x rules -> P (inner p) (snd x)) -> fits W p m ->
  runs vars (fun g p s => eval_array V (EV g) p m (VArr (x :: rules)) c s).
Proof.
  intros p x rules vars m c X H F. unfold eval_array. destruct (snd m) as [| | | | |l|] eqn:E; try apply runs_done. cbn [members_of tl].
  apply (runs_bind vars (fun g p s => tuple_items (EV g) p (VArr l) rules c 0 s)
    (fun b g p s => if b then rest_items V (EV g) p (skipn (Z.to_nat (Z.min c (Z.of_nat (length l)))) l) (VArr (x :: rules)) c
       (Z.to_nat (Z.min (u32 (c + 1)) (Z.of_nat (vsize (VArr (x :: rules)))))) s else VDone false s)).
  - apply runs_tuple; [apply undef_decided|]. intros r j R. apply (H r R). apply (fits_inner W p m); [exact F|]. rewrite E. apply weight_item.
  - intros b. destruct b; [|apply runs_done]. apply runs_rest. intros y r Y R. cbn [members_of] in R.
    assert (Wy : (weight (snd y) < weight (snd m))%nat) by (rewrite E; apply (weight_member (VArr l)); cbn [members_of]; exact (skipn_in _ _ _ Y)).
    apply skipn_in in R. destruct R as [<-|R]; [apply X|]. apply (H r R). exact (fits_inner W p m y F Wy).
Qed.
Lemma heads_decided : forall vars m, decided V vars m (VArr []) /\ forall k n, decided V vars m (VArr [(k, VNum n)]).
Proof.
  intros vars m. split; [|intros k z]; apply params_decided; cbn [eval_params]; [apply runs_done|].
  apply runs_alternatives. intros x [<-|[]]. apply decided_step. apply runs_done.
Qed.
Lemma alternatives_case : forall p vars m n rules, (forall x, In x rules -> P p (snd x)) -> fits W p m ->
  (weight (snd n) <= weight (snd m))%nat -> runs vars (fun g p s => alternatives (EV g) p n rules s).
Proof. intros p vars m x rules H F L. apply runs_alternatives. intros r R. apply (H r R). exact (fits_le W p m x F L). Qed.
Lemma prefix_case : forall p vars m args, (forall x, In x (skipn 2 args) -> P p (snd x)) -> fits W p m ->
  runs vars (fun g p s => op_prefix V (EV g) p m args s).
Proof.
  intros p vars m args H F. unfold op_prefix.
  apply (runs_ext vars _ (fun g p s => match snd (get_var V vars m (nth 1 args ([], VUndef))) with
    | VArr l => let '(a, b) := split_value (snd m) (s32 (Z.of_nat (length l))) in
      if negb (veq (v_L V) a (VArr l)) then VDone false s
      else if defined (snd (nth 2 args ([], VUndef))) then alternatives (EV g) p ([], b) (skipn 2 args) s else VDone true s
    | q => let text := get_string (snd m) in let str := get_string q in
      if negb (beqb (firstn (length str) text) str) then VDone false s
      else if defined (snd (nth 2 args ([], VUndef))) then alternatives (EV g) p ([], VStr None (skipn (length str) text)) (skipn 2 args) s
      else VDone true s end)).
  { intros g q s E. rewrite E. destruct (snd (get_var V vars m _)); reflexivity. }
  destruct (snd (get_var V vars m _)) as [| | | | |l|]; cbv zeta.
  6: { destruct (split_weight (snd m) (s32 (Z.of_nat (length l))) l (v_L V)) as [S1 _].
    destruct (split_value _ _) as [a b]. cbn [fst snd] in S1. destruct (veq (v_L V) a (VArr l)); cbn [negb]; [|apply runs_done].
    destruct (defined _); [|apply runs_done]. apply (alternatives_case p vars m); [exact H|exact F|]. cbn [snd]. apply S1. reflexivity. }
  all: destruct (negb _); [apply runs_done|]; (destruct (defined _); [|apply runs_done]);
    (apply (alternatives_case p vars m); [exact H|exact F|]); cbn; lia.
Qed.
Lemma suffix_case : forall p vars m args, (forall x, In x (skipn 2 args) -> P p (snd x)) -> fits W p m ->
  runs vars (fun g p s => op_suffix V (EV g) p m args s).
Proof.
  intros p vars m args H F. unfold op_suffix.
  apply (runs_ext vars _ (fun g p s => match snd (get_var V vars m (nth 1 args ([], VUndef))) with
    | VArr l => let '(a, b) := split_value (snd m) (- s32 (Z.of_nat (length l))) in
      if negb (veq (v_L V) b (VArr l)) then VDone false s
      else if defined (snd (nth 2 args ([], VUndef))) then alternatives (EV g) p ([], a) (skipn 2 args) s else VDone true s
    | q => let text := get_string (snd m) in let str := get_string q in
      if (length text <? length str)%nat then VDone false s else
      let pos := (length text - length str)%nat in
      if negb (beqb (skipn pos text) str) then VDone false s
      else if (2 <? length args)%nat then alternatives (EV g) p ([], VStr None (firstn pos text)) (skipn 2 args) s
      else VDone true s end)).
  { intros g q s E. rewrite E. destruct (snd (get_var V vars m _)); reflexivity. }
  destruct (snd (get_var V vars m _)) as [| | | | |l|]; cbv zeta.
  6: { destruct (split_weight (snd m) (- s32 (Z.of_nat (length l))) l (v_L V)) as [_ S1].
    destruct (split_value _ _) as [a b]. cbn [fst snd] in S1. destruct (veq (v_L V) b (VArr l)); cbn [negb]; [|apply runs_done].
    destruct (defined _); [|apply runs_done]. apply (alternatives_case p vars m); [exact H|exact F|]. cbn [snd]. apply S1. reflexivity. }
  all: destruct (_ <? _)%nat; [apply runs_done|]; destruct (negb _); [apply runs_done|]; (destruct (2 <? length args)%nat; [|apply runs_done]);
    (apply (alternatives_case p vars m); [exact H|exact F|]); cbn; lia.
Qed.
Lemma setvar_case : forall p vars m args, (forall x, In x (skipn 2 args) -> P p (snd x)) -> fits W p m ->
  runs vars (fun g p s => op_setvar (EV g) p m args s).
Proof.
  intros p vars m args H F. unfold op_setvar. set (name := get_string _). destruct (match name with [] => false | c :: _ => c =? 36 end); [|apply runs_done].
  destruct (alternatives_case p ((name, snd m) :: vars) m m (skipn 2 args) H F (le_n _)) as (f & b & A).
  exists f, b. intros g q s L E. destruct (A g q (push_var name (snd m) s) L) as (t & -> & T); [cbn; congruence|].
  cbn [vbind]. eexists. split; [reflexivity|]. cbn. rewrite T. reflexivity.
Qed.
Lemma usevar_case : forall vars m args, (forall x, In x (skipn 2 args) -> P Other (snd x)) ->
  runs vars (fun g p s => op_usevar V (EV g) p m args s).
Proof.
  intros vars m args H. unfold op_usevar.
  apply (runs_ext vars _ (fun g p s => let var := match snd (nth 1 args ([], VUndef)) with
      | VArr _ => get_var V vars m (nth 1 args ([], VUndef)) | _ => find_var vars m (get_string (snd (nth 1 args ([], VUndef)))) end in
    if defined (snd var) then alternatives (EV g) p var (skipn 2 args) s else VDone false s)).
  { intros g q s E. rewrite E. reflexivity. }
  cbv zeta. destruct (defined _); [|apply runs_done]. apply runs_alternatives. intros r R. apply (H r R). exact I.
Qed.
Lemma split_case : forall vars m args, (forall x, In x (skipn 2 args) -> P Other (snd x)) ->
  runs vars (fun g p s => op_split V (EV g) p m args s).
Proof.
  intros vars m args H. unfold op_split.
  apply (runs_ext vars _ (fun g p s => let '(a, b) := split_value (snd m) (s32 (uint_of V (snd (get_var V vars m (nth 1 args ([], VUndef)))))) in
    vbind (EV g p ([], a) (snd (nth 2 args ([], VUndef))) s) (fun r s => if r then EV g p ([], b) (snd (nth 3 args ([], VUndef))) s else VDone false s))).
  { intros g q s E. rewrite E. reflexivity. }
  assert (D : forall i n, (2 <= i)%nat -> decided V vars n (snd (nth i args ([], VUndef)))).
  { intros i k L. apply (nth_skipn_in args 2 i (fun r => decided V vars k r) L); [apply undef_decided|]. intros x X. apply (H x X). exact I. }
  destruct (split_value _ _) as [a b].
  apply (runs_bind vars (fun g p s => EV g p ([], a) (snd (nth 2 args ([], VUndef))) s)
    (fun r g p s => if r then EV g p ([], b) (snd (nth 3 args ([], VUndef))) s else VDone false s)).
  - apply runs_rule, D. lia.
  - intros r. destruct r; [|apply runs_done]. apply runs_rule, D. lia.
Qed.
Lemma explode_case : forall vars m args, (forall x, In x (skipn 2 args) -> P Other (snd x)) ->
  runs vars (fun g p s => op_explode V (EV g) p m args s).
Proof.
  intros vars m args H. unfold op_explode. cbv zeta. set (lim := if _ =? 0 then None else _).
  apply (runs_ext vars _ (fun g p s => EV g p ([], VArr (map (fun t => ([], VStr None t)) (v_explode V (get_string (snd m))
    (get_string (snd (get_var V vars m (nth 1 args ([], VUndef))))) lim))) (snd (nth 2 args ([], VUndef))) s)).
  { intros g q s E. rewrite E. reflexivity. }
  apply runs_rule. apply (nth_skipn_in args 2 2 (fun r => decided V vars _ r) (le_n _)); [apply undef_decided|]. intros x X. apply (H x X). exact I.
Qed.
Lemma emit_case : forall p vars m args, (forall x, In x (skipn 2 args) -> P p (snd x)) -> fits W p m ->
  runs vars (fun g p s => op_emit V (EV g) p m args s).
Proof.
  intros p vars m args H F. unfold op_emit.
  apply (runs_bind vars (fun g p s => EV g p m (snd (nth 2 args ([], VUndef))) s)
    (fun b g p s => if b then VDone true (push_emit (walk_object V (vs_vars s) m (fst (nth 1 args ([], VUndef))) (snd (nth 1 args ([], VUndef)))) s) else VDone false s)).
  - apply runs_rule. apply (nth_skipn_in args 2 2 (fun r => decided V vars _ r) (le_n _)); [apply undef_decided|]. intros x X. exact (H x X vars m F).
  - intros b. destruct b; [|apply runs_done].
    apply (runs_state vars true (fun p s => push_emit (walk_object V (vs_vars s) m (fst (nth 1 args ([], VUndef))) (snd (nth 1 args ([], VUndef)))) s)). reflexivity.
Qed.

Lemma range_op : forall p k e w args q vars m, In w (map txt [">"; ">="; "<"; "<="]%string) ->
  q = match args with q :: _ => q | [] => ([], VUndef) end -> Q p (tl args) -> fits W p m ->
  runs vars (fun g p s => range_def V (EV g) p m ((k, VStr e w) :: args) s).
Proof.
  intros p k e w args q vars m I0 -> H F.
  assert (Com : is_comment w = false). { cbn [map In] in I0. repeat (destruct I0 as [<-|I0]; [reflexivity|]). destruct I0. }
  assert (exists op, w = txt op /\ In op ["<"; ">="; ">"; "<="]%string) as (op & -> & Op).
  { apply in_map_iff in I0 as (op & <- & I0). exists op. split; [reflexivity|]. cbn [In] in *. tauto. }
  set (q := match args with q :: _ => q | [] => ([], VUndef) end).
  destruct (range_test_spec V op (snd m) (snd (get_var V vars m q)) Op) as (b & R & _).
  apply (runs_ext vars _ (fun g p s => if b then range_def V (EV g) p m (tl args) s else VDone false s)).
  { intros g p' s E. cbn [range_def snd]. rewrite Com, E. fold q. rewrite R. destruct b; [|reflexivity]. destruct args; reflexivity. }
  destruct b; [|apply runs_done]. exact (H vars m F).
Qed.
Lemma range_rule : forall p x args, plain_rule (snd x) -> P p (snd x) -> Q p args -> Q p (x :: args).
Proof.
  intros p x args Pl Px H vars m F.
  apply (runs_ext vars _ (fun g p s => vbind (EV g p m (snd x) s) (fun b s => if b then range_def V (EV g) p m args s else VDone false s))).
  { intros g q s E. cbn [range_def]. destruct (snd x) as [| | | |e w| |] eqn:X; try reflexivity. cbn in Pl. destruct Pl as [N C].
    assert (is_comment w = false) as ->.
    { destruct w as [|c w]; [reflexivity|]. cbn. destruct (Z.eqb_spec c 35) as [->|]; [destruct (C w eq_refl)|reflexivity]. }
    rewrite range_test_none by exact N. reflexivity. }
  apply (runs_bind vars (fun g p s => EV g p m (snd x) s) (fun b g p s => if b then range_def V (EV g) p m args s else VDone false s)).
  - apply runs_rule. exact (Px vars m F).
  - intros b. destruct b; [exact (H vars m F)|apply runs_done].
Qed.

Lemma token_var : forall ev p m w args s, ~ In w keywords -> defined (snd (find_var (vs_vars s) m w)) = true ->
  eval_token V ev p m w args s = VDone (veq (v_L V) (snd m) (snd (get_var V (vs_vars s) m ([], VArr args)))) s.
Proof.
  intros ev p m w args s N U.
  assert (H : forall k, In k keywords -> beqb w k = false).
  { intros k K. apply beqb_neq. intros ->. exact (N K). }
  unfold eval_token. rewrite !H by (unfold keywords; apply in_map; cbn [In]; tauto). cbn [orb]. rewrite U. reflexivity.
Qed.

Lemma sound_step :
  (forall p r, sound (v_def V) rank (M, n) p r -> P p r) /\ (forall p args, sound_all (v_def V) rank (M, n) p args -> Q p args).
Proof.
  assert (Const : forall p r, match r with VNull | VBool _ | VNum _ => True | _ => False end -> P p r).
  { intros p r H vars m F. apply decided_step. destruct r; try destruct H; apply runs_done. }
  apply sound_mut.
  - intros p vars m F. apply undef_decided.
  - intros p. apply Const. exact I.
  - intros p b. apply Const. exact I.
  - intros p x. apply Const. exact I.
  - intros p e w B vars m F. apply decided_step. cbn [rule_step]. apply (runs_close V vars _ (fun s => length (vs_rej s))).
    unfold eval_simple. destruct (builtin_ends V (snd m) w B) as (b & ->). apply runs_done.
  - intros p e w C N vars m F. apply class_decided; [exact C| |congruence]. intros U. rewrite U in N. discriminate.
  - intros p e w. apply class_case.
  - intros p d l _ H. apply object_case. exact H.
  - intros p vars m F. apply heads_decided.
  - intros p k rules _ H vars m F. apply params_decided. cbn [eval_params]. apply (array_case p); [intros; apply heads_decided|exact H|exact F].
  - intros p k k' z rules _ H vars m F. apply params_decided. cbn [eval_params]. apply (array_case p); [intros; apply heads_decided|exact H|exact F].
  - (* free *)
    intros p k e w args I0 vars m F. apply params_decided. cbn [eval_params]. cbn [map In] in I0.
    destruct I0 as [<-|[<-|[<-|[]]]].
    + apply (runs_ext vars _ (fun g p s => VDone (check_min_size (snd m) (uint_of V (snd (get_var V vars m (nth 0 args ([], VUndef)))))) s)); [|apply runs_done].
      intros g q s E. rewrite <- E. reflexivity.
    + apply (runs_ext vars _ (fun g p s => VDone (check_max_size (snd m) (uint_of V (snd (get_var V vars m (nth 0 args ([], VUndef)))))) s)); [|apply runs_done].
      intros g q s E. rewrite <- E. reflexivity.
    + destruct (to_string_total (v_E V) (v_utf8 V) (snd m)) as (t & T).
      apply (runs_ext vars _ (fun g p s => VDone (check_date_time (get_string (snd (get_var V vars m (nth 0 args ([], VUndef))))) t) s)); [|apply runs_done].
      intros g q s E. rewrite <- E. transitivity (match to_string (v_E V) (v_utf8 V) (snd m) with
        | Some t => VDone (check_date_time (get_string (snd (get_var V (vs_vars s) m (nth 0 args ([], VUndef))))) t) s | None => VThrow s end);
        [reflexivity|]. rewrite T. reflexivity.
  - (* key, tostring, tonumber, not *)
    intros p k e w args I0 _ H vars m F. apply params_decided. cbn [eval_params]. cbn [map In] in I0.
    assert (Not : runs vars (fun g p s => vbind (alternatives (EV g) p m args s) (fun b s => VDone (negb b) s))).
    { apply (runs_bind vars (fun g p s => alternatives (EV g) p m args s) (fun b g p s => VDone (negb b) s));
        [apply (alternatives_case p vars m); auto|]. intros b. apply runs_done. }
    destruct I0 as [<-|[<-|[<-|[<-|[<-|[]]]]]].
    + apply (runs_ext vars _ (fun g p s => alternatives (EV g) p ([], VStr None (fst m)) args s)); [reflexivity|].
      apply (alternatives_case p vars m); [exact H|exact F|cbn; lia].
    + destruct (to_string_total (v_E V) (v_utf8 V) (snd m)) as (t & T).
      apply (runs_ext vars _ (fun g p s => alternatives (EV g) p ([], VStr None t) args s)).
      { intros g q s E. transitivity (match to_string (v_E V) (v_utf8 V) (snd m) with
          | Some t => alternatives (EV g) q ([], VStr None t) args s | None => VThrow s end); [reflexivity|]. rewrite T. reflexivity. }
      apply (alternatives_case p vars m); [exact H|exact F|cbn; lia].
    + apply (runs_ext vars _ (fun g p s => alternatives (EV g) p ([], value_of_double (value_dbl (v_L V) (v_F V) (snd m))) args s)); [reflexivity|].
      apply (alternatives_case p vars m); [exact H|exact F|]. cbn [snd]. unfold value_of_double.
      repeat match goal with |- context [match ?x with _ => _ end] => destruct x end; cbn; lia.
    + apply (runs_ext vars _ _ (fun g q s _ => eq_refl) Not).
    + apply (runs_ext vars _ _ (fun g q s _ => eq_refl) Not).
  - (* all *)
    intros p k e w args I0 _ H vars m F. apply params_decided. cbn [eval_params]. cbn [map In] in I0.
    destruct I0 as [<-|[<-|[]]]; (apply (runs_ext vars _ (fun g p s => range_def V (EV g) p m args s)); [reflexivity|exact (H vars m F)]).
  - (* comparisons *)
    intros p k e w args I0 _ H vars m F. apply params_decided. cbn [eval_params]. cbn [map In] in I0.
    apply (runs_ext vars _ (fun g p s => range_def V (EV g) p m ((k, VStr e w) :: args) s)); [|exact (H vars m F)].
    intros g q s E. repeat (destruct I0 as [<-|I0]; [reflexivity|]). destruct I0.
  - (* prefix, suffix, setvar *)
    intros p k e w args I0 _ H vars m F. apply params_decided. cbn [eval_params]. cbn [map In] in I0.
    destruct I0 as [<-|[<-|[<-|[]]]].
    + apply (runs_ext vars _ _ (fun g q s _ => eq_refl)). apply (prefix_case p vars m); [exact H|exact F].
    + apply (runs_ext vars _ _ (fun g q s _ => eq_refl)). apply (suffix_case p vars m); [exact H|exact F].
    + apply (runs_ext vars _ _ (fun g q s _ => eq_refl)). apply (setvar_case p vars m); [exact H|exact F].
  - (* emit *)
    intros p k e args _ H vars m F. apply params_decided. cbn [eval_params].
    apply (runs_ext vars _ _ (fun g q s _ => eq_refl)). apply (emit_case p vars m); [exact H|exact F].
  - (* split, explode, usevar *)
    intros p k e w args I0 _ H vars m F. apply params_decided. cbn [eval_params]. cbn [map In] in I0.
    destruct I0 as [<-|[<-|[<-|[]]]].
    + apply (runs_ext vars _ _ (fun g q s _ => eq_refl)). apply (split_case vars m); exact H.
    + apply (runs_ext vars _ _ (fun g q s _ => eq_refl)). apply (explode_case vars m); exact H.
    + apply (runs_ext vars _ _ (fun g q s _ => eq_refl)). apply (usevar_case vars m); exact H.
  - (* plain *)
    intros p args Pl _ H vars m F. apply params_decided.
    assert (A : runs vars (fun g p s => alternatives (EV g) p m args s)) by (apply (alternatives_case p vars m); auto).
    destruct args as [|[k v] args]; [destruct Pl|]. cbn [eval_params]. destruct v as [| | | |e w|l|]; try exact A.
    + destruct (defined (snd (find_var vars m w))) eqn:D.
      * apply (runs_ext vars _ (fun g p s => VDone (veq (v_L V) (snd m) (snd (get_var V vars m ([], VArr ((k, VStr e w) :: args))))) s)); [|apply runs_done].
        intros g q s E. rewrite <- E. apply token_var; [exact Pl|]. rewrite E. exact D.
      * apply (runs_ext vars _ _ (fun g q s E => token_plain V (EV g) q m w _ s Pl ltac:(rewrite E; destruct (snd (find_var vars m w)); [reflexivity|discriminate..]))), A.
    + destruct l as [|[k' u] l]; [destruct Pl|]. destruct u; try exact A. destruct l; [destruct Pl|exact A].
  - intros p vars m F. apply runs_done.
  - intros p k e w args _ H vars m F. apply (runs_ext vars _ _ (fun g q s _ => eq_refl)). exact (H vars m F).
  - intros p k e w x args I0 _ H vars m F. apply (range_op p k e w (x :: args) x vars m I0 eq_refl); [exact H|exact F].
  - intros p k e w I0 vars m F. apply (range_op p k e w [] ([], VUndef) vars m I0 eq_refl); [|exact F]. intros vars' m' F'. apply runs_done.
  - intros p x args Pl _ Px _ H. apply range_rule; assumption.
Qed.
End Step.

(** Every class, by rank and weight. *)
Lemma class_ends : forall M W n vars m w, rank w = (M, n) -> (weight (snd m) <= W)%nat -> decided V vars m (value_member (v_def V) w).
Proof.
  induction M as [M IHM] using lt_wf_ind. induction W as [W IHW] using lt_wf_ind. induction n as [n IHn] using lt_wf_ind.
  intros vars m w R L. pose proof (Def w) as D. rewrite R in D.
  apply (proj1 (sound_step M W n
    (fun vars m w H => IHM (fst (rank w)) H (weight (snd m)) (snd (rank w)) vars m w (surjective_pairing _) (le_n _))
    (fun vars m w E H => IHW (weight (snd m)) H (snd (rank w)) vars m w
       (eq_trans (surjective_pairing _) (f_equal (fun x => (x, snd (rank w))) E)) (le_n _))
    (fun vars m w E H L => IHn (snd (rank w)) H vars m w
       (eq_trans (surjective_pairing _) (f_equal (fun x => (x, snd (rank w))) E)) L)) Same); [exact D|exact L].
Qed.
Theorem sound_ends : forall vars m w, decided V vars m (value_member (v_def V) w).
Proof. intros vars m w. destruct (rank w) as [M n] eqn:R. exact (class_ends M (weight (snd m)) n vars m w R (le_n _)). Qed.
Theorem sound_rule_ends : forall vars m c p r, sound (v_def V) rank c p r -> decided V vars m r.
Proof.
  intros vars m [M n] p r H.
  apply (proj1 (sound_step M (S (weight (snd m))) n (fun vars m w _ => sound_ends vars m w) (fun vars m w _ _ => sound_ends vars m w)
    (fun vars m w _ _ _ => sound_ends vars m w)) p r H). destruct p; cbn; lia.
Qed.
Theorem sound_validates : forall m w p s, exists f b, forall g, (f <= g)%nat -> exists t, validate V g m w p s = VDone b t.
Proof.
  intros m w p s. unfold validate. destruct (defined _ && negb _); [exists O, false; intros g _; eexists; reflexivity|].
  destruct (runs_rule V (vs_vars s) m _ (sound_ends (vs_vars s) m w)) as (f & b & H). exists f, b. intros g L.
  destruct (H g p (clear_results s) L eq_refl) as (t & T & _). exists t. exact T.
Qed.
End Main.
