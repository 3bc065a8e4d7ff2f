(** Alternatives, not, all, comparisons and sizes. *)
From Coq Require Import String Ascii Lia.
From Verif Require Import Base ModelKeyed SpecKeyed ProofKeyed ModelValue ModelText ModelObject ModelArray ModelEq ModelBin
  ModelUtf8 ModelJwt ModelString ModelPath ModelRpc ModelNumView ModelDate ModelValidator SpecValidator ProofValidator ProofValidator2.
Local Open Scope Z_scope.
Local Open Scope list_scope.

(** *** Words *)
Lemma lookup_undef : forall vars w, match binding w vars with Some v => v = VUndef | None => True end ->
  snd (lookup_var vars w) = VUndef.
Proof.
  induction vars as [|[k v] vars IH]; intros w H; [reflexivity|]. cbn in *. destruct (beqb k w); [exact H|apply IH; exact H].
Qed.
Lemma find_undef : forall vars m w, (w = txt "$this" -> snd m = VUndef) ->
  match binding w vars with Some v => v = VUndef | None => True end -> snd (find_var vars m w) = VUndef.
Proof.
  intros vars m w A B. unfold find_var. destruct (beqb w (txt "$this")) eqn:E; [apply A, beqb_eq; exact E|apply lookup_undef; exact B].
Qed.

Lemma token_plain : forall V ev p m w args s, ~ In w keywords -> snd (find_var (vs_vars s) m w) = VUndef ->
  eval_token V ev p m w args s = alternatives ev p m args s.
Proof.
  intros V ev p m w args s N U.
  assert (H : forall k, In k keywords -> beqb w k = false).
  { intros k K. apply beqb_neq. intros ->. exact (N K). }
  unfold eval_token.
  rewrite !H by (unfold keywords; apply in_map; cbn [In]; tauto). cbn [orb]. rewrite U. reflexivity.
Qed.

Lemma plain_step : forall V ev p m args s, plain_list (vs_vars s) m args ->
  rule_step V ev p m (VArr args) s = close_rule V p (VArr args) (length (vs_rej s)) (alternatives ev p m args s).
Proof.
  intros V ev p m args s H. unfold rule_step, eval_params. destruct args as [|[k v] args]; [destruct H|].
  cbn in H. destruct v; try reflexivity.
  - rewrite token_plain; [reflexivity|apply H|]. apply find_undef; apply H.
  - destruct l as [|[k' w] l]; [destruct H|]. destruct w; try reflexivity. destruct l; [destruct H|reflexivity].
Qed.

Lemma plain_ends : forall V vars m args, plain_list vars m args ->
  (accepts V vars m (VArr args) <-> exists pre x post, args = pre ++ x :: post /\
     Forall (fun y => rejects V vars m (snd y)) pre /\ accepts V vars m (snd x)) /\
  (rejects V vars m (VArr args) <-> Forall (fun y => rejects V vars m (snd y)) args).
Proof.
  intros V vars m args H. apply ends_alternatives. intros g p s E b. rewrite plain_step by (rewrite E; exact H). apply close_is.
Qed.

(** *** not *)
Lemma not_ends : forall V vars m k e w args, In w (map txt ["not"; "!"]%string) ->
  (accepts V vars m (VArr ((k, VStr e w) :: args)) <-> Forall (fun y => rejects V vars m (snd y)) args) /\
  (rejects V vars m (VArr ((k, VStr e w) :: args)) <-> exists pre x post, args = pre ++ x :: post /\
     Forall (fun y => rejects V vars m (snd y)) pre /\ accepts V vars m (snd x)).
Proof.
  intros V vars m k e w args W.
  assert (St : forall ev p s b, out_is (rule_step V ev p m (VArr ((k, VStr e w) :: args)) s) b <->
            out_is (alternatives ev p m args s) (negb b)).
  { intros ev p s b.
    assert (E : rule_step V ev p m (VArr ((k, VStr e w) :: args)) s =
      close_rule V p (VArr ((k, VStr e w) :: args)) (length (vs_rej s)) (vbind (alternatives ev p m args s) (fun b s => VDone (negb b) s))).
    { cbn in W. destruct W as [<-|[<-|[]]]; reflexivity. }
    rewrite E, close_is. destruct (alternatives ev p m args s) as [c t|t| |]; cbn [vbind];
      try (split; intros (u & U); discriminate).
    rewrite !done_is. destruct b, c; cbn; split; congruence. }
  unfold accepts, rejects. split; rewrite ends_step; split.
  - intros (f & A). specialize (A f (le_n f) [] (st0 vars) eq_refl). apply St in A. cbn [negb] in A.
    apply (alternatives_false V vars f m) in A; [|reflexivity]. exact (ends_list _ _ _ _ _ _ A).
  - intros A. apply says_list in A as (f & A). exists f. intros g Lg p s E. apply St. cbn [negb].
    apply (alternatives_false V vars g m); [exact E|]. apply A. exact Lg.
  - intros (f & A). specialize (A f (le_n f) [] (st0 vars) eq_refl). apply St in A. cbn [negb] in A.
    apply (alternatives_true V vars f m) in A as (pre & x & post & -> & A & B); [|reflexivity].
    exists pre, x, post. split; [reflexivity|]. split; [exact (ends_list _ _ _ _ _ _ A)|]. apply ends_verdict. exists f. exact B.
  - intros (pre & x & post & -> & A & B). apply says_list in A as (f1 & A). apply ends_all in B as (f2 & B).
    exists (Nat.max f1 f2). intros g Lg p s E. apply St. cbn [negb]. apply (alternatives_true V vars g m); [exact E|].
    exists pre, x, post. split; [reflexivity|]. split; [apply A; lia|apply B; lia].
Qed.

(** *** Comparisons *)
Lemma is_less_spec : forall V a b, is_less V a b = true <-> value_less (v_L V) a b.
Proof.
  intros V a b. split.
  - intros H. destruct a, b; try discriminate.
    + destruct b0, b; try discriminate. constructor.
    + unfold is_less in H.
      assert (D : forall x y, n = x -> n0 = y -> is_sint x && is_sint y = false -> is_uint x && is_uint y = false ->
                 f_lt (get_number (v_L V) x) (get_number (v_L V) y) = true -> value_less (v_L V) (VNum n) (VNum n0)).
      { intros x y -> -> Sg Un F. apply VL_dbl; [| |exact F].
        - destruct x as [| | |? []], y as [| | |? []]; cbn in *; auto; discriminate.
        - destruct x as [| | |? []], y as [| | |? []]; cbn in *; auto; discriminate. }
      destruct (is_sint n && is_sint n0) eqn:Sg.
      { destruct n as [|i| |t [|?|i]]; cbn in Sg; try discriminate; destruct n0 as [|j| |t' [|?|j]]; cbn in Sg; try discriminate;
          cbn in H; apply Z.ltb_lt in H; eapply VL_int; cbn; eauto. }
      destruct (is_uint n && is_uint n0) eqn:Un.
      { destruct n as [i| | |t [|i|?]]; cbn in Un; try discriminate; destruct n0 as [j| | |t' [|j|?]]; cbn in Un; try discriminate;
          cbn in H; apply Z.ltb_lt in H; eapply VL_uint; cbn; eauto. }
      apply (D n n0 eq_refl eq_refl Sg Un). destruct (num_s64 (v_L V) n), (num_s64 (v_L V) n0), (num_u64 (v_L V) n), (num_u64 (v_L V) n0); exact H.
    + cbn in H. constructor. unfold klt. destruct (kcmp s s0); congruence.
  - intros H. destruct H as [a b i j A B C|a b i j A B C|a b A B C|e s e' t K|].
    + destruct a as [|i0| |? [|?|i0]]; cbn in A; try discriminate; injection A as ->;
        destruct b as [|j0| |? [|?|j0]]; cbn in B; try discriminate; injection B as ->; cbn; apply Z.ltb_lt; exact C.
    + destruct a as [i0| | |? [|i0|?]]; cbn in A; try discriminate; injection A as ->;
        destruct b as [j0| | |? [|j0|?]]; cbn in B; try discriminate; injection B as ->; cbn; apply Z.ltb_lt; exact C.
    + unfold is_less.
      assert (Sg : is_sint a && is_sint b = false).
      { destruct a as [| | |? []], b as [| | |? []]; cbn in *; try reflexivity; destruct A; discriminate. }
      assert (Un : is_uint a && is_uint b = false).
      { destruct a as [| | |? []], b as [| | |? []]; cbn in *; try reflexivity; destruct B; discriminate. }
      rewrite Sg, Un. destruct (num_s64 (v_L V) a), (num_s64 (v_L V) b), (num_u64 (v_L V) a), (num_u64 (v_L V) b); exact C.
    + cbn. rewrite K. reflexivity.
    + reflexivity.
Qed.
Lemma is_less_false : forall V a b, is_less V a b = false <-> ~ value_less (v_L V) a b.
Proof. intros V a b. rewrite <- is_less_spec. destruct (is_less V a b); split; congruence. Qed.
Lemma same_type_spec : forall a b, same_type a b = true <-> one_type b a.
Proof. intros a b. unfold same_type. destruct a, b; cbn; split; try discriminate; tauto. Qed.

Lemma range_test_spec : forall V op v q, In op ["<"; ">="; ">"; "<="]%string ->
  exists b, range_test V (txt op) v q = Some b /\ (b = true <-> satisfies (v_L V) v q op).
Proof.
  intros V op v q H. cbn in H.
  destruct H as [<-|[<-|[<-|[<-|[]]]]]; eexists; (split; [reflexivity|]); rewrite andb_true_iff, same_type_spec;
    rewrite ?negb_true_iff, ?is_less_spec, ?is_less_false; split;
    solve [intros (A & B); constructor; assumption | intros A; inversion A; subst; split; assumption].
Qed.
Lemma range_test_none : forall V w v q, ~ In w (map txt [">"; ">="; "<"; "<="]%string) -> range_test V w v q = None.
Proof.
  intros V w v q N. unfold range_test.
  assert (H : forall k, In k (map txt [">"; ">="; "<"; "<="]%string) -> beqb w k = false).
  { intros k K. apply beqb_neq. intros ->. exact (N K). }
  rewrite !H by (apply in_map; cbn [In]; tauto). reflexivity.
Qed.
Lemma satisfies_op : forall L v q op, satisfies L v q op -> In op ["<"; ">="; ">"; "<="]%string.
Proof. intros L v q op H. destruct H; cbn; auto. Qed.
Lemma op_not_comment : forall op, In op ["<"; ">="; ">"; "<="]%string -> is_comment (txt op) = false.
Proof. intros op H. cbn in H. destruct H as [<-|[<-|[<-|[<-|[]]]]]; reflexivity. Qed.

Ltac ops := match goal with Hs : satisfies _ _ _ _ |- _ => apply satisfies_op in Hs; cbn in Hs; destruct Hs as [<-|[<-|[<-|[<-|[]]]]] end.
Ltac com := match goal with Q : 35 :: _ = txt ?o, C : is_comment (txt ?o) = false |- _ => rewrite <- Q in C; discriminate C end.
Section All.
Variables (V : venv) (vars : list member) (m : member).
(** [all_hold] with a bound. *)
Inductive hold_at (g : nat) : list member -> Prop :=
| HA_nil : hold_at g []
| HA_comment : forall k e w rest, hold_at g rest -> hold_at g ((k, VStr e (35 :: w)) :: rest)
| HA_compare : forall k e op q rest, satisfies (v_L V) (snd m) (snd (get_var V vars m q)) op ->
    hold_at g rest -> hold_at g ((k, VStr e (txt op)) :: q :: rest)
| HA_compare_end : forall k e op, satisfies (v_L V) (snd m) VUndef op -> hold_at g [(k, VStr e (txt op))]
| HA_rule : forall k r rest, plain_rule r -> verdict V vars g m r true -> hold_at g rest -> hold_at g ((k, r) :: rest).

Lemma hold_at_le : forall f g l, (f <= g)%nat -> hold_at f l -> hold_at g l.
Proof.
  intros f g l Lg H. induction H; try (constructor; assumption).
  apply HA_rule; [assumption| |assumption]. exact (verdict_le _ _ _ _ _ _ _ Lg H0).
Qed.
Lemma all_hold_at : forall l, all_hold V vars m l <-> exists g, hold_at g l.
Proof.
  intros l. split.
  - intros H. induction H as [|k e w rest _ (g & IH)|k e op q rest Sa _ (g & IH)|k e op Sa|k r rest P A _ (g & IH)].
    + exists 0%nat. constructor.
    + exists g. constructor. exact IH.
    + exists g. constructor; assumption.
    + exists 0%nat. constructor. exact Sa.
    + apply ends_all in A as (f & A). exists (Nat.max f g). apply HA_rule; [exact P|apply A; lia|]. apply (hold_at_le g); [lia|exact IH].
  - intros (g & H). induction H; try (constructor; assumption).
    apply AH_rule; [assumption| |assumption]. apply ends_verdict. exists g. assumption.
Qed.

Lemma get_var_undef : forall vs k, get_var V vs m (k, VUndef) = (k, VUndef).
Proof. reflexivity. Qed.

Lemma range_true : forall g n rules p s, (length rules <= n)%nat -> vs_vars s = vars ->
  (out_is (range_def V (eval_rule V g) p m rules s) true <-> hold_at g rules).
Proof.
  intros g. induction n as [|n IH]; intros rules p s N E; destruct rules as [|[k r] rules]; cbn [length] in N; try lia.
  - cbn. rewrite done_is. split; [constructor|reflexivity].
  - cbn. rewrite done_is. split; [constructor|reflexivity].
  - assert (Oth : out_is (vbind (eval_rule V g p m r s) (fun b s => if b then range_def V (eval_rule V g) p m rules s else VDone false s)) true
                  <-> verdict V vars g m r true /\ hold_at g rules).
    { rewrite (bind_is V vars g m p r s _ true E). split.
      - intros (c & t & H & E' & Vd & U). destruct c; [|apply done_is in U; discriminate]. split; [exact Vd|]. apply (IH rules p t); [lia|exact E'|exact U].
      - intros (Vd & H). destruct (Vd p s E) as (t & T). pose proof (eval_kept V g p m r s) as K. rewrite T in K.
        assert (E' : vs_vars t = vars) by (destruct K; congruence).
        exists true, t. split; [exact T|]. split; [exact E'|]. split; [exact Vd|]. apply (IH rules p t); [lia|exact E'|exact H]. }
    cbn [range_def snd].
    assert (Pl : plain_rule r -> (verdict V vars g m r true /\ hold_at g rules <-> hold_at g ((k, r) :: rules))).
    { intros P. split; [intros (A & B); apply HA_rule; assumption|]. intros H. inversion H; subst.
      - exfalso. cbn in P. destruct P as (_ & P). exact (P w eq_refl).
      - exfalso. cbn in P. destruct P as (P & _). apply P. ops; cbn; auto.
      - exfalso. cbn in P. destruct P as (P & _). apply P. ops; cbn; auto.
      - split; assumption. }
    destruct r as [| | | |e w| |]; try (rewrite Oth; apply Pl; exact I).
    destruct (is_comment w) eqn:C.
    { destruct w as [|c w]; [discriminate|]. cbn in C. apply Z.eqb_eq in C. subst c. rewrite (IH rules p s ltac:(lia) E).
      split; [apply HA_comment|]. intros H. inversion H; subst.
      - assumption.
      - exfalso. ops; discriminate.
      - exfalso. ops; discriminate.
      - exfalso. match goal with P : plain_rule _ |- _ => destruct P as (_ & P); exact (P w eq_refl) end. }
    destruct (in_dec (list_eq_dec Z.eq_dec) w (map txt [">"; ">="; "<"; "<="]%string)) as [I|NI].
    + assert (exists op, w = txt op /\ In op ["<"; ">="; ">"; "<="]%string) as (op & -> & Op).
      { apply in_map_iff in I as (op & <- & I). exists op. split; [reflexivity|]. cbn in *. tauto. }
      assert (NP : plain_rule (VStr e (txt op)) -> False) by (intros (A & _); exact (A I)).
      assert (Inj : forall op', In op' ["<"; ">="; ">"; "<="]%string -> txt op' = txt op -> op' = op).
      { intros op' Op' Q. cbn in Op, Op'. destruct Op as [<-|[<-|[<-|[<-|[]]]]], Op' as [<-|[<-|[<-|[<-|[]]]]]; try reflexivity; discriminate. }
      rewrite E.
      set (q := match rules with q :: _ => q | [] => ([], VUndef) end).
      destruct (range_test_spec V op (snd m) (snd (get_var V vars m q)) Op) as (b & R & Sp).
      rewrite R. destruct b.
      * destruct rules as [|q' rules].
        -- rewrite done_is. split; [|reflexivity]. intros _. apply HA_compare_end. apply Sp. reflexivity.
        -- rewrite (IH rules p s); [|cbn [length] in N; lia|exact E]. split.
           ++ intros H. apply HA_compare; [apply Sp; reflexivity|exact H].
           ++ intros H. inversion H; subst; [exfalso; com|assumption|exfalso; apply NP; assumption].
      * rewrite done_is. split; [discriminate|]. intros H. exfalso. assert (satisfies (v_L V) (snd m) (snd (get_var V vars m q)) op); [|apply Sp in H0; discriminate].
        inversion H; subst.
        -- exfalso. com.
        -- match goal with Q : txt ?o = txt op |- _ => assert (o = op) by (apply Inj; [eapply satisfies_op; eassumption|exact Q]); subst o end. assumption.
        -- match goal with Q : txt ?o = txt op |- _ => assert (o = op) by (apply Inj; [eapply satisfies_op; eassumption|exact Q]); subst o end. assumption.
        -- exfalso. apply NP. assumption.
    + rewrite range_test_none by exact NI. rewrite Oth. apply Pl. split; [exact NI|]. intros w' ->. discriminate.
Qed.
End All.

Lemma all_ends : forall V vars m k e w args, In w (map txt ["all"; "^"]%string) ->
  (accepts V vars m (VArr ((k, VStr e w) :: args)) <-> all_hold V vars m args).
Proof.
  intros V vars m k e w args W. rewrite all_hold_at. unfold accepts. rewrite ends_step.
  assert (St : forall ev p s b, out_is (rule_step V ev p m (VArr ((k, VStr e w) :: args)) s) b <->
            out_is (range_def V ev p m args s) b).
  { intros ev p s b.
    assert (E : rule_step V ev p m (VArr ((k, VStr e w) :: args)) s =
      close_rule V p (VArr ((k, VStr e w) :: args)) (length (vs_rej s)) (range_def V ev p m args s)).
    { cbn in W. destruct W as [<-|[<-|[]]]; reflexivity. }
    rewrite E. apply close_is. }
  split.
  - intros (f & A). exists f. specialize (A f (le_n f) [] (st0 vars) eq_refl). apply St in A.
    apply (range_true V vars m f (length args)) in A; [exact A|apply le_n|reflexivity].
  - intros (f & A). exists f. intros g Lg p s E. apply St. apply (range_true V vars m g (length args)); [apply le_n|exact E|].
    exact (hold_at_le _ _ _ _ _ _ Lg A).
Qed.
Lemma range_ends : forall V vars m k e op args, In op ["<"; ">="; ">"; "<="]%string ->
  (accepts V vars m (VArr ((k, VStr e (txt op)) :: args)) <-> all_hold V vars m ((k, VStr e (txt op)) :: args)).
Proof.
  intros V vars m k e op args W. rewrite all_hold_at. unfold accepts. rewrite ends_step.
  assert (St : forall ev p s b, out_is (rule_step V ev p m (VArr ((k, VStr e (txt op)) :: args)) s) b <->
            out_is (range_def V ev p m ((k, VStr e (txt op)) :: args) s) b).
  { intros ev p s b.
    assert (E : rule_step V ev p m (VArr ((k, VStr e (txt op)) :: args)) s =
      close_rule V p (VArr ((k, VStr e (txt op)) :: args)) (length (vs_rej s)) (range_def V ev p m ((k, VStr e (txt op)) :: args) s)).
    { cbn in W. destruct W as [<-|[<-|[<-|[<-|[]]]]]; reflexivity. }
    rewrite E. apply close_is. }
  split.
  - intros (f & A). exists f. specialize (A f (le_n f) [] (st0 vars) eq_refl). apply St in A.
    apply (range_true V vars m f (S (length args))) in A; [exact A|apply le_n|reflexivity].
  - intros (f & A). exists f. intros g Lg p s E. apply St. apply (range_true V vars m g (S (length args))); [apply le_n|exact E|].
    exact (hold_at_le _ _ _ _ _ _ Lg A).
Qed.
