(** Simple rules, sizes, dates, arrays. *)
From Coq Require Import String Ascii Lia ZifyBool.
From Verif Require Import Base ModelKeyed SpecKeyed ProofKeyed ModelValue ModelText ModelObject ModelArray ModelEq ModelBin
  ModelUtf8 ModelJwt ModelString ModelPath ModelRpc ModelNumView ModelDate ModelValidator SpecValidator ProofValidator ProofValidator2
  SpecDate ProofDate.
Local Open Scope Z_scope.
Local Open Scope list_scope.
Ltac Zify.zify_post_hook ::= Z.div_mod_to_equations.

(** *** Rules that evaluate nothing *)
Lemma const_ends : forall V vars m r b,
  (forall ev p s, vs_vars s = vars -> out_is (rule_step V ev p m r s) b) -> forall c, ends V vars m r c <-> b = c.
Proof.
  intros V vars m r b H c.
  assert (A : ends V vars m r b) by (rewrite ends_step; exists O; intros g _ p s E; apply H; exact E).
  split; [intros B; exact (ends_fun _ _ _ _ _ _ A B)|intros <-; exact A].
Qed.
Lemma simple_ends : forall V vars m e w b, simple_rule V (snd m) w = SVerdict b -> forall c, ends V vars m (VStr e w) c <-> b = c.
Proof.
  intros V vars m e w b H. apply const_ends. intros ev p s E. unfold rule_step. apply close_is. unfold eval_simple. rewrite H.
  apply done_is. reflexivity.
Qed.
Lemma verdict_iff : forall V vars m r (b : bool) (P : Prop), (forall c, ends V vars m r c <-> b = c) -> (b = true <-> P) ->
  (accepts V vars m r <-> P) /\ (rejects V vars m r <-> ~ P).
Proof.
  intros V vars m r b P H Q. unfold accepts, rejects. rewrite !H, Q. split; [reflexivity|]. destruct b; intuition congruence.
Qed.

(** *** Dates *)
Lemma text_rule : forall V vars k v s e' w f (P : Prop), to_string (v_E V) (v_utf8 V) v = Some s ->
  simple_rule V v w = on_text V v f -> (f s = true <-> P) ->
  (accepts V vars (k, v) (VStr e' w) <-> P) /\ (rejects V vars (k, v) (VStr e' w) <-> ~ P).
Proof.
  intros V vars k v s e' w f P T H Q. apply (verdict_iff V vars _ _ (f s)); [|exact Q]. apply simple_ends. cbn [snd].
  rewrite H. unfold on_text. rewrite T. reflexivity.
Qed.
Lemma short_named : forall f, In f (map txt ["YYYY-MM-DDThh:mm:ssZ"; "YYYY-MM-DD"; "hh:mm:ss"; "hh:mm:ssZ"]%string) ->
  short_fields f /\ ~ In 111 f.
Proof.
  intros f I. split.
  - intros l. assert (A : forall g, (forall x, In x g -> count_occ Z.eq_dec g x <= 9)%nat -> (count_occ Z.eq_dec g l <= 9)%nat).
    { intros g H. destruct (in_dec Z.eq_dec l g) as [J|J]; [apply H; exact J|]. apply (count_occ_not_In Z.eq_dec) in J. rewrite J. lia. }
    apply A. apply Forall_forall. cbn in I. repeat (destruct I as [<-|I]; [repeat constructor|]); destruct I.
  - cbn in I. repeat (destruct I as [<-|I]; [cbn; intuition discriminate|]); destruct I.
Qed.
Section Dates.
Variables (V : venv) (vars : list member) (k : bytes) (v : value) (e' : option enc) (s : bytes).
Hypothesis T : to_string (v_E V) (v_utf8 V) v = Some s.
Lemma date_rule :
  let P := exists y m d, 1000 <= y <= 9999 /\ calendar_date y m d /\ s = date_text y m d in
  (accepts V vars (k, v) (VStr e' (txt "date")) <-> P) /\ (rejects V vars (k, v) (VStr e' (txt "date")) <-> ~ P).
Proof.
  intros P. apply (text_rule V vars k v s e' _ (check_date_time (txt "YYYY-MM-DD"))); [exact T|reflexivity|].
  destruct (short_named (txt "YYYY-MM-DD")) as (A & B); [cbn; tauto|]. rewrite check_date_spec by assumption. apply date_form.
Qed.
Lemma time_rule :
  let P := exists h m c, time_of_day h m c /\ s = time_text h m c in
  (accepts V vars (k, v) (VStr e' (txt "time")) <-> P) /\ (rejects V vars (k, v) (VStr e' (txt "time")) <-> ~ P).
Proof.
  intros P. apply (text_rule V vars k v s e' _ (check_date_time (txt "hh:mm:ss"))); [exact T|reflexivity|].
  destruct (short_named (txt "hh:mm:ss")) as (A & B); [cbn; tauto|]. rewrite check_date_spec by assumption. apply time_form.
Qed.
Lemma timez_rule :
  let P := exists h m c, time_of_day h m c /\ s = time_text h m c ++ txt "Z" in
  (accepts V vars (k, v) (VStr e' (txt "timez")) <-> P) /\ (rejects V vars (k, v) (VStr e' (txt "timez")) <-> ~ P).
Proof.
  intros P. apply (text_rule V vars k v s e' _ (check_date_time (txt "hh:mm:ssZ"))); [exact T|reflexivity|].
  destruct (short_named (txt "hh:mm:ssZ")) as (A & B); [cbn; tauto|]. rewrite check_date_spec by assumption. apply timez_form.
Qed.
Lemma datetime_rule : forall w, In w (map txt ["datetime"; "datetimez"]%string) ->
  let P := exists y mo d h mi c, 1000 <= y <= 9999 /\ calendar_date y mo d /\ time_of_day h mi c /\
    s = date_text y mo d ++ txt "T" ++ time_text h mi c ++ txt "Z" in
  (accepts V vars (k, v) (VStr e' w) <-> P) /\ (rejects V vars (k, v) (VStr e' w) <-> ~ P).
Proof.
  intros w W P. apply (text_rule V vars k v s e' _ (check_date_time (txt "YYYY-MM-DDThh:mm:ssZ"))); [exact T|cbn in W; destruct W as [<-|[<-|[]]]; reflexivity|].
  destruct (short_named (txt "YYYY-MM-DDThh:mm:ssZ")) as (A & B); [cbn; tauto|]. rewrite check_date_spec by assumption. apply datetime_form.
Qed.
(** ["datetime", format] *)
Lemma format_ends : forall k1 e1 k2 e2 f post b,
  ends V vars (k, v) (VArr ((k1, VStr e1 (txt "datetime")) :: (k2, VStr e2 f) :: post)) b <-> check_date_time f s = b.
Proof.
  intros k1 e1 k2 e2 f post. apply const_ends. intros ev p t E.
  match goal with |- out_is (rule_step V ev p ?m ?r t) _ =>
    assert (Q : rule_step V ev p m r t = close_rule V p r (length (vs_rej t))
      (match to_string (v_E V) (v_utf8 V) v with Some x => VDone (check_date_time f x) t | None => VThrow t end)) by reflexivity end.
  rewrite Q, T. apply close_is, done_is. reflexivity.
Qed.
Lemma format_rule : forall k1 e1 k2 e2 f post, short_fields f -> ~ In 111 f ->
  let r := VArr ((k1, VStr e1 (txt "datetime")) :: (k2, VStr e2 f) :: post) in
  (accepts V vars (k, v) r <-> denotes_time f s) /\ (rejects V vars (k, v) r <-> ~ denotes_time f s).
Proof.
  intros k1 e1 k2 e2 f post Sh No r. apply (verdict_iff V vars _ _ (check_date_time f s)); [apply format_ends|].
  apply check_date_spec; assumption.
Qed.
End Dates.
Lemma Forall2_length : forall A B (R : A -> B -> Prop) l l', Forall2 R l l' -> List.length l = List.length l'.
Proof. intros A B R l l' H. induction H; cbn; congruence. Qed.
Lemma format_offset : forall V vars k s k1 e1 k2 e2 f post, ~ In 79 f -> ~ In 111 f ->
  let rule f := VArr ((k1, VStr e1 (txt "datetime")) :: (k2, VStr e2 f) :: post) in
  (accepts V vars (k, VStr None s) (rule (f ++ offset_format)) <->
   exists t sg o2 m1 m2, accepts V vars (k, VStr None t) (rule f) /\ (sg = 43 \/ sg = 45) /\ 48 <= o2 <= 53 /\ digit m1 /\ digit m2 /\
     s = t ++ [sg; 48; o2; 58; m1; m2]).
Proof.
  intros V vars k s k1 e1 k2 e2 f post N1 N2 rule. unfold rule, accepts. rewrite (format_ends _ _ _ _ s) by reflexivity. split.
  - intros H.
    assert (Le : List.length s = (List.length f + 6)%nat).
    { unfold check_date_time in H. destruct (date_scan _ _ _) as [g|] eqn:E; [|discriminate]. apply date_scan_some in E as (E & _).
      apply Forall2_length in E. rewrite app_length in E. cbn in E. lia. }
    rewrite <- (firstn_skipn (List.length f) s) in H. apply offset_check in H as (A & sg & o2 & m1 & m2 & B1 & B2 & B3 & B4 & B5);
      [|rewrite firstn_length; lia|assumption|assumption].
    exists (firstn (List.length f) s), sg, o2, m1, m2. split; [apply (format_ends _ _ _ _ (firstn (List.length f) s)); [reflexivity|exact A]|].
    split; [assumption|]. split; [assumption|]. split; [assumption|]. split; [assumption|]. rewrite <- B5. symmetry. apply firstn_skipn.
  - intros (t & sg & o2 & m1 & m2 & A & B1 & B2 & B3 & B4 & ->). apply (format_ends _ _ _ _ t) in A; [|reflexivity].
    apply offset_check; [|assumption|assumption|split; [exact A|exists sg, o2, m1, m2; auto]].
    unfold check_date_time in A. destruct (date_scan f t df_init) as [g|] eqn:E; [|discriminate]. apply date_scan_some in E as (E & _).
    apply Forall2_length in E. exact E.
Qed.

(** *** Sizes *)
Lemma size_of_spec : forall v n, size_of v = Some n <-> has_size v n.
Proof.
  intros v n. split.
  - intros H. destruct v; try discriminate; injection H as <-; [apply HS_str|apply HS_arr|apply HS_obj].
  - intros []; reflexivity.
Qed.
Lemma size_iff : forall v (P : Z -> bool), (match size_of v with Some n => P n | None => true end) = true <-> (forall n, has_size v n -> P n = true).
Proof.
  intros v P. split.
  - intros H n S. apply size_of_spec in S. rewrite S in H. exact H.
  - intros H. destruct (size_of v) as [n|] eqn:E; [|reflexivity]. apply H, size_of_spec. exact E.
Qed.
Lemma minsize_rule : forall V vars m k1 e1 k2 z post,
  let r := VArr ((k1, VStr e1 (txt "minsize")) :: (k2, VNum (NUInt z)) :: post) in
  let P := forall n, has_size (snd m) n -> z <= n in
  (accepts V vars m r <-> P) /\ (rejects V vars m r <-> ~ P).
Proof.
  intros V vars m k1 e1 k2 z post r P. apply (verdict_iff V vars m r (check_min_size (snd m) z)).
  - apply const_ends. intros ev p t E.
    assert (Q : rule_step V ev p m r t = close_rule V p r (length (vs_rej t)) (VDone (check_min_size (snd m) z) t)) by reflexivity.
    rewrite Q. apply close_is, done_is. reflexivity.
  - unfold check_min_size, P. rewrite size_iff. split; intros H n S; specialize (H n S); lia.
Qed.
Lemma maxsize_rule : forall V vars m k1 e1 k2 z post,
  let r := VArr ((k1, VStr e1 (txt "maxsize")) :: (k2, VNum (NUInt z)) :: post) in
  let P := forall n, has_size (snd m) n -> n <= z in
  (accepts V vars m r <-> P) /\ (rejects V vars m r <-> ~ P).
Proof.
  intros V vars m k1 e1 k2 z post r P. apply (verdict_iff V vars m r (check_max_size (snd m) z)).
  - apply const_ends. intros ev p t E.
    assert (Q : rule_step V ev p m r t = close_rule V p r (length (vs_rej t)) (VDone (check_max_size (snd m) z) t)) by reflexivity.
    rewrite Q. apply close_is, done_is. reflexivity.
  - unfold check_max_size, P. rewrite size_iff. split; intros H n S; specialize (H n S); lia.
Qed.

(** *** Arrays *)
Section Arrays.
Variables (V : venv) (vars : list member) (g : nat).

Lemma bind_true : forall s o k, vs_vars s = vars -> kept s o -> forall b,
  (out_is (vbind o k) b <-> exists c t, o = VDone c t /\ vs_vars t = vars /\ out_is (k c t) b).
Proof.
  intros s o k E K b. split.
  - destruct o as [c t|t| |]; cbn in *; try (intros (u & U); discriminate). intros H. exists c, t.
    split; [reflexivity|]. split; [destruct K; congruence|exact H].
  - intros (c & t & -> & _ & H). exact H.
Qed.

Lemma undef_never : forall m, ~ verdict V vars g m VUndef true.
Proof.
  intros m H. specialize (H [] (st0 vars) eq_refl). destruct g as [|f]; cbn [eval_rule] in H; [destruct H; discriminate|].
  unfold rule_step in H. apply close_is, done_is in H. discriminate.
Qed.

Lemma tuple_true : forall rules p v count i s, vs_vars s = vars -> 0 <= i ->
  (out_is (tuple_items (eval_rule V g) p v rules count i s) true <->
   forall k, i + Z.of_nat k < count -> verdict V vars g (item (members_of v) (Z.to_nat i + k)) (snd (item rules k)) true).
Proof.
  induction rules as [|r rules IH]; intros p v count i s E I; cbn [tuple_items].
  - destruct (count <=? i) eqn:C.
    + rewrite done_is. split; [|reflexivity]. intros _ k K. lia.
    + unfold sub_index. rewrite (eval_says V vars g) by exact E. split.
      * intros H. destruct (undef_never _ H).
      * intros H. specialize (H O ltac:(lia)). destruct (undef_never _ H).
  - destruct (count <=? i) eqn:C.
    + rewrite done_is. split; [|reflexivity]. intros _ k K. lia.
    + unfold sub_index.
      assert (It : vitem v (Z.to_nat (Z.min i (Z.of_nat (vsize v)))) = item (members_of v) (Z.to_nat i)).
      { unfold vitem, item, vsize. destruct (Z_lt_le_dec i (Z.of_nat (length (members_of v)))).
        - rewrite Z.min_l by lia. reflexivity.
        - rewrite Z.min_r by lia. rewrite Nat2Z.id, !nth_overflow; [reflexivity|lia|lia]. }
      rewrite It, (bind_is V vars g _ _ _ _ _ _ E). split.
      * intros (c & t & H & E' & Vd & U). destruct c; [|apply done_is in U; discriminate].
        apply (IH p v count (i + 1) t E' ltac:(lia)) in U || idtac. rewrite (IH p v count (i + 1) t E' ltac:(lia)) in U || idtac.
        intros [|k] K; [rewrite Nat.add_0_r; exact Vd|]. specialize (U k ltac:(lia)).
        replace (Z.to_nat i + S k)%nat with (Z.to_nat (i + 1) + k)%nat by lia. exact U.
      * intros H. pose proof (H O ltac:(lia)) as H0. rewrite Nat.add_0_r in H0. cbn [item nth] in H0.
        destruct (H0 (pindex (u32 i) :: p) s E) as (t & T). exists true, t.
        pose proof (eval_kept V g (pindex (u32 i) :: p) (item (members_of v) (Z.to_nat i)) (snd r) s) as K. change (snd (item (r :: rules) 0)) with (snd r) in T. rewrite T in K.
        assert (E' : vs_vars t = vars) by (destruct K; congruence).
        split; [exact T|]. split; [exact E'|]. split; [exact H0|]. apply (IH p v count (i + 1) t E' ltac:(lia)).
        intros k Lk. specialize (H (S k) ltac:(lia)). replace (Z.to_nat (i + 1) + k)%nat with (Z.to_nat i + S k)%nat by lia. exact H.
Qed.

Definition one_says (m : member) (rules : list member) : Prop :=
  exists pre x post, rules = pre ++ x :: post /\ Forall (fun y => verdict V vars g m (snd y) false) pre /\ verdict V vars g m (snd x) true.
Lemma rest_true : forall items p rule i o s, vs_vars s = vars ->
  (out_is (rest_items V (eval_rule V g) p items rule i o s) true <->
   Forall (fun x => one_says x (skipn o (members_of rule))) items).
Proof.
  induction items as [|x items IH]; intros p rule i o s E; cbn [rest_items].
  - rewrite done_is. split; [constructor|reflexivity].
  - assert (Kp : kept s (sub_alternatives V (eval_rule V g) p x rule i o s)).
    { unfold sub_alternatives. apply close_kept. apply alternatives_kept. intros p' m' r' s'. apply eval_kept. }
    rewrite (bind_true s _ _ E Kp true).
    assert (Al : forall b, out_is (sub_alternatives V (eval_rule V g) p x rule i o s) b <->
       out_is (alternatives (eval_rule V g) (pindex (u32 i) :: p) x (skipn o (members_of rule)) s) b) by (intros b; apply close_is).
    split.
    + intros (c & t & H & E' & U). destruct c; [|apply done_is in U; discriminate]. constructor.
      * apply (alternatives_true V vars g x _ (pindex (u32 i) :: p) s E). apply Al. rewrite H. exists t. reflexivity.
      * apply (IH p rule (i + 1) o t E'). exact U.
    + intros F. inversion_clear F as [|? ? F1 F2]. apply (alternatives_true V vars g x _ (pindex (u32 i) :: p) s E), Al in F1 as (t & T).
      exists true, t. rewrite T in Kp. assert (E' : vs_vars t = vars) by (destruct Kp; congruence).
      split; [exact T|]. split; [exact E'|]. apply (IH p rule (i + 1) o t E'). exact F2.
Qed.
End Arrays.

Lemma one_ends : forall V vars m rules, one_accepts V vars m rules <-> exists f, forall g, (f <= g)%nat -> one_says V vars g m rules.
Proof.
  intros V vars m rules. split.
  - intros (pre & x & post & -> & A & B). apply says_list in A as (f1 & A). apply ends_all in B as (f2 & B).
    exists (Nat.max f1 f2). intros g L. exists pre, x, post. split; [reflexivity|]. split; [apply A; lia|apply B; lia].
  - intros (f & H). destruct (H f (le_n f)) as (pre & x & post & -> & A & B). exists pre, x, post.
    split; [reflexivity|]. split; [exact (ends_list _ _ _ _ _ _ A)|]. apply ends_verdict. exists f. exact B.
Qed.
Lemma undef_rejects : forall V vars m, ~ accepts V vars m VUndef.
Proof. intros V vars m H. apply ends_verdict in H as (g & H). exact (undef_never _ _ _ _ H). Qed.

Lemma array_ends : forall V vars m r n rules,
  (forall ev p s, rule_step V ev p m r s = close_rule V p r (length (vs_rej s)) (eval_array V ev p m r (Z.of_nat n) s)) ->
  0 <= Z.of_nat n < 2 ^ 32 - 1 -> (exists x, members_of r = x :: rules) ->
  (accepts V vars m r <->
   exists l, snd m = VArr l /\
     (forall i, (i < n)%nat -> accepts V vars (item l i) (snd (item rules i))) /\
     (forall x, In x (skipn n l) -> one_accepts V vars x (skipn n rules))).
Proof.
  intros V vars m r n rules St Nn (x0 & Mr). unfold accepts. rewrite ends_step.
  assert (Off : skipn (Z.to_nat (Z.min (u32 (Z.of_nat n + 1)) (Z.of_nat (vsize r)))) (members_of r) = skipn n rules).
  { unfold vsize. rewrite Mr. unfold u32. rewrite Z.mod_small by lia. cbn [length].
    destruct (Nat.le_gt_cases n (length rules)).
    - replace (Z.to_nat _) with (S n) by lia. reflexivity.
    - replace (Z.to_nat _) with (S (length rules)) by lia. cbn [skipn]. rewrite !skipn_all2 by lia. reflexivity. }
  assert (Arr : forall g p s l, vs_vars s = vars -> snd m = VArr l ->
    (out_is (eval_array V (eval_rule V g) p m r (Z.of_nat n) s) true <->
     (forall i, (i < n)%nat -> verdict V vars g (item l i) (snd (item rules i)) true) /\
     Forall (fun x => one_says V vars g x (skipn n rules)) (skipn n l))).
  { intros g p s l E Sm. unfold eval_array. rewrite Sm. cbn [members_of]. rewrite Mr. cbn [tl].
    rewrite (bind_true vars s _ _ E) by (apply tuple_kept; intros; apply eval_kept).
    assert (Sk : skipn (Z.to_nat (Z.min (Z.of_nat n) (Z.of_nat (length l)))) l = skipn n l).
    { destruct (Nat.le_gt_cases n (length l)); [f_equal; lia|]. rewrite !skipn_all2 by lia. reflexivity. }
    rewrite Sk. split.
    - intros (c & t & H & E' & U). destruct c; [|apply done_is in U; discriminate].
      assert (H' : out_is (tuple_items (eval_rule V g) p (VArr l) rules (Z.of_nat n) 0 s) true) by (exists t; exact H).
      rewrite (tuple_true V vars g) in H' by (exact E || lia). cbn [members_of] in H'.
      split; [intros i Li; exact (H' i ltac:(lia))|]. apply (rest_true V vars g _ _ _ _ _ _ E') in U. rewrite Off in U. exact U.
    - intros (A & B).
      assert (H' : out_is (tuple_items (eval_rule V g) p (VArr l) rules (Z.of_nat n) 0 s) true).
      { rewrite (tuple_true V vars g) by (exact E || lia). cbn [members_of]. intros k K. exact (A k ltac:(lia)). }
      destruct H' as (t & H'). exists true, t. split; [exact H'|].
      pose proof (tuple_kept (eval_rule V g) ltac:(intros; apply eval_kept) rules p (VArr l) (Z.of_nat n) 0 s) as K. rewrite H' in K.
      assert (E' : vs_vars t = vars) by (destruct K; congruence). split; [exact E'|].
      apply (rest_true V vars g _ _ _ _ _ _ E'). rewrite Off. exact B. }
  split.
  - intros (f & H). specialize (H f (le_n f) [] (st0 vars) eq_refl). rewrite St in H. apply (proj1 (close_is _ _ _ _ _ _)) in H.
    destruct (snd m) as [| |?|?|? ?|l|? ?] eqn:Sm; try (unfold eval_array in H; rewrite Sm in H; apply (proj1 (done_is _ _ _)) in H; discriminate).
    exists l. split; [reflexivity|]. apply (Arr f [] (st0 vars) l eq_refl eq_refl) in H as (A & B). split.
    + intros i I. apply ends_verdict. exists f. exact (A i I).
    + intros x I. rewrite Forall_forall in B. destruct (B x I) as (pre & y & post & Q & B1 & B2).
      exists pre, y, post. split; [exact Q|]. split; [exact (ends_list _ _ _ _ _ _ B1)|]. apply ends_verdict. exists f. exact B2.
  - intros (l & Sm & A & B).
    assert (FA : exists f, forall g, (f <= g)%nat -> Forall (fun i => verdict V vars g (item l i) (snd (item rules i)) true) (seq 0 n)).
    { apply (eventually_Forall (fun g i => verdict V vars g (item l i) (snd (item rules i)) true)). apply Forall_forall. intros i I.
      apply in_seq in I. apply ends_all. apply A. lia. }
    assert (FB : exists f, forall g, (f <= g)%nat -> Forall (fun x => one_says V vars g x (skipn n rules)) (skipn n l)).
    { apply (eventually_Forall (fun g x => one_says V vars g x (skipn n rules))). apply Forall_forall. intros x I. apply one_ends. exact (B x I). }
    destruct FA as (f1 & FA). destruct FB as (f2 & FB). exists (Nat.max f1 f2). intros g L p s E. rewrite St. apply close_is.
    apply (Arr g p s l E Sm). split; [|apply FB; lia]. intros i I. specialize (FA g ltac:(lia)). rewrite Forall_forall in FA. apply FA. apply in_seq. lia.
Qed.
