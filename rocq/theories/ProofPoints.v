(** Proofs about where rejections point to. *)
From Coq Require Import String Ascii Lia.
From Verif Require Import Base ModelKeyed SpecKeyed ProofKeyed ModelValue ModelText ModelObject ModelArray ModelEq ModelString ModelJwt ModelPath ModelRpc
  ModelNumView ModelDate ModelValidator SpecValidator ProofValidator ProofTerm SpecText ProofPath SpecReuse ProofReuse SpecPoints.
Local Open Scope Z_scope.
Local Open Scope list_scope.
Notation length := List.length.

Definition aims (p : path) (v : value) (s t : vst) : Prop :=
  exists l, vs_rej t = vs_rej s ++ l /\ Forall (fun x => exists q, fst x = rev q ++ p /\ points v q) l.
Definition aims_out (p : path) (v : value) (s : vst) (o : vout) : Prop :=
  match o with VDone _ t | VThrow t => aims p v s t | _ => True end.

Lemma aims_same : forall p v s t, vs_rej t = vs_rej s -> aims p v s t.
Proof. intros p v s t H. exists []. rewrite app_nil_r. split; [exact H|constructor]. Qed.
Lemma aims_trans : forall p v s t u, aims p v s t -> aims p v t u -> aims p v s u.
Proof.
  intros p v s t u (a & A & FA) (b & B & FB). exists (a ++ b). rewrite B, A, app_assoc. split; [reflexivity|]. apply Forall_app. auto.
Qed.
Lemma aims_up : forall x p v w s t, (forall q, points w q -> points v (x :: q)) -> aims (x :: p) w s t -> aims p v s t.
Proof.
  intros x p v w s t U (l & E & F). exists l. split; [exact E|]. apply Forall_impl with (2 := F). intros a (q & Q & P). exists (x :: q).
  cbn [rev]. rewrite <- app_assoc. split; [exact Q|auto].
Qed.
Lemma aims_out_up : forall x p v w s o, (forall q, points w q -> points v (x :: q)) -> aims_out (x :: p) w s o -> aims_out p v s o.
Proof. intros x p v w s o U H. destruct o; cbn in *; eauto using aims_up. Qed.
Lemma aims_add : forall V q p v r s t, points v q -> aims p v s t -> aims p v s (add_rejection V (rev q ++ p) r t).
Proof.
  intros V q p v r s t P H. apply (aims_trans _ _ _ _ _ H). unfold add_rejection. set (r' := if is_undef r then _ else _).
  destruct (veq _ _ _); [apply aims_same; reflexivity|]. destruct (existsb _ _); [apply aims_same; reflexivity|].
  exists [(rev q ++ p, r')]. split; [reflexivity|]. constructor; [exists q; auto|constructor].
Qed.
Lemma aims_bind : forall p v s o k, aims_out p v s o -> (forall b t, aims_out p v t (k b t)) -> aims_out p v s (vbind o k).
Proof.
  intros p v s o k H K. destruct o as [b t|t| |]; cbn in *; auto. specialize (K b t).
  destruct (k b t); cbn in *; auto; exact (aims_trans _ _ _ _ _ H K).
Qed.

Definition dir (m : member) : Prop := direct (snd m).
Lemma direct_arr : forall l, direct (VArr l) -> Forall dir l.
Proof. intros l H. inversion H; subst; [elim (H0 l); reflexivity|auto]. Qed.
Lemma direct_obj : forall d l, direct (VObj d l) -> Forall dir l.
Proof. intros d l H. inversion H; subst; [elim (H1 d l); reflexivity|auto]. Qed.
Lemma direct_undef : direct VUndef.
Proof. apply Dir_leaf; discriminate. Qed.
Lemma direct_nth : forall l i, Forall dir l -> direct (snd (nth i l ([], VUndef))).
Proof.
  intros l i H. destruct (nth_in_or_default i l ([], VUndef)) as [I|E]; [|rewrite E; exact direct_undef].
  rewrite Forall_forall in H. exact (H _ I).
Qed.
Lemma short_arr : forall l, short (VArr l) -> Forall (fun m => short (snd m)) l /\ Z.of_nat (length l) < 2 ^ 32.
Proof. intros l H. inversion H; subst; [elim (H0 l); reflexivity|auto]. Qed.
Lemma short_obj : forall d l, short (VObj d l) -> Forall (fun m => short (snd m)) l.
Proof. intros d l H. inversion H; subst; [elim (H1 d l); reflexivity|auto]. Qed.
Lemma short_undef : short VUndef.
Proof. apply Sh_leaf; discriminate. Qed.
Lemma forall_skipn : forall {A} (P : A -> Prop) n l, Forall P l -> Forall P (skipn n l).
Proof. intros A P n. induction n as [|n IH]; intros l H; [exact H|]. destruct l; [constructor|]. inversion H; subst. apply IH. auto. Qed.

Section Aims.
Variables (V : venv) (ev : path -> member -> value -> vst -> vout).
Hypothesis EV : forall p m r s, direct r -> short (snd m) -> aims_out p (snd m) s (ev p m r s).
Hypothesis DEF : forall name, direct (value_member (v_def V) name).

Ltac done := apply aims_same; reflexivity.

Lemma aims_close : forall p v r s o, aims_out p v s o -> aims_out p v s (close_rule V p r (length (vs_rej s)) o).
Proof.
  intros p v r s o H. destruct o as [b t|t| |]; cbn in *; auto. destruct b; cbn.
  - destruct H as (l & B & _). apply aims_same. cbn. rewrite B, firstn_app, Nat.sub_diag, firstn_all, firstn_O, app_nil_r. reflexivity.
  - apply (aims_add V [] p v r s t (Pt_here v) H).
Qed.
Lemma aims_alternatives : forall rules p m s, Forall dir rules -> short (snd m) -> aims_out p (snd m) s (alternatives ev p m rules s).
Proof.
  induction rules as [|r rules IH]; intros p m s D S; cbn [alternatives]; [done|]. inversion D; subst.
  apply aims_bind; [apply EV; auto|]. intros b t. destruct b; [done|apply IH; auto].
Qed.
Lemma aims_range : forall n rules p m s, (length rules <= n)%nat -> Forall dir rules -> short (snd m) ->
  aims_out p (snd m) s (range_def V ev p m rules s).
Proof.
  induction n as [|n IH]; intros rules p m s N D S; destruct rules as [|r rules]; cbn [range_def]; try done; cbn [length] in N; [lia|].
  inversion D; subst.
  assert (O : aims_out p (snd m) s (vbind (ev p m (snd r) s) (fun b s => if b then range_def V ev p m rules s else VDone false s))).
  { apply aims_bind; [apply EV; auto|]. intros b t. destruct b; [apply IH; auto; lia|done]. }
  destruct (snd r); try exact O. destruct (is_comment _); [apply IH; auto; lia|].
  destruct (range_test _ _ _ _) as [[|]|]; [|done|exact O].
  destruct rules as [|q rules]; [done|]. apply IH; auto. { cbn [length] in N. lia. } inversion H2; auto.
Qed.

Lemma item_found : forall (l : list member) i, (i < length l)%nat -> nth_error l i = Some (nth i l ([], VUndef)).
Proof. intros l i H. apply nth_error_nth'. exact H. Qed.

Lemma aims_tuple : forall rules p l c i s, Forall dir rules -> short (VArr l) -> 0 <= i -> c <= 2 ^ 32 ->
  aims_out p (VArr l) s (tuple_items ev p (VArr l) rules c i s).
Proof.
  induction rules as [|r rules IH]; intros p l c i s D S I C; cbn [tuple_items]; destruct (Z.leb_spec c i); try done;
    unfold sub_index; set (x := vitem _ _).
  all: assert (U : u32 i = i) by (unfold u32; apply Z.mod_small; lia); rewrite U.
  all: assert (X : short (snd x) /\ forall q, points (snd x) q -> points (VArr l) (pindex i :: q)).
  1,3: unfold x, vitem, vsize; cbn [members_of];
    destruct (Z_lt_le_dec i (Z.of_nat (length l))) as [Hi|Hi];
    [ rewrite Z.min_l by lia; pose proof (item_found l (Z.to_nat i) ltac:(lia)) as F; split;
      [ apply short_arr in S as [S _]; rewrite Forall_forall in S; apply S; eapply nth_error_In; eauto
      | intros q Q; rewrite <- (Z2Nat.id i) at 1 by lia; eapply Pt_into_item; eauto; lia ]
    | rewrite Z.min_r by lia; rewrite nth_overflow by lia; split; [exact short_undef|];
      intros q Q; inversion Q; subst; apply Pt_item; lia ].
  - destruct X as [X1 X2]. eapply aims_out_up; [exact X2|]. apply EV; [exact direct_undef|exact X1].
  - destruct X as [X1 X2]. inversion D; subst. apply aims_bind; [eapply aims_out_up; [exact X2|]; apply EV; auto|].
    intros b t. destruct b; [apply IH; auto; lia|done].
Qed.
Lemma aims_rest : forall items p l r i o s, Forall dir (members_of r) -> short (VArr l) -> items = skipn i l ->
  aims_out p (VArr l) s (rest_items V ev p items r (Z.of_nat i) o s).
Proof.
  induction items as [|x items IH]; intros p l r i o s D S E; cbn [rest_items]; [done|].
  pose proof S as S0. apply short_arr in S0 as [S1 S2].
  assert (N : nth_error l i = Some x).
  { clear - E. revert l E. induction i as [|i IH]; intros [|y l] E; cbn in E; try discriminate; [inversion E; reflexivity|]. apply IH. exact E. }
  assert (L : (i < length l)%nat) by (apply nth_error_Some; rewrite N; discriminate).
  assert (U : u32 (Z.of_nat i) = Z.of_nat i) by (unfold u32; apply Z.mod_small; lia).
  apply aims_bind.
  - unfold sub_alternatives. rewrite U. eapply aims_out_up; [intros q Q; eapply Pt_into_item; [exact N|lia|exact Q]|].
    apply aims_close, aims_alternatives; [apply forall_skipn; exact D|].
    rewrite Forall_forall in S1. apply S1. eapply nth_error_In; eauto.
  - intros b t. destruct b; [|done]. replace (Z.of_nat i + 1) with (Z.of_nat (Datatypes.S i)) by lia. apply IH; auto.
    clear - E. revert l E. induction i as [|i IH]; intros [|y l] E; cbn in E; try discriminate; [inversion E; reflexivity|].
    cbn [skipn]. apply IH in E. exact E.
Qed.
Lemma aims_array : forall p m args c s, Forall dir args -> short (snd m) -> 0 <= c < 2 ^ 32 ->
  aims_out p (snd m) s (eval_array V ev p m (VArr args) c s).
Proof.
  intros p m args c s D S C. unfold eval_array. destruct (snd m) eqn:E; try done. apply aims_bind.
  - apply aims_tuple; auto; try lia. cbn [members_of]. destruct args; [constructor|]. inversion D; auto.
  - intros b t. destruct b; [|done].
    destruct (Z_lt_le_dec c (Z.of_nat (length l))) as [Hc|Hc].
    + rewrite Z.min_l by lia. rewrite <- (Z2Nat.id c) at 2 by lia. apply aims_rest; auto.
    + rewrite Z.min_r by lia. rewrite Nat2Z.id, skipn_all. cbn [rest_items]. done.
Qed.

Lemma not_word : forall w l, ~ In w l -> forall x, In x l -> beqb w x = false.
Proof. intros w l N x I. apply beqb_neq. intros ->. contradiction. Qed.

Lemma aims_token : forall p m k e w rest s, direct (VArr ((k, VStr e w) :: rest)) -> short (snd m) ->
  aims_out p (snd m) s (eval_token V ev p m w ((k, VStr e w) :: rest) s).
Proof.
  intros p m k e w rest s D S. pose proof (direct_arr _ D) as DA. set (a := (k, VStr e w) :: rest) in *.
  assert (N : ~ In w other_subject) by (inversion D; subst; [elim (H a); reflexivity|eapply H1; reflexivity]).
  unfold eval_token.
  assert (NW : forall x, In x other_subject -> beqb w x = false) by (apply not_word; exact N).
  rewrite (NW (txt "key")), (NW (txt "tostring")), (NW (txt "tonumber")), (NW (txt "prefix")), (NW (txt "suffix")), (NW (txt "split")),
    (NW (txt "explode")), (NW (txt "usevar")) by (unfold other_subject; cbn [map In]; tauto).
  repeat match goal with |- aims_out _ _ _ (if ?b then _ else _) => destruct b end; try done.
  all: try (apply aims_alternatives; [first [exact DA|apply forall_skipn; exact DA]|exact S]).
  - apply (aims_range (length a)); auto.
  - apply (aims_range (length (skipn 1 a))); auto. apply forall_skipn. exact DA.
  - destruct (to_string _ _ _); done.
  - apply aims_bind; [apply aims_alternatives; [apply forall_skipn; exact DA|exact S]|]. intros b t'. done.
  - unfold op_setvar. set (b := match get_string _ with [] => _ | _ => _ end). destruct b; [|done].
    set (s' := push_var _ _ _). pose proof (aims_alternatives (skipn 2 a) p m s' (forall_skipn _ 2 _ DA) S) as K.
    destruct (alternatives ev p m (skipn 2 a) s') as [b u|u| |]; cbn in *; auto.
  - unfold op_emit. apply aims_bind; [apply EV; [apply direct_nth; exact DA|exact S]|]. intros b t'. destruct b; done.
Qed.
Lemma aims_params : forall p m args s, direct (VArr args) -> short (snd m) -> aims_out p (snd m) s (eval_params V ev p m args s).
Proof.
  intros p m args s D S. pose proof (direct_arr _ D) as DA. unfold eval_params. destruct args as [|[k v] a]; [done|].
  destruct v; try (apply aims_alternatives; auto); [apply aims_token; auto|].
  destruct l as [|[k' w] l]; [apply aims_array; auto; lia|].
  destruct w; try (apply aims_alternatives; auto; fail). destruct l; [|apply aims_alternatives; auto].
  apply aims_array; auto. unfold u32. apply Z.mod_pos_bound. lia.
Qed.
Lemma aims_reject : forall p d l k r o c s, (forall q, points (snd o) q -> points (VObj d l) (pkey k :: q)) ->
  aims_out (pkey k :: p) (snd o) s (fst o) -> (forall t, aims_out p (VObj d l) t (c t)) ->
  aims_out p (VObj d l) s (reject_sub V p k r (fst o) c).
Proof.
  intros p d l k r [o w] c s U H C. cbn [fst snd] in *. apply aims_bind; [exact (aims_out_up _ _ _ _ _ _ U H)|].
  intros b t. destruct b; [apply C|]. apply (aims_add V [pkey k] p (VObj d l) r t t); [apply Pt_key|done].
Qed.
Lemma point_member : forall d (l : list member) x, In x l -> forall q, points (snd x) q -> points (VObj d l) (pkey (fst x) :: q).
Proof. intros d l [k w] I q Q. eapply Pt_into_key; eauto. Qed.
Lemma point_missing : forall d l k q, points VUndef q -> points (VObj d l) (pkey k :: q).
Proof. intros d l k q Q. inversion Q; subst. apply Pt_key. Qed.

Lemma aims_extra : forall d l ss p w s, direct w -> (forall x, In x ss -> In x l) -> Forall (fun m => short (snd m)) l ->
  aims_out p (VObj d l) s (extra_members V ev p w ss s).
Proof.
  intros d l. induction ss as [|x ss IH]; intros p w s D I S; cbn [extra_members]; [done|].
  apply (aims_reject p d l (fst x) w (sub_key ev p x w (fst x) s, snd x)); cbn [fst snd].
  - apply point_member. apply I. left. reflexivity.
  - apply EV; auto. rewrite Forall_forall in S. apply S, I. left. reflexivity.
  - intros t. apply IH; auto. intros y Y. apply I. right. exact Y.
Qed.
Lemma aims_missing : forall d l ts p s, Forall dir ts -> aims_out p (VObj d l) s (missing_members V ev p ts s).
Proof.
  intros d l. induction ts as [|x ts IH]; intros p s D; cbn [missing_members]; [done|]. inversion D; subst.
  apply (aims_reject p d l (fst x) (snd x) (sub_key ev p ([], VUndef) (snd x) (fst x) s, VUndef)); cbn [fst snd].
  - apply point_missing.
  - apply (EV _ ([], VUndef)); auto. exact short_undef.
  - intros t. apply IH; auto.
Qed.
Lemma aims_template : forall d l ss ts p w s, Forall dir ts -> direct w -> (forall x, In x ss -> In x l) ->
  Forall (fun m => short (snd m)) l -> aims_out p (VObj d l) s (template_loop V ev p w ss ts s).
Proof.
  intros d l. induction ss as [|x ss IHs]; [|induction ts as [|t ts IHt]].
  - intros ts p w s D W I S. destruct ts; apply aims_missing; exact D.
  - intros p w s D W I S. apply aims_extra; auto.
  - intros p w s D W I S. inversion D; subst. cbn. destruct (parse_key (fst t)) as [tk spec].
    assert (Is : forall y, In y ss -> In y l) by (intros y Y; apply I; right; exact Y).
    assert (Ix : In x l) by (apply I; left; reflexivity).
    assert (Sx : short (snd x)) by (rewrite Forall_forall in S; auto).
    destruct (kcmp (fst x) tk); (destruct spec; [first [apply IHs; solve [auto] | apply IHt; solve [auto]]|]).
    + apply (aims_reject p d l (fst x) (snd t) (sub_key ev p x (snd t) (fst x) s, snd x)); cbn [fst snd];
        [apply point_member; auto|apply EV; auto|intros u; apply IHs; auto].
    + apply (aims_reject p d l (fst x) w (sub_key ev p x w (fst x) s, snd x)); cbn [fst snd];
        [apply point_member; auto|apply EV; auto|intros u; apply IHs; auto].
    + apply (aims_reject p d l tk (snd t) (sub_key ev p ([], VUndef) (snd t) tk s, VUndef)); cbn [fst snd];
        [apply point_missing|apply (EV _ ([], VUndef)); auto; exact short_undef|intros u; apply IHt; auto].
Qed.
Lemma aims_step : forall p m r s, direct r -> short (snd m) -> aims_out p (snd m) s (rule_step V ev p m r s).
Proof.
  intros p m r s D S. unfold rule_step. destruct r; try (apply aims_close); try done.
  - unfold eval_simple. destruct (simple_rule _ _ _); [done|done|exact I|].
    unfold check_class. destruct (negb _); [done|]. destruct (beqb _ _); [done|apply EV; auto].
  - apply aims_params; auto.
  - unfold eval_object. destruct (snd m) eqn:E; try done. apply aims_template; auto.
    + exact (direct_obj _ _ D).
    + destruct (value_member_in diff l [37]) as [->|(x & X & ->)]; [exact direct_undef|].
      pose proof (direct_obj _ _ D) as DO. rewrite Forall_forall in DO. exact (DO _ X).
    + exact (short_obj _ _ S).
Qed.
End Aims.
Lemma aims_eval : forall V, (forall name, direct (value_member (v_def V) name)) -> forall f p m r s, direct r -> short (snd m) ->
  aims_out p (snd m) s (eval_rule V f p m r s).
Proof.
  intros V DEF. induction f as [|f IH]; intros p m r s D S; [exact I|]. cbn [eval_rule]. apply aims_step; auto.
Qed.

Lemma direct_member : forall v name, direct v -> direct (value_member v name).
Proof.
  intros v name D. destruct v; try exact direct_undef. destruct (value_member_in diff l name) as [->|(x & X & ->)]; [exact direct_undef|].
  pose proof (direct_obj _ _ D) as DO. rewrite Forall_forall in DO. exact (DO _ X).
Qed.

Lemma rejections_point : forall V fuel m class p s b t r, supported V -> direct (v_def V) -> short (snd m) ->
  validate V fuel m class p s = VDone b t -> In r (members_of (get_rejections t)) ->
  exists q rule, snd r = VArr [([], path_to_value (rev q ++ p)); ([], rule)] /\ points (snd m) q.
Proof.
  intros V fuel m class p s b t r N D S H R. apply supported_iff in N. cbv zeta in N. unfold validate in H. rewrite N in H.
  pose proof (aims_eval V (fun n => direct_member _ n D) fuel p m (value_member (v_def V) class) (clear_results s) (direct_member _ _ D) S) as A.
  rewrite H in A. destruct A as (l & E & F). cbn in E. unfold get_rejections in R. cbn [members_of] in R.
  apply in_map_iff in R as ((pr & rule) & <- & R). rewrite E in R. rewrite Forall_forall in F.
  destruct (F _ R) as (q & Q & P). cbn [fst snd] in *. subst pr. eauto.
Qed.

(** What a path that points into a value reads there. *)
Lemma points_read : forall v q x, all_sorted v -> points v (q ++ [x]) ->
  (exists d l, get_rev v q = VObj d l /\ exists k, x = pkey k) \/
  (exists l, get_rev v q = VArr l /\ exists i, 0 <= i < 2 ^ 32 /\ x = pindex i).
Proof.
  intros v q x. revert v. induction q as [|y q IH]; intros v S P; cbn [app] in P.
  - inversion P; subst; cbn [get_rev]; [left|right|left|right]; eauto 6.
    eexists. split; [reflexivity|]. eexists. split; [|reflexivity]. lia.
  - cbn [get_rev]. inversion P; subst; try (destruct q; discriminate).
    + change (is_index (pkey k)) with false. cbn [pkey pe_key].
      assert (Hk : keys_increasing l /\ Forall (fun m => all_sorted (snd m)) l) by (inversion S; subst; [contradiction|auto]).
      destruct Hk as [Hk Hl]. rewrite value_member_binding by assumption.
      assert (binding k l = Some w) as -> by (apply in_binding; [apply keys_increasing_nodup; assumption|assumption]).
      apply IH; auto. rewrite Forall_forall in Hl. match goal with H : In (k, w) l |- _ => exact (Hl _ H) end.
    + assert (is_index (pindex (Z.of_nat i)) = true) as ->.
      { unfold is_index, no_index. cbn [pindex pe_index]. destruct (Z.eqb_spec (Z.of_nat i) (2 ^ 64 - 1)); [lia|reflexivity]. }
      cbn [pindex pe_index]. rewrite Nat2Z.id. unfold vitem. cbn [members_of]. match goal with H : nth_error l i = Some m |- _ => rewrite (nth_error_nth l i ([], VUndef) H); apply nth_error_In in H; rename H into Hin end.
      apply IH; auto. assert (Hl : Forall (fun m => all_sorted (snd m)) l) by (inversion S; subst; [contradiction|auto]).
      rewrite Forall_forall in Hl. auto.
Qed.

Lemma points_read_path : forall v q x, all_sorted v -> points v (q ++ [x]) ->
  (exists d l, get_path v (rev q) = VObj d l /\ exists k, x = pkey k) \/
  (exists l, get_path v (rev q) = VArr l /\ exists i, 0 <= i < 2 ^ 32 /\ x = pindex i).
Proof. intros v q x S P. rewrite get_path_rev, rev_involutive. apply points_read; auto. Qed.
