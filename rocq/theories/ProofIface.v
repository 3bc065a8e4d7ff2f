(** Proofs about the objects behind the handles. *)
From Coq Require Import Lia ZifyBool.
From Verif Require ModelJwt.
From Verif Require Import Base ModelKeyed SpecKeyed ModelValue ModelObject ModelEq SpecEq ProofKeyed ProofEq ProofFloat ModelUtf8 ModelEnc ModelIface SpecIface.
Local Open Scope Z_scope.

Section ObjInd.
Variable P : obj -> Prop.
Hypothesis H1 : P OUndef.
Hypothesis H2 : P ONull.
Hypothesis H3 : forall b, P (OBool b).
Hypothesis H4 : P OZero.
Hypothesis H5 : forall n, P (OUInt n).
Hypothesis H6 : forall n, P (OInt n).
Hypothesis H7 : forall f, P (ODbl f).
Hypothesis H8 : forall t n, P (OPrecUInt t n).
Hypothesis H9 : forall t n, P (OPrecInt t n).
Hypothesis H10 : forall t c, P (OPrecDbl t c).
Hypothesis H11 : P OEmptyStr.
Hypothesis H12 : forall e s, P (OStr e s).
Hypothesis H13 : forall s, P (OSubStr s).
Hypothesis H14 : P OEmptyArr.
Hypothesis H15 : forall l, Forall P l -> P (OArr l).
Hypothesis H16 : forall l, Forall P l -> P (OSubArr l).
Hypothesis H17 : P OEmptyObj.
Hypothesis H18 : forall d l, Forall P l -> P (OObj d l).
Hypothesis H19 : forall k o, P o -> P (OKey k o).
Hypothesis H20 : forall t i o, P o -> P (OWrap t i o).
Fixpoint obj_ind' (o : obj) : P o :=
  let all := fix all (l : list obj) : Forall P l :=
    match l with [] => Forall_nil _ | x :: r => Forall_cons _ (obj_ind' x) (all r) end in
  match o with
  | OUndef => H1 | ONull => H2 | OBool b => H3 b | OZero => H4 | OUInt n => H5 n | OInt n => H6 n | ODbl f => H7 f
  | OPrecUInt t n => H8 t n | OPrecInt t n => H9 t n | OPrecDbl t c => H10 t c
  | OEmptyStr => H11 | OStr e s => H12 e s | OSubStr s => H13 s
  | OEmptyArr => H14 | OArr l => H15 l (all l) | OSubArr l => H16 l (all l)
  | OEmptyObj => H17 | OObj d l => H18 d l (all l)
  | OKey k o => H19 k o (obj_ind' o) | OWrap t i o => H20 t i o (obj_ind' o)
  end.
End ObjInd.

Notation den := (fun i => (o_name i, denote i)).
Definition dtype (v : value) : vtype :=
  match v with VUndef => TUndef | VNull => TNull | VBool _ => TBool | VNum _ => TNumber | VStr _ _ => TString | VArr _ => TArray | VObj _ _ => TObject end.

Lemma type_dtype : forall o, o_type o = dtype (denote o).
Proof. induction o using obj_ind'; cbn [o_type denote dtype]; auto. Qed.
Lemma den_unproxy : forall o, denote (o_unproxy o) = denote o.
Proof. induction o using obj_ind'; cbn [o_unproxy denote]; auto. Qed.
Lemma no_key_unproxy : forall o, no_key (o_unproxy o).
Proof. induction o using obj_ind'; cbn; auto. Qed.
Lemma unproxy_id : forall o, no_key o -> o_unproxy o = o.
Proof. intros o H. destruct o; try reflexivity. contradiction. Qed.
Lemma made_unproxy : forall L o, made L o -> made L (o_unproxy o).
Proof. intros L o. induction o using obj_ind'; cbn [o_unproxy]; auto. intros [_ H]. auto. Qed.

Lemma bool_denote : forall o b, denote o = VBool b -> o_bool o = b.
Proof. induction o using obj_ind'; intros b' E; cbn [denote o_bool] in *; try discriminate; [congruence|auto|auto]. Qed.
Lemma string_denote : forall o e s, denote o = VStr e s -> o_string o = s.
Proof. induction o using obj_ind'; intros e' s' E; cbn [denote o_string] in *; try discriminate; try congruence; eauto. Qed.
Lemma binary_denote : forall o e s, denote o = VStr e s -> f_binary (o_flags o) = match e with Some _ => true | None => false end.
Proof.
  induction o using obj_ind'; intros e' s' E; cbn [denote] in *; try discriminate; try (injection E as <- <-; reflexivity).
  - injection E as <- <-. destruct e; reflexivity.
  - cbn. eauto.
  - cbn. eauto.
Qed.
Lemma diff_denote : forall o d l, denote o = VObj d l -> f_diff (o_flags o) = d.
Proof. induction o using obj_ind'; intros d' l' E; cbn [denote] in *; try discriminate; try (injection E as <- <-; reflexivity); cbn; eauto. Qed.
Lemma items_arr : forall o l, denote o = VArr l -> map den (o_items o) = l.
Proof. induction o using obj_ind'; intros l' E; cbn [denote o_items] in *; try discriminate; try congruence; eauto. injection E as <-. reflexivity. Qed.
Lemma items_obj : forall o d l, denote o = VObj d l -> map den (o_items o) = l.
Proof. induction o using obj_ind'; intros d' l' E; cbn [denote o_items] in *; try discriminate; try congruence; eauto. injection E as <- <-. reflexivity. Qed.
Lemma items_scalar : forall o, o_type o <> TArray -> o_type o <> TObject -> o_items o = [].
Proof. induction o using obj_ind'; cbn [o_type o_items]; intros A B; try reflexivity; try congruence; auto. Qed.
Lemma made_list : forall (P : obj -> Prop) l, fold_right (fun i Q => P i /\ Q) True l -> Forall P l.
Proof. intros P. induction l as [|x l IH]; cbn; [constructor|]. intros [A B]. constructor; auto. Qed.
Lemma made_items : forall L o, made L o -> Forall (made L) (o_items o).
Proof. intros L. induction o using obj_ind'; cbn [made o_items]; intros M; try constructor; try (apply made_list; assumption); tauto. Qed.
Lemma wraps_items : forall P o, wraps P o -> Forall (wraps P) (o_items o).
Proof. intros P. induction o using obj_ind'; cbn [wraps o_items]; intros M; try constructor; try (apply made_list; assumption); tauto. Qed.

(** *** Numbers *)
Lemma dbl_denote : forall L o n, made L o -> denote o = VNum n -> o_dbl L o = get_number L n.
Proof.
  intros L. induction o using obj_ind'; intros n' M E; cbn [denote made o_dbl] in *; try discriminate; try (injection E as <-; reflexivity).
  - injection E as <-. destruct c; cbn; auto.
  - apply IHo; tauto.
  - apply IHo; tauto.
Qed.
Lemma s64_id : forall n, - 2 ^ 63 <= n < 2 ^ 63 -> s64 n = n.
Proof.
  intros n H. unfold s64. destruct (Z.ltb_spec (n mod 2 ^ 64) (2 ^ 63)) as [A|A].
  - destruct (Z.lt_ge_cases n 0); [|apply Z.mod_small; lia].
    exfalso. assert (n mod 2 ^ 64 = n + 2 ^ 64) by (symmetry; apply Z.mod_unique with (-1); lia). lia.
  - destruct (Z.lt_ge_cases n 0); [|exfalso; rewrite Z.mod_small in A by lia; lia].
    assert (n mod 2 ^ 64 = n + 2 ^ 64) by (symmetry; apply Z.mod_unique with (-1); lia). lia.
Qed.
Lemma uint_flag : forall o n, denote o = VNum n -> (f_uint (o_flags o) = match num_uint n with Some _ => true | None => false end) /\
  (forall u, num_uint n = Some u -> o_uint o = u).
Proof.
  induction o using obj_ind'; intros n' E; cbn [denote] in *; try discriminate; try (injection E as <-; cbn; split; [reflexivity|intros; congruence]);
  apply IHo; assumption.
Qed.
Lemma int_flag : forall o n, denote o = VNum n -> (f_int (o_flags o) || f_uint (o_flags o) = match num_int n with Some _ => true | None => false end) /\
  (forall u, num_int n = Some u -> o_int o = u).
Proof.
  induction o using obj_ind'; intros n' E; cbn [denote] in *; try discriminate; try (injection E as <-; cbn; split; [reflexivity|intros; congruence]);
  apply IHo; assumption.
Qed.
Lemma num_compare_denote : forall L a b n m, made L a -> made L b -> denote a = VNum n -> denote b = VNum m ->
  o_num_compare L a b = num_compare L n m.
Proof.
  intros L a b n m Ma Mb Ea Eb. unfold o_num_compare, num_compare.
  destruct (int_flag a n Ea) as [-> IA], (int_flag b m Eb) as [-> IB], (uint_flag a n Ea) as [-> UA], (uint_flag b m Eb) as [-> UB].
  rewrite (dbl_denote L a n Ma Ea), (dbl_denote L b m Mb Eb).
  destruct (num_uint n) as [u|], (num_uint m) as [w|]; cbn [andb]; try (rewrite (UA _ eq_refl), (UB _ eq_refl); reflexivity);
  destruct (num_int n) as [i|], (num_int m) as [j|]; cbn [andb]; try (rewrite (IA _ eq_refl), (IB _ eq_refl)); reflexivity.
Qed.
Lemma see_num_denote : forall L o n, made L o -> denote o = VNum n -> see_num L o = n.
Proof.
  intros L. induction o using obj_ind'; intros n' M E; cbn [denote] in *; try discriminate; try (injection E as <-; reflexivity).
  - cbn [made] in M. specialize (IHo n' (proj2 M) E). exact IHo.
  - cbn [made] in M. specialize (IHo n' (proj2 M) E). exact IHo.
Qed.

(** *** Reading *)
Lemma encoding_denote : forall o e s, no_key o -> (match o with OWrap _ _ _ => False | _ => True end) -> denote o = VStr (Some e) s -> get_encoding o = Some (Some e).
Proof. intros o e s K W E. destruct o; try contradiction; try discriminate E. injection E as -> ->. reflexivity. Qed.
Scheme sees_mut := Induction for sees Sort Prop with sees_items_mut := Induction for sees_items Sort Prop.

Lemma wrap_free : forall P o t i o', wraps P o -> o_unproxy o = OWrap t i o' -> P o'.
Proof. intros P. induction o using obj_ind'; intros t' i' o' W E; cbn [o_unproxy wraps] in *; try discriminate; eauto. injection E as <- <- <-. tauto. Qed.

Lemma sees_denote : forall L o v, sees L o v -> made L o -> wraps not_binary o -> v = denote o.
Proof.
  intros L. apply (sees_mut L (fun o v _ => made L o -> wraps not_binary o -> v = denote o)
    (fun l m _ => Forall (made L) l -> Forall (wraps not_binary) l -> m = map den l)).
  - intros o T _ _. rewrite type_dtype in T. destruct (denote o); try discriminate; reflexivity.
  - intros o T _ _. rewrite type_dtype in T. destruct (denote o); try discriminate; reflexivity.
  - intros o T _ _. rewrite type_dtype in T. destruct (denote o) eqn:E; try discriminate. rewrite (bool_denote _ _ E). reflexivity.
  - intros o T M _. rewrite type_dtype in T. destruct (denote o) eqn:E; try discriminate. rewrite (see_num_denote L _ _ M E). reflexivity.
  - intros o T B _ _. rewrite type_dtype in T. destruct (denote o) as [| | | |e s| |] eqn:E; try discriminate. rewrite (binary_denote _ _ _ E) in B.
    rewrite (string_denote _ _ _ E). destruct e; [discriminate|reflexivity].
  - intros o e T B G M W. rewrite type_dtype in T. destruct (denote o) as [| | | |e' s| |] eqn:E; try discriminate. rewrite (binary_denote _ _ _ E) in B.
    destruct e' as [e'|]; [|discriminate]. rewrite (string_denote _ _ _ E).
    rewrite (encoding_denote (o_unproxy o) e' s) in G; [congruence|apply no_key_unproxy| |rewrite den_unproxy; exact E].
    destruct (o_unproxy o) eqn:U; try exact I. pose proof (wrap_free _ _ _ _ _ W U) as NB.
    assert (X : denote o0 = VStr (Some e') s) by (rewrite <- E, <- (den_unproxy o), U; reflexivity). unfold not_binary in NB. rewrite X in NB. exact NB.
  - intros o l T _ IH M W. rewrite type_dtype in T. destruct (denote o) eqn:E; try discriminate. rewrite <- (items_arr _ _ E). f_equal.
    apply IH; [apply made_items; exact M|apply wraps_items; exact W].
  - intros o l T _ IH M W. rewrite type_dtype in T. destruct (denote o) eqn:E; try discriminate. rewrite <- (items_obj _ _ _ E), (diff_denote _ _ _ E). f_equal.
    apply IH; [apply made_items; exact M|apply wraps_items; exact W].
  - reflexivity.
  - intros x r v l _ Hx _ IH M W. inversion M; subst. inversion W; subst. cbn [map]. rewrite Hx, IH by assumption. reflexivity.
Qed.
Lemma sees_exists : forall L o, made L o -> wraps not_binary o -> sees L o (denote o).
Proof.
  intros L. 
  assert (IT : forall l, Forall (fun o => made L o -> wraps not_binary o -> sees L o (denote o)) l ->
    Forall (made L) l -> Forall (wraps not_binary) l -> sees_items L l (map den l)).
  { intros l H. induction H as [|x l Hx Hl IH]; intros M W; [constructor|]. inversion M; subst. inversion W; subst. cbn [map]. constructor; auto. }
  assert (KEY : forall o o', o_type o' = o_type o -> o_bool o' = o_bool o -> see_num L o' = see_num L o -> o_string o' = o_string o -> o_items o' = o_items o ->
    f_binary (o_flags o') = f_binary (o_flags o) -> f_diff (o_flags o') = f_diff (o_flags o) ->
    (f_binary (o_flags o) = true -> o_type o = TString -> get_encoding (o_unproxy o') = get_encoding (o_unproxy o)) -> forall v, sees L o v -> sees L o' v).
  { intros o o' T B N ST I F D G v S. destruct S as [o S|o S|o S|o S|o S Sb|o e S Sb Sg|o l S Sl|o l S Sl].
    - constructor; congruence. - constructor; congruence.
    - rewrite <- B. constructor; congruence.
    - rewrite <- N. constructor; congruence.
    - rewrite <- ST. constructor; congruence.
    - rewrite <- ST. constructor; try congruence. rewrite G; auto.
    - constructor; [congruence|rewrite I; exact Sl].
    - rewrite <- D. constructor; [congruence|rewrite I; exact Sl]. }
  induction o using obj_ind'; intros M W; cbn [denote].
  1-2: constructor; reflexivity.
  - apply (S_bool L (OBool b)). reflexivity.
  - apply (S_num L OZero). reflexivity.
  - apply (S_num L (OUInt n)). reflexivity.
  - apply (S_num L (OInt n)). reflexivity.
  - apply (S_num L (ODbl f)). reflexivity.
  - apply (S_num L (OPrecUInt t n)). reflexivity.
  - apply (S_num L (OPrecInt t n)). reflexivity.
  - apply (S_num L (OPrecDbl t c)). reflexivity.
  - apply (S_str L OEmptyStr); reflexivity.
  - destruct e as [e|]; [apply (S_bin L (OStr (Some e) s)); reflexivity|apply (S_str L (OStr None s)); reflexivity].
  - apply (S_str L (OSubStr s)); reflexivity.
  - apply S_arr; [reflexivity|constructor].
  - apply S_arr; [reflexivity|]. cbn [o_items]. apply IT; [assumption|apply (made_items L _ M)|apply (wraps_items _ _ W)].
  - apply S_arr; [reflexivity|]. cbn [o_items]. apply IT; [assumption|apply (made_items L _ M)|apply (wraps_items _ _ W)].
  - apply (S_obj L OEmptyObj); [reflexivity|constructor].
  - apply (S_obj L (OObj d l)); [reflexivity|]. cbn [o_items]. apply IT; [assumption|apply (made_items L _ M)|apply (wraps_items _ _ W)].
  - cbn [made wraps] in *. apply (KEY o); try reflexivity. apply IHo; tauto.
  - cbn [made wraps] in *. destruct M as [K M], W as [NB W]. apply (KEY o); try reflexivity; [|apply IHo; assumption].
    intros B T. exfalso. rewrite type_dtype in T. destruct (denote o) as [| | | |e s| |] eqn:E; try discriminate. rewrite (binary_denote _ _ _ E) in B.
    unfold not_binary in NB. rewrite E in NB. destruct e; [exact NB|discriminate].
Qed.
Theorem reading : forall L o, made L o -> wraps not_binary o -> forall v, sees L o v <-> v = denote o.
Proof. intros L o M W v. split; [intros S; exact (sees_denote L o v S M W)|intros ->; apply sees_exists; assumption]. Qed.
Theorem wrapped_binary : exists L o, made L o /\ (forall v, ~ sees L o v) /\ o = make_value 7 1 (of_bytes [1; 2] EncBase64).
Proof.
  exists (mkLibm (fun a _ => a) (fun a => a) (fun _ => S754_zero false)). eexists. split; [|split; [|reflexivity]].
  - cbn. auto.
  - intros v S. inversion S as [| | | |? T B|? ? T B G| |]; subst; try discriminate.
Qed.

(** *** Comparing *)
Scheme cmp_mut := Induction for o_compare Sort Prop with cmp_items_mut := Induction for items_compare Sort Prop.
Fixpoint vitems (L : libm) (k : bool) (l m : list (bytes * value)) : comparison :=
  match l, m with
  | [], [] => Eq
  | [], _ :: _ => Lt
  | _ :: _, [] => Gt
  | x :: l', y :: m' =>
    match (if k then kcmp (fst x) (fst y) else Eq) with
    | Eq => match vcmp L (snd x) (snd y) with Eq => vitems L k l' m' | c => c end
    | c => c
    end
  end.
Lemma vcmp_arr : forall L l m, vcmp L (VArr l) (VArr m) = vitems L false l m.
Proof. intros L. induction l as [|x l IH]; intros [|y m]; try reflexivity. cbn [vcmp vitems] in *. specialize (IH m). destruct (vcmp L (snd x) (snd y)); auto. Qed.
Lemma vcmp_obj : forall L d l e m, vcmp L (VObj d l) (VObj e m) = vitems L true l m.
Proof.
  intros L d. induction l as [|x l IH]; intros e [|y m]; try reflexivity. cbn [vcmp vitems] in *. specialize (IH e m).
  destruct (kcmp (fst x) (fst y)); auto. destruct (vcmp L (snd x) (snd y)); auto.
Qed.
Lemma vcmp_types : forall L v w, dtype v <> dtype w -> vcmp L v w = Z.compare (rank (dtype v)) (rank (dtype w)).
Proof. intros L v w H. destruct v, w; try (destruct H; reflexivity); reflexivity. Qed.
Lemma scalar_denote : forall L a b, made L a -> made L b -> o_type a = o_type b -> o_type a <> TArray -> o_type a <> TObject ->
  o_scalar_compare L a b = vcmp L (denote a) (denote b).
Proof.
  intros L a b Ma Mb T A B. unfold o_scalar_compare. rewrite !type_dtype in *.
  destruct (denote a) eqn:Ea, (denote b) eqn:Eb; try discriminate; try (destruct A; reflexivity); try (destruct B; reflexivity); cbn [dtype vcmp]; try reflexivity.
  - rewrite (bool_denote _ _ Ea), (bool_denote _ _ Eb). reflexivity.
  - apply num_compare_denote; assumption.
  - rewrite (string_denote _ _ _ Ea), (string_denote _ _ _ Eb). reflexivity.
Qed.
Lemma compare_right : forall L a b c, o_compare L a b c -> made L a -> made L b -> c = vcmp L (denote a) (denote b).
Proof.
  intros L. apply (cmp_mut L (fun a b c _ => made L a -> made L b -> c = vcmp L (denote a) (denote b))
    (fun k l m c _ => Forall (made L) l -> Forall (made L) m -> c = vitems L k (map den l) (map den m))).
  - intros t i a b c _ IH Ma Mb. cbn [denote]. apply IH; [cbn in Ma; tauto|exact Mb].
  - intros a b _ T _ _. rewrite !type_dtype in *. symmetry. apply vcmp_types. exact T.
  - intros a b _ T A B Ma Mb. apply scalar_denote; assumption.
  - intros a b c _ Ta Tb _ IH Ma Mb. rewrite type_dtype in Ta, Tb. destruct (denote a) eqn:Ea; try discriminate. destruct (denote b) eqn:Eb; try discriminate.
    rewrite vcmp_arr, <- (items_arr _ _ Ea), <- (items_arr _ _ Eb). apply IH; apply made_items; assumption.
  - intros a b c _ Ta Tb _ IH Ma Mb. rewrite type_dtype in Ta, Tb. destruct (denote a) eqn:Ea; try discriminate. destruct (denote b) eqn:Eb; try discriminate.
    rewrite vcmp_obj, <- (items_obj _ _ _ Ea), <- (items_obj _ _ _ Eb). apply IH; apply made_items; assumption.
  - reflexivity. - reflexivity. - reflexivity.
  - intros x y l m N _ _. cbn [map vitems fst snd]. destruct (kcmp (o_name x) (o_name y)); congruence.
  - intros k x y l m c K _ IH N Ml Mm. inversion Ml; subst. inversion Mm; subst. cbn [map vitems fst snd].
    rewrite <- IH by assumption. destruct k; [rewrite K by reflexivity|]; destruct c; congruence.
  - intros k x y l m c K _ IH _ IH2 Ml Mm. inversion Ml; subst. inversion Mm; subst. cbn [map vitems fst snd].
    rewrite <- IH by assumption. destruct k; [rewrite K by reflexivity|]; auto.
Qed.
Lemma compare_exists : forall L a b, exists c, o_compare L a b c.
Proof.
  intros L.
  assert (IT : forall k l, Forall (fun a => forall b, exists c, o_compare L a b c) l -> forall m, exists c, items_compare L k l m c).
  { intros k l H. induction H as [|x l Hx Hl IH]; intros [|y m]; try (eexists; constructor; fail).
    destruct (Hx y) as [c Hc], (IH m) as [d Hd].
    assert (D : (k = true -> kcmp (o_name x) (o_name y) = Eq) \/ (k = true /\ kcmp (o_name x) (o_name y) <> Eq)).
    { destruct k; [|left; discriminate]. destruct (kcmp (o_name x) (o_name y)); [left; auto|right; split; congruence|right; split; congruence]. }
    destruct D as [D|[-> D]]; [|eexists; apply J_name; exact D].
    destruct c; [exists d; apply J_next; assumption|exists Lt; apply J_item; (assumption || congruence)|exists Gt; apply J_item; (assumption || congruence)]. }
  assert (D : forall a b, plain a -> (forall k m, exists c, items_compare L k (o_items a) m c) -> exists c, o_compare L a b c).
  { intros a b P I. assert (Q : {o_type a = o_type b} + {o_type a <> o_type b}) by decide equality. destruct Q as [Q|Q]; [|eexists; apply C_type; assumption].
    destruct (o_type a) eqn:T; try (eexists; apply C_scalar; (assumption || congruence)).
    - destruct (I false (o_items b)) as [c Hc]. exists c. apply C_arr; (assumption || congruence).
    - destruct (I true (o_items b)) as [c Hc]. exists c. apply C_obj; (assumption || congruence). }
  intros a. enough (G : (forall k m, exists c, items_compare L k (o_items a) m c) /\ forall b, exists c, o_compare L a b c) by apply G.
  induction a using obj_ind'; cbn [o_items].
  all: try (split; [intros k m; destruct m; eexists; constructor|intros b'; apply D; [exact I|cbn [o_items]; intros k m; destruct m; eexists; constructor]]; fail).
  - assert (F : Forall (fun a => forall b, exists c, o_compare L a b c) l) by (eapply Forall_impl; [|exact H]; cbn; tauto).
    split; [intros; apply IT; exact F|intros b'; apply D; [exact I|intros; apply IT; exact F]].
  - assert (F : Forall (fun a => forall b, exists c, o_compare L a b c) l) by (eapply Forall_impl; [|exact H]; cbn; tauto).
    split; [intros; apply IT; exact F|intros b'; apply D; [exact I|intros; apply IT; exact F]].
  - assert (F : Forall (fun a => forall b, exists c, o_compare L a b c) l) by (eapply Forall_impl; [|exact H]; cbn; tauto).
    split; [intros; apply IT; exact F|intros b'; apply D; [exact I|intros; apply IT; exact F]].
  - split; [apply IHa|]. intros b'. apply D; [exact I|apply IHa].
  - split; [apply IHa|]. intros b'. destruct (proj2 IHa b') as [c Hc]. exists c. constructor. exact Hc.
Qed.
Theorem comparing : forall L a b, made L a -> made L b -> forall c, o_compare L a b c <-> c = vcmp L (denote a) (denote b).
Proof.
  intros L a b Ma Mb c. split; [intros H; exact (compare_right L a b c H Ma Mb)|].
  intros ->. destruct (compare_exists L a b) as [d Hd]. rewrite <- (compare_right L a b d Hd Ma Mb). exact Hd.
Qed.

(** *** Equality *)
Lemma zero_only : forall m, - 2 ^ 63 <= m < 2 ^ 64 -> SFeqb (S754_zero false) (f_of_Z m) = (0 =? m).
Proof.
  intros [|p|p] H; [reflexivity| |].
  - change (f_of_Z (Z.pos p)) with (binary_round fprec femax false p 0). destruct (round_int false p) as (m & e & -> & _); [lia|]. reflexivity.
  - change (f_of_Z (Z.neg p)) with (binary_round fprec femax true p 0). destruct (round_int true p) as (m & e & -> & _); [lia|]. reflexivity.
Qed.
Lemma exact_num_equal : forall L n m, exact L (VNum n) -> exact L (VNum m) -> SFeqb (get_number L n) (get_number L m) = num_equal L n m.
Proof.
  intros L n m Hn Hm. inversion Hn; subst. inversion Hm; subst. rewrite num_equal_rank, SFeqb_rank by assumption. reflexivity.
Qed.
(** Classes of numbers compared as doubles, and as integers. *)
Lemma abstract_eq : forall L a b n, made L a -> made L b -> denote a = VNum n -> matched L a b ->
  (forall m, no_key (o_unproxy b) -> made L (o_unproxy b) -> denote (o_unproxy b) = VNum m -> (forall t i o, o_unproxy b <> OWrap t i o) -> SFeqb (get_number L n) (get_number L m) = num_equal L n m) ->
  abstract_num_equal L a b = match denote b with VNum m => num_equal L n m | _ => false end.
Proof.
  intros L a b n Ma Mb Ea W H. unfold abstract_num_equal. rewrite type_dtype. destruct (denote b) eqn:Eb; try reflexivity. cbn [dtype teqb rank].
  rewrite (dbl_denote L a _ Ma Ea), (dbl_denote L b _ Mb Eb). cbn. rewrite <- (den_unproxy b) in Eb.
  destruct W as [W|[Xa Xb]].
  - apply H; [apply no_key_unproxy|apply made_unproxy; exact Mb|exact Eb|].
    intros t i o U. pose proof (wrap_free _ _ _ _ _ W U) as N. rewrite U in Eb. cbn in Eb. unfold not_number in N. rewrite Eb in N. exact N.
  - apply exact_num_equal; [rewrite <- Ea; exact Xa|rewrite <- Eb, den_unproxy; exact Xb].
Qed.
Scheme eq_mut := Induction for o_equal Sort Prop with eq_items_mut := Induction for items_equal Sort Prop.

Lemma matched_items : forall L a b la lb, matched L a b -> map den (o_items a) = la -> map den (o_items b) = lb ->
  (denote a = VArr la /\ denote b = VArr lb) \/ (exists d e, denote a = VObj d la /\ denote b = VObj e lb) -> 
  Forall (wraps not_number) (o_items b) \/ (Forall (fun o => exact L (denote o)) (o_items a) /\ Forall (fun o => exact L (denote o)) (o_items b)).
Proof.
  intros L a b la lb [W|[Xa Xb]] Ia Ib H; [left; apply wraps_items; exact W|right].
  assert (Fa : Forall (fun m => exact L (snd m)) la /\ Forall (fun m => exact L (snd m)) lb).
  { destruct H as [[Ha Hb]|(d & e & Ha & Hb)]; rewrite Ha in Xa; rewrite Hb in Xb; inversion Xa; inversion Xb; subst; split; assumption. }
  destruct Fa as [Fa Fb]. subst la lb. rewrite Forall_map in Fa, Fb. split; assumption.
Qed.
Lemma equal_right : forall L a b r, o_equal L a b r -> made L a -> made L b -> matched L a b -> equal_run L (denote a) (denote b) r.
Proof.
  intros L. apply (eq_mut L (fun a b r _ => made L a -> made L b -> matched L a b -> equal_run L (denote a) (denote b) r)
    (fun ok k l m r _ => Forall (made L) l -> Forall (made L) m -> (ok = true -> length l = length m) ->
       (Forall (wraps not_number) m \/ (Forall (fun o => exact L (denote o)) l /\ Forall (fun o => exact L (denote o)) m)) ->
       if ok then items_run L k (map den l) (map den m) r else r = false)).
  - intros b _ _ _. constructor.
  - intros b _ _ _. rewrite type_dtype. replace (teqb (dtype (denote b)) TNull) with (match denote b with VNull => true | _ => false end) by (destruct (denote b); reflexivity). constructor.
  - intros x b _ _ _. rewrite type_dtype. replace (teqb (dtype (denote b)) TBool && Bool.eqb x (o_bool b)) with (match denote b with VBool c => Bool.eqb x c | _ => false end); [constructor|].
    destruct (denote b) eqn:E; try reflexivity. rewrite (bool_denote _ _ E). reflexivity.
  - intros b Ma Mb W. rewrite (abstract_eq L OZero b (NUInt 0) Ma Mb eq_refl W); [constructor|].
    intros m KK M E NW. destruct (o_unproxy b); try discriminate E; try contradiction KK; try (exfalso; eapply NW; reflexivity); injection E as <-; try reflexivity.
    cbn in M |- *. apply zero_only. lia.
  - intros n b Ma Mb W. 
    assert (A : abstract_num_equal L (OUInt n) b = match denote b with VNum m => num_equal L (NUInt n) m | _ => false end \/ exists m, o_unproxy b = OUInt m).
    { destruct (o_unproxy b) eqn:U; try (right; eexists; reflexivity);
      left; apply (abstract_eq L (OUInt n) b (NUInt n) Ma Mb eq_refl W); rewrite U; intros m' KK M E NW; try discriminate E; try contradiction KK; try (exfalso; eapply NW; reflexivity); injection E as <-; try reflexivity.
      cbn in Ma |- *. rewrite SFeqb_sym, Z.eqb_sym. apply zero_only. lia. }
    destruct A as [A|[m U]].
    + destruct (o_unproxy b) eqn:U; try (rewrite A; constructor).
      replace (n0 =? n) with (match denote b with VNum m => num_equal L (NUInt n) m | _ => false end); [constructor|].
      rewrite <- (den_unproxy b), U. cbn. apply Z.eqb_sym.
    + rewrite U. replace (m =? n) with (match denote b with VNum m => num_equal L (NUInt n) m | _ => false end); [constructor|].
      rewrite <- (den_unproxy b), U. cbn. apply Z.eqb_sym.
  - intros n b Ma Mb W. destruct (o_unproxy b) eqn:U; try (rewrite (abstract_eq L (OInt n) b (NInt n) Ma Mb eq_refl W); [constructor|];
      rewrite U; intros m' KK M E NW; try discriminate E; try contradiction KK; try (exfalso; eapply NW; reflexivity); injection E as <-; reflexivity).
    replace (n0 =? n) with (match denote b with VNum m => num_equal L (NInt n) m | _ => false end); [constructor|].
    rewrite <- (den_unproxy b), U. cbn. apply Z.eqb_sym.
  - intros f b Ma Mb W. destruct (o_unproxy b) eqn:U; try (rewrite (abstract_eq L (ODbl f) b (NDbl f) Ma Mb eq_refl W); [constructor|];
      rewrite U; intros m' KK M E NW; try discriminate E; try contradiction KK; try (exfalso; eapply NW; reflexivity); injection E as <-; reflexivity).
    replace (SFeqb f0 f) with (match denote b with VNum m => num_equal L (NDbl f) m | _ => false end); [constructor|].
    rewrite <- (den_unproxy b), U. cbn. apply SFeqb_sym.
  - intros t n b Ma Mb W. rewrite (abstract_eq L (OPrecUInt t n) b (NPrec t (PkUInt n)) Ma Mb eq_refl W); [constructor|]. reflexivity.
  - intros t n b Ma Mb W. rewrite (abstract_eq L (OPrecInt t n) b (NPrec t (PkInt n)) Ma Mb eq_refl W); [constructor|]. reflexivity.
  - intros t n b Ma Mb W. rewrite (abstract_eq L (OPrecDbl t n) b (NPrec t PkDbl) Ma Mb eq_refl W); [constructor|]. reflexivity.
  - intros a b C _ _ _. rewrite type_dtype.
    assert (X : exists e, denote a = VStr e (o_string a)) by (destruct a; try contradiction; eexists; reflexivity). destruct X as [e ->].
    replace (teqb (dtype (denote b)) TString && beqb (o_string a) (o_string b)) with (match denote b with VStr _ t => beqb (o_string a) t | _ => false end); [constructor|].
    destruct (denote b) eqn:E; try reflexivity. rewrite (string_denote _ _ _ E). reflexivity.
  - intros a b r C _ IH Ma Mb W.
    assert (X : exists l, denote a = VArr l) by (destruct a; try contradiction; eexists; reflexivity). destruct X as [l Ea].
    rewrite type_dtype in IH. pose proof (items_arr _ _ Ea) as Il. rewrite Ea.
    assert (LL : length l = length (o_items a)) by (rewrite <- Il; apply map_length).
    destruct (denote b) as [| | | | |m|] eqn:Eb; cbn in IH; try (rewrite IH; [apply ER_arr_type; intros ? Q; discriminate Q|apply made_items; exact Ma|apply made_items; exact Mb|discriminate|
      left; rewrite items_scalar; [constructor| |]; rewrite type_dtype, Eb; discriminate]).
    2:{ destruct W as [W|[Xa Xb]].
        - rewrite IH; [apply ER_arr_type; intros ? Q; discriminate Q|apply made_items; exact Ma|apply made_items; exact Mb|discriminate|left; apply wraps_items; exact W].
        - rewrite IH; [apply ER_arr_type; intros ? Q; discriminate Q|apply made_items; exact Ma|apply made_items; exact Mb|discriminate|right].
          rewrite Ea in Xa. rewrite Eb in Xb. inversion Xa as [| | | | |? Fa|]; subst. inversion Xb as [| | | | | |? ? Fb]; subst. rewrite <- (items_obj _ _ _ Eb) in Fb. rewrite Forall_map in Fa, Fb. split; assumption. }
    pose proof (items_arr _ _ Eb) as Im. assert (LM : length m = length (o_items b)) by (rewrite <- Im; apply map_length).
    pose proof (matched_items L a b l m W Il Im (or_introl (conj Ea Eb))) as WI.
    destruct (Nat.eqb_spec (length (o_items b)) (length (o_items a))) as [Q|Q].
    + apply ER_arr; [lia|]. rewrite <- Il, <- Im. apply IH; [apply made_items; exact Ma|apply made_items; exact Mb|auto|exact WI].
    + rewrite IH; [apply ER_arr_size; lia|apply made_items; exact Ma|apply made_items; exact Mb|discriminate|exact WI].
  - intros a b r C _ IH Ma Mb W.
    assert (X : exists d l, denote a = VObj d l) by (destruct a; try contradiction; eexists; eexists; reflexivity). destruct X as (d & l & Ea).
    rewrite type_dtype in IH. pose proof (items_obj _ _ _ Ea) as Il. rewrite Ea.
    assert (LL : length l = length (o_items a)) by (rewrite <- Il; apply map_length).
    destruct (denote b) as [| | | | |m|e m] eqn:Eb; cbn in IH; try (rewrite IH; [apply ER_obj_type; intros ? ? Q; discriminate Q|apply made_items; exact Ma|apply made_items; exact Mb|discriminate|
      left; rewrite items_scalar; [constructor| |]; rewrite type_dtype, Eb; discriminate]).
    { destruct W as [W|[Xa Xb]].
        - rewrite IH; [apply ER_obj_type; intros ? ? Q; discriminate Q|apply made_items; exact Ma|apply made_items; exact Mb|discriminate|left; apply wraps_items; exact W].
        - rewrite IH; [apply ER_obj_type; intros ? ? Q; discriminate Q|apply made_items; exact Ma|apply made_items; exact Mb|discriminate|right].
          rewrite Ea in Xa. rewrite Eb in Xb. inversion Xa as [| | | | | |? ? Fa]; subst. inversion Xb as [| | | | |? Fb|]; subst. rewrite <- (items_arr _ _ Eb) in Fb. rewrite Forall_map in Fa, Fb. split; assumption. }
    pose proof (items_obj _ _ _ Eb) as Im. assert (LM : length m = length (o_items b)) by (rewrite <- Im; apply map_length).
    pose proof (matched_items L a b l m W Il Im (or_intror (ex_intro _ d (ex_intro _ e (conj Ea Eb))))) as WI.
    destruct (Nat.eqb_spec (length (o_items b)) (length (o_items a))) as [Q|Q].
    + apply ER_obj; [lia|]. rewrite <- Il, <- Im. apply IH; [apply made_items; exact Ma|apply made_items; exact Mb|auto|exact WI].
    + rewrite IH; [apply ER_obj_size; lia|apply made_items; exact Ma|apply made_items; exact Mb|discriminate|exact WI].
  - intros k a b r _ IH Ma Mb W. cbn [denote]. rewrite <- (den_unproxy b). apply IH; [cbn in Ma; tauto|apply made_unproxy; exact Mb|].
    destruct W as [W|[Xa Xb]]; [left|right; rewrite den_unproxy; split; assumption].
    clear -W. induction b using obj_ind'; cbn [o_unproxy]; auto.
  - intros t i a b r _ IH Ma Mb W. cbn [denote]. apply IH; [cbn in Ma; tauto|exact Mb|exact W].
  - reflexivity.
  - intros k m _ _ LN _. destruct m; [constructor|discriminate (LN eq_refl)].
  - intros k x l m r _ IH Ml Mm LN WI. inversion Ml; subst. inversion Mm; subst. cbn [map]. apply IR_same. apply IH; [assumption|assumption|intros _; specialize (LN eq_refl); cbn in LN; lia|].
    destruct WI as [WI|[X1 X2]]; [left; inversion WI; assumption|right; inversion X1; inversion X2; split; assumption].
  - intros x y l m N Ml Mm LN WI. cbn [map]. apply IR_key. exact N.
  - intros k x y l m K _ IH Ml Mm LN WI. inversion Ml; subst. inversion Mm; subst. cbn [map]. apply IR_false; [exact K|]. apply IH; [assumption|assumption|]; unfold matched.
    destruct WI as [WI|[X1 X2]]; [left; inversion WI; assumption|right; inversion X1; inversion X2; split; assumption].
  - intros k x y l m r K _ IH _ IH2 Ml Mm LN WI. inversion Ml; subst. inversion Mm; subst. cbn [map]. apply IR_true; [exact K| |].
    + apply IH; [assumption|assumption|]; unfold matched. destruct WI as [WI|[X1 X2]]; [left; inversion WI; assumption|right; inversion X1; inversion X2; split; assumption].
    + apply IH2; [assumption|assumption|intros _; specialize (LN eq_refl); cbn in LN; lia|]. destruct WI as [WI|[X1 X2]]; [left; inversion WI; assumption|right; inversion X1; inversion X2; split; assumption].
Qed.
Lemma equal_exists : forall L a b, exists r, o_equal L a b r.
Proof.
  intros L.
  assert (IT : forall k l, Forall (fun a => forall b, exists r, o_equal L a b r) l -> forall ok m, (ok = true -> length m = length l) -> exists r, items_equal L ok k l m r).
  { intros k l H. induction H as [|x l Hx Hl IH]; intros ok m LN; (destruct ok; [|eexists; apply I_no]); [eexists; constructor|].
    destruct m as [|y m]; [discriminate (LN eq_refl)|].
    destruct (Hx y) as [r Hr], (IH true m) as [d Hd]; [intros _; specialize (LN eq_refl); cbn in LN; lia|].
    assert (D : (k = true -> o_name x = o_name y) \/ (k = true /\ o_name x <> o_name y)).
    { destruct k; [|left; discriminate]. destruct (list_eq_dec Z.eq_dec (o_name x) (o_name y)); [left; auto|right; split; congruence]. }
    destruct D as [D|[-> D]]; [|eexists; apply I_name; exact D].
    destruct r; [exists d; apply I_next; assumption|exists false; apply I_diff; assumption]. }
  assert (LN : forall t a b, teqb (o_type b) t && Nat.eqb (length (o_items b)) (length (o_items a)) = true -> length (o_items b) = length (o_items a)).
  { intros t a b H. apply andb_prop in H as [_ H]. apply Nat.eqb_eq in H. exact H. }
  induction a using obj_ind'; intros b'.
  all: try (eexists; constructor; fail).
  all: try (eexists; apply Q_str; exact I).
  - destruct (IT false [] (Forall_nil _) _ (o_items b') (LN TArray OEmptyArr b')) as [r Hr]. exists r. apply Q_arr; [exact I|exact Hr].
  - destruct (IT false l H _ (o_items b') (LN TArray (OArr l) b')) as [r Hr]. exists r. apply Q_arr; [exact I|exact Hr].
  - destruct (IT false l H _ (o_items b') (LN TArray (OSubArr l) b')) as [r Hr]. exists r. apply Q_arr; [exact I|exact Hr].
  - destruct (IT true [] (Forall_nil _) _ (o_items b') (LN TObject OEmptyObj b')) as [r Hr]. exists r. apply Q_obj; [exact I|exact Hr].
  - destruct (IT true l H _ (o_items b') (LN TObject (OObj d l) b')) as [r Hr]. exists r. apply Q_obj; [exact I|exact Hr].
  - destruct (IHa (o_unproxy b')) as [r Hr]. exists r. apply Q_key. exact Hr.
  - destruct (IHa b') as [r Hr]. exists r. apply Q_wrap. exact Hr.
Qed.
Theorem equality : forall L a b, made L a -> made L b -> matched L b a ->
  (exists r, o_op_eq L a b r) /\ (forall r, o_op_eq L a b r -> op_eq L (denote a) (denote b) r).
Proof.
  intros L a b Ma Mb W. split.
  - destruct (equal_exists L b a) as [r Hr]. exists r. right. exact Hr.
  - intros r [[-> ->]|H]; [left; auto|right]. apply equal_right; assumption.
Qed.
Theorem equality_wrapped : exists L a b, made L a /\ made L b /\ o_equal L a b true /\ ~ o_equal L b a true /\ ~ equal_run L (denote a) (denote b) true.
Proof.
  exists (mkLibm (fun a _ => a) (fun a => a) (fun _ => S754_zero false)), (OUInt (2 ^ 53)), (make_value 7 1 (OUInt (2 ^ 53 + 1))).
  split; [cbn; lia|]. split; [cbn; lia|]. split.
  - match goal with |- o_equal ?l (OUInt ?n) ?b true => assert (E : match o_unproxy b with OUInt m => m =? n | _ => abstract_num_equal l (OUInt n) b end = true) by (vm_compute; reflexivity);
      pattern true; rewrite <- E; constructor end.
  - split; intros H.
    + unfold make_value in H. inversion H; subst; try contradiction.
      match goal with X : o_equal _ _ _ true |- _ => cbn [o_unproxy] in X; inversion X; subst; try contradiction; discriminate end.
    + cbn [denote make_value o_unproxy] in H. inversion H; discriminate.
Qed.

(** *** Members *)
Lemma find_mapped : forall (A B : Type) (f : A -> B) l name fuel lo hi,
  find_loop fuel (map (fun m => (fst m, f (snd m))) l) name lo hi =
  match find_loop fuel l name lo hi with Ok (Some m) => Ok (Some (fst m, f (snd m))) | Ok None => Ok None | Err => Err | Fuel => Fuel end.
Proof.
  intros A B f l name. induction fuel as [|fuel IH]; intros lo hi; [reflexivity|]. cbn [find_loop].
  destruct (Nat.ltb lo hi); [|reflexivity]. rewrite nth_error_map. destruct (nth_error l ((lo + hi) / 2)) as [m|]; cbn [option_map]; [|reflexivity].
  cbn [fst]. destruct (kcmp name (fst m)); [reflexivity|apply IH|apply IH].
Qed.
Lemma member_denote : forall o name, denote (o_member o name) = value_member (denote o) name.
Proof.
  intros o name. unfold o_member, value_member. rewrite type_dtype. destruct (denote o) eqn:E; try reflexivity. cbn [dtype].
  rewrite <- (items_obj _ _ _ E). unfold find_member, findSorted, keyed.
  replace (map den (o_items o)) with (map (fun m => (fst m, denote (snd m))) (map (fun i => (o_name i, i)) (o_items o))) by (rewrite map_map; reflexivity).
  rewrite find_mapped, !map_length.
  destruct (find_loop _ _ _ _ _) as [[[k i]|]| |]; reflexivity.
Qed.
Lemma item_denote : forall o n, denote (o_item o n) = match nth_error (o_items o) n with Some i => denote i | None => VUndef end.
Proof.
  intros o n. unfold o_item. destruct (nth_error (o_items o) n) eqn:E; [rewrite (nth_error_nth _ _ _ E); reflexivity|].
  rewrite nth_overflow; [reflexivity|]. apply nth_error_None. exact E.
Qed.
Lemma item_name : forall o n v, nth_error (match denote o with VArr l | VObj _ l => l | _ => [] end) n = Some v -> (o_name (o_item o n), denote (o_item o n)) = v.
Proof.
  intros o n v H. unfold o_item.
  assert (N : nth_error (map den (o_items o)) n = Some v).
  { destruct (denote o) eqn:E; try (destruct n; discriminate H); [rewrite (items_arr _ _ E)|rewrite (items_obj _ _ _ E)]; exact H. }
  rewrite nth_error_map in N. destruct (nth_error (o_items o) n) eqn:E; [|discriminate]. injection N as <-. rewrite (nth_error_nth _ _ _ E). reflexivity.
Qed.

(** *** Keys *)
Lemma name_no_key : forall L o, made L o -> no_key o -> o_name o = [].
Proof. intros L. induction o using obj_ind'; cbn; intros M K; try reflexivity; try contradiction. destruct M. auto. Qed.
Lemma beqb_true : forall a b, beqb a b = true -> a = b.
Proof. induction a as [|x a IH]; intros [|y b]; cbn; try discriminate; auto. destruct (Z.eqb_spec x y); cbn; [|discriminate]. intros H. f_equal; auto. Qed.
Theorem keys : forall L o k, made L o ->
  o_name (bind_key k o) = k /\ denote (bind_key k o) = denote o /\ made L (bind_key k o) /\ o_unproxy (bind_key k o) = o_unproxy o.
Proof.
  intros L o k M. unfold bind_key. destruct k as [|c k].
  - rewrite den_unproxy. split; [eapply name_no_key; [apply made_unproxy; exact M|apply no_key_unproxy]|]. split; [reflexivity|]. split; [apply made_unproxy; exact M|].
    apply unproxy_id. apply no_key_unproxy.
  - destruct (beqb (c :: k) (o_name o)) eqn:E; [apply beqb_true in E; auto|]. cbn [o_name denote made o_unproxy]. rewrite den_unproxy.
    repeat split; [apply no_key_unproxy|apply made_unproxy; exact M|]. rewrite (unproxy_id (o_unproxy o)) by apply no_key_unproxy. reflexivity.
Qed.

(** *** Wrapped objects *)
Theorem wrapping : forall L caught ty id o k, made L o ->
  let h := bind_key k (make_value ty id o) in
  made L h /\ denote h = denote o /\ o_name h = k /\
  o_cast caught ty h = Some id /\
  (forall ty', ty' <> ty -> o_cast caught ty' h = if caught ty' ty then Some id else None) /\
  o_cast caught ty (make_value ty id (bind_key k o)) = Some id.
Proof.
  intros L caught ty id o k M h.
  assert (MM : made L (make_value ty id o)) by (cbn; split; [apply no_key_unproxy|apply made_unproxy; exact M]).
  destruct (keys L (make_value ty id o) k MM) as (N & D & M2 & U). fold h in N, D, M2, U.
  split; [exact M2|]. split; [rewrite D; cbn; apply den_unproxy|]. split; [exact N|]. unfold o_cast. rewrite U. cbn. rewrite Z.eqb_refl.
  split; [reflexivity|]. split; [|reflexivity]. intros ty' NE. destruct (Z.eqb_spec ty' ty); [contradiction|reflexivity].
Qed.
Theorem not_wrapped : forall caught ty o, wraps (fun _ => False) o -> o_cast caught ty o = None.
Proof.
  intros caught ty o W. unfold o_cast. destruct (o_unproxy o) eqn:U; try reflexivity. destruct (wrap_free _ _ _ _ _ W U).
Qed.
Theorem wrapped_member : forall L caught ty id o k d l, made L o -> keys_increasing (keyed l) ->
  In (bind_key k (make_value ty id o)) l -> o_cast caught ty (o_member (OObj d l) k) = Some id.
Proof.
  intros L caught ty id o k d l M SO IN.
  destruct (wrapping L caught ty id o k M) as (_ & _ & N & C & _).
  unfold o_member. cbn [o_type o_items].
  destruct (lookup_exact obj (keyed l) k SO) as [F _]. 
  rewrite (proj2 (F (bind_key k (make_value ty id o)))); [exact C|].
  unfold keyed. apply in_map_iff. eexists. split; [|exact IN]. rewrite N. reflexivity.
Qed.

(** *** Binary strings *)
Lemma decoded : forall e s v, decode_value e s = Some v -> exists en d, v = VStr en d /\ (en = Some (decoded_as e) \/ (d = [] /\ en = None)).
Proof.
  intros [] s v H; cbn in H.
  - injection H as <-. unfold b64_decode. destruct (_ || _); [eauto 6|]. destruct (nth (length s - 1) s 0 =? 61); cbn [fst snd]; destruct (_ =? 61); eauto 6.
  - injection H as <-. unfold b64url_decode. eauto 6.
  - injection H as <-. unfold url_decode. destruct (url_decode_loop s). eauto.
  - unfold utf8_decode in H. destruct (utf8_to_wide u_init s), (utf8_to_wide u s). destruct (_ =? _)%nat; [injection H as <-; eauto|discriminate].
Qed.
Lemma str_obj_denote : forall en d, denote (str_obj (VStr en d)) = VStr en d.
Proof. intros [e|] [|c d]; reflexivity. Qed.
Lemma str_obj_string : forall en d, o_string (str_obj (VStr en d)) = d.
Proof. intros [e|] [|c d]; reflexivity. Qed.

Theorem binary_data : forall e o en s, denote o = VStr en s -> option_map bin_data (o_get_binary e o) = get_binary e (denote o).
Proof.
  intros e o en s E. unfold o_get_binary. rewrite E, (string_denote _ _ _ E), (binary_denote _ _ _ E).
  destruct s as [|c s]; [destruct en; reflexivity|]. destruct en as [en|]; cbn [option_map binary_of bin_data get_binary].
  - rewrite (string_denote _ _ _ E). reflexivity.
  - destruct (decode_value e (c :: s)) as [v|] eqn:D; [|reflexivity]. destruct (decoded _ _ _ D) as (en & d & -> & _).
    cbn [option_map binary_of bin_data]. rewrite str_obj_string. reflexivity.
Qed.
(** A binary string keeps its bytes and its encoding, a text is decoded. *)
Theorem binary_kept : forall e o b, no_key o -> plain o -> o_get_binary e o = Some b ->
  (forall en s, denote o = VStr (Some en) s -> s <> [] -> binary_encoding b = Some (Some en) /\ of_binary b = o) /\
  (forall s, denote o = VStr None s -> bin_data b <> [] -> binary_encoding b = Some (Some (decoded_as e)) /\
     denote (of_binary b) = VStr (Some (decoded_as e)) (bin_data b)).
Proof.
  intros e o b K P H. unfold o_get_binary in H. split.
  - intros en s E NE. rewrite (string_denote _ _ _ E), (binary_denote _ _ _ E) in H. destruct s; [contradiction|]. injection H as <-.
    unfold binary_encoding, of_binary, binary_of. cbn [bin_handle]. split; [|reflexivity]. eapply encoding_denote; [exact K| |exact E]. exact P.
  - intros s E NE. rewrite (string_denote _ _ _ E), (binary_denote _ _ _ E) in H. destruct s; [injection H as <-; contradiction NE; reflexivity|].
    destruct (decode_value e (z :: s)) as [v|] eqn:D; [|discriminate]. injection H as <-. destruct (decoded _ _ _ D) as (en & d & -> & [->|[-> ->]]).
    + unfold binary_encoding, of_binary, binary_of in *. cbn [bin_handle bin_data] in *. rewrite str_obj_denote, str_obj_string in *. destruct d; [contradiction NE; reflexivity|]. auto.
    + contradiction NE. reflexivity.
Qed.
Theorem binary_made : forall e e' d b, o_get_binary e' (of_bytes d e) = Some b ->
  bin_data b = d /\ (d <> [] -> binary_encoding b = Some (Some e) /\ denote (of_binary b) = VStr (Some e) d).
Proof.
  intros e e' d b H. unfold o_get_binary in H. cbn in H. destruct d as [|c d]; injection H as <-; [split; [reflexivity|intros N; contradiction N; reflexivity]|].
  cbn. auto.
Qed.
Theorem binary_lost : exists o b b', made_ok o /\ denote o = VStr (Some EncBase64) [1; 2; 3] /\
  (forall e, o_get_binary e o = Some b) /\ bin_data b = [1; 2; 3] /\ binary_encoding b = None /\
  (forall e, o_get_binary e (of_bytes [] EncBase64) = Some b') /\ binary_encoding b' = Some None.
Proof.
  exists (bind_key [107] (of_bytes [1; 2; 3] EncBase64)). eexists. eexists. split; [intros L; cbn; auto|]. split; [reflexivity|]. split; [intros e; reflexivity|]. split; [reflexivity|].
  split; [reflexivity|]. split; [intros e; reflexivity|reflexivity].
Qed.

(** *** Truth *)
Theorem truth_right : forall L o, made L o -> ~ odd o -> o_bool o = truth (denote o) L.
Proof.
  intros L. induction o using obj_ind'; cbn [made odd o_bool denote truth]; intros M N; try reflexivity; try (apply IHo; tauto).
  - cbn. rewrite SFeqb_sym, zero_only by lia. destruct (Z.eqb_spec 0 n); [lia|reflexivity].
  - cbn. rewrite SFeqb_sym, zero_only by lia. destruct (Z.eqb_spec 0 n); [lia|reflexivity].
  - cbn. destruct (SFeqb f (S754_zero false)); [destruct N; reflexivity|reflexivity].
  - cbn. rewrite SFeqb_sym, zero_only by lia. rewrite Z.eqb_sym. reflexivity.
  - cbn. rewrite SFeqb_sym, zero_only by lia. rewrite Z.eqb_sym. reflexivity.
  - destruct c; [tauto|]. subst. reflexivity.
  - destruct s; [tauto|reflexivity].
  - destruct s; [tauto|reflexivity].
  - destruct l; [tauto|reflexivity].
  - destruct l; [tauto|reflexivity].
  - destruct l; [tauto|reflexivity].
Qed.
Theorem truth_made : forall n f,
  o_bool (of_uint n) = negb (n =? 0) /\ o_bool (of_int n) = negb (n =? 0) /\ o_bool (of_dbl f) = negb (SFeqb f (S754_zero false)) /\
  ~ odd (of_uint n) /\ ~ odd (of_int n) /\ ~ odd (of_dbl f).
Proof.
  intros n f. unfold of_uint, of_int, of_dbl. destruct (Z.eqb_spec n 0), (SFeqb f (S754_zero false)) eqn:E; cbn; rewrite ?E; repeat split; auto; congruence.
Qed.
Theorem truth_odd : exists L a b, made L a /\ made L b /\ denote a = denote b /\ o_bool a <> o_bool b /\ denote a = VArr [].
Proof.
  exists (mkLibm (fun a _ => a) (fun a => a) (fun _ => S754_zero false)), OEmptyArr, (OArr []). repeat split; discriminate.
Qed.
Theorem truth_unread : exists L t f g, made L (OPrecDbl t (Junk f)) /\ made L (OPrecDbl t (Read g)) /\
  o_bool (OPrecDbl t (Junk f)) = false /\ o_bool (OPrecDbl t (Read g)) = true.
Proof.
  exists (mkLibm (fun a _ => a) (fun a => a) (fun _ => f_of_Z 1)), [49; 46; 48], (S754_zero false), (f_of_Z 1). repeat split.
Qed.

Lemma past_end : forall o n, (length (match denote o with VArr l | VObj _ l => l | _ => [] end) <= n)%nat -> denote (o_item o n) = VUndef.
Proof.
  intros o n H. rewrite item_denote. replace (nth_error (o_items o) n) with (@None obj); [reflexivity|]. symmetry. apply nth_error_None.
  revert H. induction o using obj_ind'; cbn [denote o_items] in *; rewrite ?map_length; auto.
Qed.
Lemma whole_numbers : forall L o n z, made L o -> denote o = VNum n ->
  (n = NUInt z \/ n = NInt z \/ exists t, n = NPrec t (PkUInt z) \/ n = NPrec t (PkInt z)) ->
  o_uint o = z mod 2 ^ 64 /\ - 2 ^ 63 <= o_int o < 2 ^ 63 /\ (o_int o - z) mod 2 ^ 64 = 0.
Proof.
  assert (S : forall z, - 2 ^ 63 <= s64 z < 2 ^ 63 /\ (s64 z - z) mod 2 ^ 64 = 0).
  { intros z. unfold s64. pose proof (Z.mod_pos_bound z (2 ^ 64) ltac:(lia)) as B. pose proof (Z.div_mod z (2 ^ 64) ltac:(lia)) as D.
    destruct (Z.ltb_spec (z mod 2 ^ 64) (2 ^ 63)); (split; [lia|]).
    - replace (z mod 2 ^ 64 - z) with ((- (z / 2 ^ 64)) * 2 ^ 64) by lia. apply Z.mod_mul. lia.
    - replace (z mod 2 ^ 64 - 2 ^ 64 - z) with ((- (z / 2 ^ 64) - 1) * 2 ^ 64) by lia. apply Z.mod_mul. lia. }
  intros L o n z. induction o using obj_ind'; intros M E Hz; cbn [denote made o_uint o_int] in *; try discriminate;
    try (apply IHo; tauto); injection E as <-; destruct Hz as [E|[E|(t' & [E|E])]]; try discriminate; try (injection E as <-); try (injection E as _ <-); subst.
  1: vm_compute; intuition congruence.
  all: split; [try reflexivity; symmetry; apply Z.mod_small; exact M|]; try apply S; (split; [exact M|]); rewrite Z.sub_diag; reflexivity.
Qed.

Lemma strings : forall o, o_string o = ModelJwt.get_string (denote o) /\
  o_string o = match denote o with VStr _ s => s | VNum (NPrec s _) => s | _ => [] end.
Proof. fix IH 1. intros o. destruct o; try (split; reflexivity); cbn [o_string denote]; apply IH. Qed.
