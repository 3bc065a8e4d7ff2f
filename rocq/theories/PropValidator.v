(** C37, C38, C59, C60: rules of the validator. *)
From Coq Require Import String Ascii Lia Sorted.
From Verif Require Import Base ModelKeyed SpecKeyed ModelValue ModelText ModelObject ModelArray ModelEq ModelBin ModelPath ModelRpc
  ModelNumView ModelValidator SpecValidator ProofValidator2 ProofValidator3 ProofValidator4 ProofValidator5 ProofTemplate PropEq.
Local Open Scope Z_scope.
Local Open Scope list_scope.

(** *** C37 *)
(** An object against a template, for member names in order of the template, none
    of them empty in the subject.  The last condition: the rule of the wildcard
    is also applied to nothing when no key of the subject gets as far as the
    wildcard. *)
Theorem C37_template : forall V vars k d ss d' ts, keys_increasing ss -> (forall x, In x ss -> fst x <> []) ->
  keys_increasing ts -> StronglySorted klt (template_names ts) ->
  (accepts V vars (k, VObj d ss) (VObj d' ts) <->
   matches_template V vars ss ts /\
   (forall r, In (wild_key, r) ts -> ~ passes_wild ss ts -> accepts V vars ([], VUndef) r)).
Proof. exact template_accepts. Qed.
Print Assumptions C37_template.

(** The names are in order when no key is made of two or more percent signs. *)
Theorem C37_in_order : forall ts : list member, keys_increasing ts ->
  (forall t, In t ts -> forall n, fst t <> 37 :: 37 :: repeat 37 n) -> StronglySorted klt (template_names ts).
Proof. exact names_sorted. Qed.
Print Assumptions C37_in_order.

(** Other values than objects are rejected. *)
Theorem C37_only_objects : forall V vars m d ts, (forall e ss, snd m <> VObj e ss) -> rejects V vars m (VObj d ts).
Proof. exact template_object_only. Qed.
Print Assumptions C37_only_objects.

(** *** C38 *)
(** A rule never both accepts and rejects, whatever the path, the bound, the
    earlier rejections and what was emitted. *)
Theorem C38_one_verdict : forall V vars m r, accepts V vars m r -> rejects V vars m r -> False.
Proof. exact never_both. Qed.
Print Assumptions C38_one_verdict.

(** A list of alternatives: the first that does not reject has to accept. *)
Theorem C38_alternatives : forall V vars m args, plain_list vars m args ->
  (accepts V vars m (VArr args) <-> one_accepts V vars m args) /\
  (rejects V vars m (VArr args) <-> Forall (fun y => rejects V vars m (snd y)) args).
Proof. exact plain_ends. Qed.
Print Assumptions C38_alternatives.
Theorem C38_alternatives_some : forall V vars m args, plain_list vars m args -> Forall (fun y => decided V vars m (snd y)) args ->
  (accepts V vars m (VArr args) <-> Exists (fun y => accepts V vars m (snd y)) args) /\
  (rejects V vars m (VArr args) <-> ~ Exists (fun y => accepts V vars m (snd y)) args).
Proof. exact list_some. Qed.
Print Assumptions C38_alternatives_some.

Theorem C38_not : forall V vars m k e w args, In w (map txt ["not"; "!"]%string) -> Forall (fun y => decided V vars m (snd y)) args ->
  (accepts V vars m (VArr ((k, VStr e w) :: args)) <-> ~ Exists (fun y => accepts V vars m (snd y)) args) /\
  (rejects V vars m (VArr ((k, VStr e w) :: args)) <-> Exists (fun y => accepts V vars m (snd y)) args).
Proof. exact not_some. Qed.
Print Assumptions C38_not.

Theorem C38_all : forall V vars m k e w args, In w (map txt ["all"; "^"]%string) ->
  (accepts V vars m (VArr ((k, VStr e w) :: args)) <-> all_hold V vars m args).
Proof. exact all_ends. Qed.
Print Assumptions C38_all.
(** A rule that starts with a comparison reads the same way. *)
Theorem C38_compare : forall V vars m k e op args, In op ["<"; ">="; ">"; "<="]%string ->
  (accepts V vars m (VArr ((k, VStr e (txt op)) :: args)) <-> all_hold V vars m ((k, VStr e (txt op)) :: args)).
Proof. exact range_ends. Qed.
Print Assumptions C38_compare.

(** Sizes; what has none is accepted by both. *)
Theorem C38_minsize : forall V vars m k1 e1 k2 z post,
  let r := VArr ((k1, VStr e1 (txt "minsize")) :: (k2, VNum (NUInt z)) :: post) in
  let large := forall n, has_size (snd m) n -> z <= n in
  (accepts V vars m r <-> large) /\ (rejects V vars m r <-> ~ large).
Proof. exact minsize_rule. Qed.
Print Assumptions C38_minsize.
Theorem C38_maxsize : forall V vars m k1 e1 k2 z post,
  let r := VArr ((k1, VStr e1 (txt "maxsize")) :: (k2, VNum (NUInt z)) :: post) in
  let small := forall n, has_size (snd m) n -> n <= z in
  (accepts V vars m r <-> small) /\ (rejects V vars m r <-> ~ small).
Proof. exact maxsize_rule. Qed.
Print Assumptions C38_maxsize.

(** *** C59: arrays *)
(** [[], rules]: every item is accepted by one of the rules. *)
Theorem C59_items : forall V vars m k rules,
  (accepts V vars m (VArr ((k, VArr []) :: rules)) <->
   exists l, snd m = VArr l /\ forall x, In x l -> one_accepts V vars x rules).
Proof. exact items_rule. Qed.
Print Assumptions C59_items.
(** [[n], rules]: the first [n] rules are for the first [n] items, where a missing
    item is undefined and a missing rule rejects; the other items are accepted
    by one of the other rules. *)
Theorem C59_tuple : forall V vars m k k' n rules, 0 <= Z.of_nat n < 2 ^ 32 - 1 ->
  (accepts V vars m (VArr ((k, VArr [(k', VNum (NUInt (Z.of_nat n)))]) :: rules)) <->
   exists l, snd m = VArr l /\
     (forall i, (i < n)%nat -> accepts V vars (item l i) (snd (item rules i))) /\
     (forall x, In x (skipn n l) -> one_accepts V vars x (skipn n rules))).
Proof. exact tuple_rule. Qed.
Print Assumptions C59_tuple.

(** *** C60: what an evaluation leaves behind *)
(** A verdict does not depend on the path, the earlier rejections and the bound,
    once it is large enough. *)
Theorem C60_any_state : forall V vars m rule b, ends V vars m rule b ->
  exists fuel, forall g p s, (fuel <= g)%nat -> vs_vars s = vars -> exists t, eval_rule V g p m rule s = VDone b t.
Proof. exact ends_any. Qed.
Print Assumptions C60_any_state.
(** Variables are restored, rejections are only appended, and none by a rule that
    accepts. *)
Theorem C60_restores : forall V fuel p m rule s b t, eval_rule V fuel p m rule s = VDone b t ->
  vs_vars t = vs_vars s /\ exists l, vs_rej t = vs_rej s ++ l /\ (b = true -> l = []).
Proof. exact done_kept. Qed.
Print Assumptions C60_restores.
(** What is emitted does not depend on them either. *)
Theorem C60_emits : forall V fuel p p' m rule s s' b t, eval_rule V fuel p m rule s = VDone b t -> vs_vars s' = vs_vars s ->
  exists t' l, eval_rule V fuel p' m rule s' = VDone b t' /\ vs_emit t = vs_emit s ++ l /\ vs_emit t' = vs_emit s' ++ l.
Proof. exact emits_same. Qed.
Print Assumptions C60_emits.
(** A successful [validate] leaves no rejections and the variables as set. *)
Theorem C60_validate : forall V fuel m class p s t, validate V fuel m class p s = VDone true t ->
  get_rejections t = VArr [] /\ vs_vars t = vs_vars s.
Proof. exact validate_success. Qed.
Print Assumptions C60_validate.

(** *** Cases and refuted readings *)
Definition valF : pflags := mkPF false false.
(** A validator of a definition; values are copies when they are equal. *)
Definition valV (d : value) : venv :=
  mkVenv eqL valF (mkSer (fun _ _ => []) (fun _ _ => [])) true d (fun _ _ => false) (fun _ _ _ => []) (fun _ => 0) (fun _ a b => veq eqL a b).
(** Texts with [`] for the double quote. *)
Definition qtxt (t : string) : bytes := map (fun c => if c =? 96 then 34 else c) (txt t).
Definition pv (t : string) : value := match from_string eqL valF (qtxt t) with Ok v => v | _ => VUndef end.
(** [validate] of a text against the class [_root] of a definition. *)
Definition val_run (d s : string) (st : vst) : vout := validate (valV (pv d)) 50 ([], pv s) (txt "_root") [] st.
Definition val_says (d s : string) : option bool := match val_run d s v_init with VDone b _ => Some b | _ => None end.
Definition val_rej (d s : string) (st : vst) : option (bool * list (path * value)) :=
  match val_run d s st with VDone b t => Some (b, vs_rej t) | _ => None end.
Definition val_after (d s : string) (st : vst) : vst := match val_run d s st with VDone _ t | VThrow t => t | _ => st end.

Example C37_case :
  let d := "{`_root`:{`aaa`:`number`,`bbb`:[`string`,`optional`],`%`:`boolean`}}"%string in
  val_says d "{`aaa`:12,`ccc`:true}" = Some true /\ val_says d "{`aaa`:12,`ccc`:1}" = Some false /\
  val_says d "{`bbb`:`x`}" = Some false /\ val_says d "{`aaa`:1,`bbb`:`x`,`ccc`:true,`ddd`:false}" = Some true.
Proof. vm_compute. auto. Qed.

(** Without the last condition of [C37_template] the reading is wrong: nothing
    satisfies a wildcard other than the undefined value. *)
Theorem C37_wild_refuted : exists V vars ss ts, keys_increasing ss /\ keys_increasing ts /\
  StronglySorted klt (template_names ts) /\ matches_template V vars ss ts /\ rejects V vars ([], VObj false ss) (VObj false ts).
Proof.
  exists (valV VUndef), [], [], [(txt "%", VStr None (txt "number"))].
  split; [constructor|]. split; [repeat constructor|]. split; [constructor|]. split.
  - split; [intros t [<-|[]] N; destruct (N eq_refl)|intros x []].
  - exists 5%nat, [], v_init. eexists. split; [reflexivity|vm_compute; reflexivity].
Qed.
Print Assumptions C37_wild_refuted.
(** The empty key is taken for the wildcard and its value is not looked at. *)
Theorem C37_empty_key_refuted : exists V vars v r, rejects V vars ([], v) r /\
  accepts V vars ([], VObj false [([], v)]) (VObj false [(txt "%", r)]).
Proof.
  exists (valV VUndef), [], VNull, (VStr None (txt "number")).
  split; exists 5%nat, [], v_init; eexists; split; try reflexivity; vm_compute; reflexivity.
Qed.
Print Assumptions C37_empty_key_refuted.
(** With a key of percent signs the names can be out of order, and a member that
    has its rule is missed. *)
Theorem C37_order_refuted : exists V vars ss ts, keys_increasing ss /\ (forall x, In x ss -> fst x <> []) /\ keys_increasing ts /\
  (forall t, In t ts -> accepts V vars (subject_member ss (unescape (fst t))) (snd t)) /\ rejects V vars ([], VObj false ss) (VObj false ts).
Proof.
  exists (valV VUndef), [], [(txt "%", VNull); (txt "%!", VNull)], [(txt "%!", VStr None (txt "any")); (txt "%%", VStr None (txt "any"))].
  split; [repeat constructor|]. split; [intros x [<-|[<-|[]]]; discriminate|]. split; [repeat constructor|]. split.
  - intros t [<-|[<-|[]]]; exists 5%nat, [], v_init; eexists; split; try reflexivity; vm_compute; reflexivity.
  - exists 5%nat, [], v_init. eexists. split; [reflexivity|vm_compute; reflexivity].
Qed.
Print Assumptions C37_order_refuted.

Example C38_case :
  val_says "{`_root`:[`^`,`hex`,`>=`,`0`,`<=`,`9`,`#comment`]}" "`01255`" = Some true /\
  val_says "{`_root`:[`^`,`hex`,`>=`,`0`,`<=`,`9`,`#comment`]}" "`A589`" = Some false /\
  val_says "{`_root`:[[`minsize`,3],`number`]}" "[1,2]" = Some false /\
  val_says "{`_root`:[`!`,[`maxsize`,2],`boolean`]}" "[1,2,3]" = Some true /\
  plain_list [] ([], VNull) [([], VStr None (txt "string")); ([], VStr None (txt "number"))].
Proof.
  split; [vm_compute; reflexivity|]. split; [vm_compute; reflexivity|]. split; [vm_compute; reflexivity|]. split; [vm_compute; reflexivity|].
  split; [vm_compute; intuition discriminate|]. split; [discriminate|exact I].
Qed.
Example C38_case_all : all_hold (valV VUndef) [] ([], VNum (NUInt 7))
  [([], VStr None (txt ">=")); ([], VNum (NUInt 3)); ([], VStr None (txt "number")); ([], VStr None (txt "#note"))].
Proof.
  apply AH_compare with (op := ">="%string).
  - apply Sat_ge; [exact I|]. intros H. inversion H; subst; try discriminate.
    all: cbn in *; repeat match goal with A : Some _ = Some _ |- _ => injection A as <- end; first [lia|intuition discriminate].
  - apply AH_rule.
    + split; [cbn; intuition discriminate|]. intros w' Q. discriminate.
    + exists 5%nat, [], v_init. eexists. split; [reflexivity|vm_compute; reflexivity].
    + apply AH_comment, AH_nil.
Qed.
(** Integers of which one is stored with a sign and one without are compared as
    doubles: 2^53 is at least 2^53+1. *)
Theorem C38_mixed_refuted : exists V vars i j, i < j /\
  accepts V vars ([], VNum (NInt i)) (VArr [([], VStr None (txt ">=")); ([], VNum (NUInt j))]).
Proof.
  exists (valV VUndef), [], (2 ^ 53), (2 ^ 53 + 1). split; [reflexivity|].
  exists 5%nat, [], v_init. eexists. split; [reflexivity|vm_compute; reflexivity].
Qed.
Print Assumptions C38_mixed_refuted.

Example C59_case :
  val_says "{`_root`:[[],`number`,`boolean`]}" "[12,32,true]" = Some true /\
  val_says "{`_root`:[[],`number`,`boolean`]}" "[12,`x`]" = Some false /\
  val_says "{`_root`:[[2],`number`,`string`,`number`]}" "[12,`abc`,11,12]" = Some true /\
  val_says "{`_root`:[[3],`number`,`string`,[`string`,`optional`]]}" "[12,`abc`]" = Some true /\
  val_says "{`_root`:[[3],`number`,`string`,`string`]}" "[12,`abc`]" = Some false.
Proof. vm_compute. auto 6. Qed.

Example C60_case :
  val_rej "{`_root`:[[],`number`,`boolean`]}" "[12,`x`]" v_init =
    Some (false, [([pindex 1], VStr None (txt "number")); ([pindex 1], VStr None (txt "boolean"))]) /\
  val_rej "{`_root`:[[],`number`,`boolean`]}" "[12,true]" v_init = Some (true, []).
Proof. vm_compute. auto. Qed.
(** A rejected subject can leave an empty list of rejections: because a rule that
    was rejected before is not listed again, although it was taken out of the
    list, and because constants list nothing. *)
Theorem C60_listed_refuted : exists d s, val_rej d s v_init = Some (false, []).
Proof. exists "{`_root`:[[],`string`,5]}"%string, "[5,true]"%string. vm_compute. reflexivity. Qed.
Print Assumptions C60_listed_refuted.
Theorem C60_again_refuted : exists d s r, val_rej d s v_init = Some (false, [r]) /\
  val_rej d s (val_after d s v_init) = Some (false, []).
Proof. eexists "{`_root`:`number`}"%string, "true"%string, _. vm_compute. auto. Qed.
Print Assumptions C60_again_refuted.
(** After an exception the variables set by the rules stay. *)
Theorem C60_throw_refuted : exists d s t, val_run d s v_init = VThrow t /\ vs_vars t <> vs_vars v_init.
Proof. eexists "{`_root`:[`setvar`,`$x`,`nosuch`]}"%string, "1"%string, _. vm_compute. split; [reflexivity|discriminate]. Qed.
Print Assumptions C60_throw_refuted.
