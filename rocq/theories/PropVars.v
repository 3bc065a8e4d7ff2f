(** C67, C68: parts of the subject, variables and emitted values of the
    validator. *)
From Coq Require Import String Ascii Lia Sorted.
From Verif Require Import Base ModelKeyed SpecKeyed ModelValue ModelText SpecText ModelString ModelObject ModelArray ModelEq ModelBin ModelJwt ModelPath
  ModelRpc ModelNumView ModelValidator SpecValidator SpecVars ProofValidator2 ProofVars ProofVars2 ProofVars3 ProofVars4 PropEq PropValidator.
Local Open Scope Z_scope.
Local Open Scope list_scope.

(** *** C67 *)
(** [["prefix", text, rules...]]: the text of the subject begins with it, and what
    follows is accepted by one of the further rules, if any. *)
Theorem C67_prefix_text : forall V vars m k e k2 e2 pre rules, given rules ->
  let r := VArr ((k, VStr e (txt "prefix")) :: (k2, VStr e2 pre) :: rules) in
  (accepts V vars m r <-> exists rest, get_string (snd m) = pre ++ rest /\ rest_accepted V vars ([], VStr None rest) rules) /\
  (rejects V vars m r <-> forall rest, get_string (snd m) = pre ++ rest -> rest_rejected V vars ([], VStr None rest) rules).
Proof. exact prefix_text. Qed.
Print Assumptions C67_prefix_text.

Theorem C67_suffix_text : forall V vars m k e k2 e2 suf rules,
  let r := VArr ((k, VStr e (txt "suffix")) :: (k2, VStr e2 suf) :: rules) in
  (accepts V vars m r <-> exists rest, get_string (snd m) = rest ++ suf /\ rest_accepted V vars ([], VStr None rest) rules) /\
  (rejects V vars m r <-> forall rest, get_string (snd m) = rest ++ suf -> rest_rejected V vars ([], VStr None rest) rules).
Proof. exact suffix_text. Qed.
Print Assumptions C67_suffix_text.

(** The same for arrays; the prefix may come from a variable. *)
Theorem C67_prefix_array : forall V vars k0 l, in_order vars (k0, VArr l) ->
  forall k e q kx pre rules, operand V vars (k0, VArr l) q (kx, VArr pre) -> Z.of_nat (length pre) < 2 ^ 31 -> given rules ->
  let r := VArr ((k, VStr e (txt "prefix")) :: q :: rules) in
  (accepts V vars (k0, VArr l) r <->
     exists a b, l = a ++ b /\ veq (v_L V) (VArr a) (VArr pre) = true /\ rest_accepted V vars ([], VArr b) rules) /\
  (rejects V vars (k0, VArr l) r <->
     forall a b, l = a ++ b -> veq (v_L V) (VArr a) (VArr pre) = true -> rest_rejected V vars ([], VArr b) rules).
Proof. exact prefix_array. Qed.
Print Assumptions C67_prefix_array.

Theorem C67_suffix_array : forall V vars k0 l, in_order vars (k0, VArr l) ->
  forall k e q kx suf rules, operand V vars (k0, VArr l) q (kx, VArr suf) -> suf <> [] ->
  Z.of_nat (length suf) < 2 ^ 31 -> Z.of_nat (length l) < 2 ^ 31 -> given rules ->
  let r := VArr ((k, VStr e (txt "suffix")) :: q :: rules) in
  (accepts V vars (k0, VArr l) r <->
     exists a b, l = a ++ b /\ veq (v_L V) (VArr b) (VArr suf) = true /\ rest_accepted V vars ([], VArr a) rules) /\
  (rejects V vars (k0, VArr l) r <->
     forall a b, l = a ++ b -> veq (v_L V) (VArr b) (VArr suf) = true -> rest_rejected V vars ([], VArr a) rules).
Proof. exact suffix_array. Qed.
Print Assumptions C67_suffix_array.

(** [["split", position, left, right]]: the items before the position against one
    rule, the others against the other. *)
Theorem C67_split_array : forall V vars k0 l k e q kx n z left right post, in_order vars (k0, VArr l) ->
  operand V vars (k0, VArr l) q (kx, VNum n) -> position n z -> Z.of_nat (length l) < 2 ^ 31 ->
  let r := VArr ((k, VStr e (txt "split")) :: q :: left :: right :: post) in
  let a := ([], VArr (firstn (before (length l) z) l)) in let b := ([], VArr (skipn (before (length l) z) l)) in
  (accepts V vars (k0, VArr l) r <-> accepts V vars a (snd left) /\ accepts V vars b (snd right)) /\
  (rejects V vars (k0, VArr l) r <-> rejects V vars a (snd left) \/ accepts V vars a (snd left) /\ rejects V vars b (snd right)).
Proof. exact split_array. Qed.
Print Assumptions C67_split_array.

(** For texts only at a position strictly inside. *)
Theorem C67_split_text : forall V vars k0 e0 t k e q kx n z left right post, in_order vars (k0, VStr e0 t) ->
  operand V vars (k0, VStr e0 t) q (kx, VNum n) -> position n z ->
  Z.of_nat (length t) < 2 ^ 31 -> (0 < before (length t) z < length t)%nat ->
  let r := VArr ((k, VStr e (txt "split")) :: q :: left :: right :: post) in
  let a := ([], VStr None (firstn (before (length t) z) t)) in let b := ([], VStr None (skipn (before (length t) z) t)) in
  (accepts V vars (k0, VStr e0 t) r <-> accepts V vars a (snd left) /\ accepts V vars b (snd right)) /\
  (rejects V vars (k0, VStr e0 t) r <-> rejects V vars a (snd left) \/ accepts V vars a (snd left) /\ rejects V vars b (snd right)).
Proof. exact split_text. Qed.
Print Assumptions C67_split_text.

(** [["key", rules...]]: the name of the subject. *)
Theorem C67_key : forall V vars m k e rules, let r := VArr ((k, VStr e (txt "key")) :: rules) in let n := ([], VStr None (fst m)) in
  (accepts V vars m r <-> one_accepts V vars n rules) /\ (rejects V vars m r <-> Forall (fun y => rejects V vars n (snd y)) rules).
Proof. exact key_rule. Qed.
Print Assumptions C67_key.

(** [["tostring", rules...]]: the text [Value::toString] gives. *)
Theorem C67_tostring : forall V vars m k e rules t, to_string (v_E V) (v_utf8 V) (snd m) = Some t ->
  let r := VArr ((k, VStr e (txt "tostring")) :: rules) in let n := ([], VStr None t) in
  (accepts V vars m r <-> one_accepts V vars n rules) /\ (rejects V vars m r <-> Forall (fun y => rejects V vars n (snd y)) rules).
Proof. exact tostring_rule. Qed.
Print Assumptions C67_tostring.

(** [["tonumber", rules...]]: the number [Value::getNumber] gives (C63). *)
Theorem C67_tonumber : forall V vars m k e rules, let r := VArr ((k, VStr e (txt "tonumber")) :: rules) in
  let n := ([], value_of_double (value_dbl (v_L V) (v_F V) (snd m))) in
  (accepts V vars m r <-> one_accepts V vars n rules) /\ (rejects V vars m r <-> Forall (fun y => rejects V vars n (snd y)) rules).
Proof. exact tonumber_rule. Qed.
Print Assumptions C67_tonumber.

(** [["explode", separator, rule]]: the array of the pieces of the text. *)
Theorem C67_explode : forall V vars m k e k2 e2 sep rule, let r := VArr [(k, VStr e (txt "explode")); (k2, VStr e2 sep); rule] in
  let n := ([], VArr (map (fun t => ([], VStr None t)) (v_explode V (get_string (snd m)) sep None))) in
  (accepts V vars m r <-> accepts V vars n (snd rule)) /\ (rejects V vars m r <-> rejects V vars n (snd rule)).
Proof. exact explode_rule. Qed.
Print Assumptions C67_explode.

(** *** C68 *)
(** A rule with an operand behaves as with what the operand stands for. *)
Theorem C68_operand : forall V vars m k e w q x post, in_order vars m -> In w operand_words -> operand V vars m q x -> operand V vars m x x ->
  forall b, ends V vars m (VArr ((k, VStr e w) :: q :: post)) b <-> ends V vars m (VArr ((k, VStr e w) :: x :: post)) b.
Proof. exact operand_rule. Qed.
Print Assumptions C68_operand.

(** An operand stands for exactly one thing. *)
Theorem C68_operand_one : forall V vars m q x y, in_order vars m -> operand V vars m q x -> operand V vars m q y -> x = y.
Proof. exact operand_fun. Qed.
Print Assumptions C68_operand_one.
Theorem C68_operand_some : forall V vars m q, in_order vars m -> exists x, operand V vars m q x.
Proof. exact operand_some. Qed.
Print Assumptions C68_operand_some.

(** Limits from variables. *)
Theorem C68_compare : forall V vars m k e op q, in_order vars m -> In op ["<"; ">="; ">"; "<="]%string ->
  (accepts V vars m (VArr [(k, VStr e (txt op)); q]) <-> exists x, operand V vars m q x /\ satisfies (v_L V) (snd m) (snd x) op).
Proof. exact compare_rule. Qed.
Print Assumptions C68_compare.

(** [["setvar", "$name", rules...]]: one of the rules accepts the subject, with
    the subject as the value of the variable. *)
Theorem C68_setvar : forall V vars m k e k2 e2 n rules,
  let r := VArr ((k, VStr e (txt "setvar")) :: (k2, VStr e2 (36 :: n)) :: rules) in
  (accepts V vars m r <-> one_accepts V ((36 :: n, snd m) :: vars) m rules) /\
  (rejects V vars m r <-> Forall (fun y => rejects V ((36 :: n, snd m) :: vars) m (snd y)) rules).
Proof. exact setvar_rule. Qed.
Print Assumptions C68_setvar.

(** Names of variables begin with a dollar sign. *)
Theorem C68_setvar_name : forall V vars m k e k2 v rules, (forall n, get_string v <> 36 :: n) ->
  rejects V vars m (VArr ((k, VStr e (txt "setvar")) :: (k2, v) :: rules)).
Proof. exact setvar_bad. Qed.
Print Assumptions C68_setvar_name.

(** [["usevar", "$name", rules...]]: the rules are applied to the variable. *)
Theorem C68_usevar : forall V vars m k e k2 e2 n rules x, var_is vars m n x -> snd x <> VUndef ->
  let r := VArr ((k, VStr e (txt "usevar")) :: (k2, VStr e2 n) :: rules) in
  (accepts V vars m r <-> one_accepts V vars x rules) /\ (rejects V vars m r <-> Forall (fun y => rejects V vars x (snd y)) rules).
Proof. exact usevar_rule. Qed.
Print Assumptions C68_usevar.
Theorem C68_usevar_unknown : forall V vars m k e k2 e2 n rules, ~ known vars m n ->
  rejects V vars m (VArr ((k, VStr e (txt "usevar")) :: (k2, VStr e2 n) :: rules)).
Proof. exact usevar_none. Qed.
Print Assumptions C68_usevar_unknown.

(** The same with a path into a variable. *)
Theorem C68_usevar_path : forall V vars m k e k2 l rules x, in_order vars m -> operand V vars m (k2, VArr l) x -> snd x <> VUndef ->
  let r := VArr ((k, VStr e (txt "usevar")) :: (k2, VArr l) :: rules) in
  (accepts V vars m r <-> one_accepts V vars x rules) /\ (rejects V vars m r <-> Forall (fun y => rejects V vars x (snd y)) rules).
Proof. exact usevar_path. Qed.
Print Assumptions C68_usevar_path.
Theorem C68_usevar_nothing : forall V vars m k e k2 l rules x, in_order vars m -> operand V vars m (k2, VArr l) x -> snd x = VUndef ->
  rejects V vars m (VArr ((k, VStr e (txt "usevar")) :: (k2, VArr l) :: rules)).
Proof. exact usevar_undef. Qed.
Print Assumptions C68_usevar_nothing.

(** [["$name", steps...]]: the subject is equal to what it names. *)
Theorem C68_equal : forall V vars m k e n rest x, in_order vars m -> ~ In n keywords -> known vars m n ->
  operand V vars m ([], VArr ((k, VStr e n) :: rest)) x ->
  let r := VArr ((k, VStr e n) :: rest) in
  (accepts V vars m r <-> veq (v_L V) (snd m) (snd x) = true) /\ (rejects V vars m r <-> veq (v_L V) (snd m) (snd x) = false).
Proof. exact equal_rule. Qed.
Print Assumptions C68_equal.

(** [["emit", template, rule]] has the verdict of its rule, and emits the instance
    of the template behind everything else when the rule accepts. *)
Theorem C68_emit_verdict : forall V vars m k e t rule post, let r := VArr ((k, VStr e (txt "emit")) :: t :: rule :: post) in
  (accepts V vars m r <-> accepts V vars m (snd rule)) /\ (rejects V vars m r <-> rejects V vars m (snd rule)).
Proof. exact emit_rule. Qed.
Print Assumptions C68_emit_verdict.
Theorem C68_emit : forall V fuel p m k e t rule post s b s', in_order (vs_vars s) m -> all_sorted (snd t) ->
  eval_rule V fuel p m (VArr ((k, VStr e (txt "emit")) :: t :: rule :: post)) s = VDone b s' ->
  exists f s1, eval_rule V f p m (snd rule) s = VDone b s1 /\
    if b then exists w, instance V (vs_vars s) m t w /\ vs_emit s' = vs_emit s1 ++ [w] else vs_emit s' = vs_emit s1.
Proof. exact emit_run. Qed.
Print Assumptions C68_emit.
Theorem C68_instance_one : forall V vars m t w w', in_order vars m -> all_sorted (snd t) -> instance V vars m t w -> instance V vars m t w' -> w = w'.
Proof. exact instance_fun. Qed.
Print Assumptions C68_instance_one.

(** Variables given to the validator replace those given before; of two with one name the
    later counts. *)
Theorem C68_variables : forall vars s m n x, var_is (vs_vars (set_variables vars s)) m n x <->
  (n = txt "$this" /\ x = m) \/ (n <> txt "$this" /\ exists v, last_binding n (members_of vars) = Some v /\ x = (n, v)).
Proof. exact variables_given. Qed.
Print Assumptions C68_variables.
Example C68_case_variables : forall s m,
  var_is (vs_vars (set_variables (VArr [(txt "$a", VNull); (txt "$b", VNull); (txt "$a", VBool true)]) s)) m (txt "$a") (txt "$a", VBool true).
Proof. intros s m. apply C68_variables. right. split; [discriminate|]. eexists. split; [vm_compute; reflexivity|reflexivity]. Qed.

(** *** Cases and refuted readings *)
Definition with_vars (vars : string) : vst := set_variables (pv vars) v_init.
Definition says_with (d s vars : string) : option (bool * list member) :=
  match val_run d s (with_vars vars) with VDone b t => Some (b, vs_emit t) | _ => None end.

Example C67_case :
  val_says "{`_root`:[`prefix`,`ab`,[`maxsize`,2]]}" "`abcd`" = Some true /\
  val_says "{`_root`:[`prefix`,`ab`,[`maxsize`,2]]}" "`abcde`" = Some false /\
  val_says "{`_root`:[`suffix`,`.json`]}" "`a.json`" = Some true /\
  val_says "{`_root`:[`prefix`,[1,2],[[],`string`]]}" "[1,2,`x`,`y`]" = Some true /\
  val_says "{`_root`:[`prefix`,[1,2],[[],`string`]]}" "[1,2,`x`,3]" = Some false /\
  val_says "{`_root`:[`suffix`,[3,4]]}" "[1,2,3,4]" = Some true /\
  val_says "{`_root`:[`split`,-1,[[],`number`],[[],`string`]]}" "[1,`x`,`x`]" = Some false /\
  val_says "{`_root`:[`split`,-1,[[],`number`],[[],`string`]]}" "[1,2,`x`]" = Some true /\
  val_says "{`_root`:[`split`,1,`digits`,`alpha`]}" "`1a`" = Some true /\
  val_says "{`_root`:{`%`:[`key`,`digits`]}}" "{`12`:0}" = Some true /\
  val_says "{`_root`:{`%`:[`key`,`digits`]}}" "{`1x`:0}" = Some false /\
  val_says "{`_root`:[`tostring`,[`minsize`,3]]}" "123" = Some true /\
  val_says "{`_root`:[`tonumber`,[`<`,5]]}" "`3`" = Some true.
Proof. vm_compute. repeat split. Qed.
Example C67_case_given : given [([], VStr None (txt "string"))] /\ position (NInt (-1)) (-1) /\ before 3 (-1) = 2%nat /\
  operand (valV VUndef) [] ([], VArr [([], VNull)]) ([], VNum (NInt (-1))) ([], VNum (NInt (-1))) /\ in_order [] ([], VArr [([], VNull)]).
Proof.
  split; [repeat constructor; discriminate|]. split; [split; [lia|right; reflexivity]|]. split; [reflexivity|].
  split; [apply plain_operand; discriminate|]. split; [constructor|]. apply as_arr. repeat constructor.
Qed.

(** An empty array is a suffix of the empty array only. *)
Theorem C67_suffix_empty_refuted : exists d s : string, d = "{`_root`:[`suffix`,[]]}"%string /\ s = "[1]"%string /\ val_says d s = Some false.
Proof. do 2 eexists. split; [reflexivity|]. split; [reflexivity|]. vm_compute. reflexivity. Qed.
Print Assumptions C67_suffix_empty_refuted.
(** A text split at its end has no right part, not an empty one. *)
Theorem C67_split_end_refuted : exists d s : string, d = "{`_root`:[`split`,3,`any`,`string`]}"%string /\ s = "`abc`"%string /\ val_says d s = Some false.
Proof. do 2 eexists. split; [reflexivity|]. split; [reflexivity|]. vm_compute. reflexivity. Qed.
Print Assumptions C67_split_end_refuted.
(** A text that is no number is not rejected: it counts as 0. *)
Theorem C67_tonumber_refuted : exists d s : string, d = "{`_root`:[`tonumber`,`number`]}"%string /\ s = "`hello`"%string /\ val_says d s = Some true.
Proof. do 2 eexists. split; [reflexivity|]. split; [reflexivity|]. vm_compute. reflexivity. Qed.
Print Assumptions C67_tonumber_refuted.

Example C68_case :
  says_with "{`_root`:{`min`:`number`,`max`:[`all`,`number`,[`>`,[`$limit`]]]}}" "{`min`:1,`max`:7}" "{`$limit`:5}" = Some (true, []) /\
  says_with "{`_root`:{`min`:`number`,`max`:[`all`,`number`,[`>`,[`$limit`]]]}}" "{`min`:1,`max`:4}" "{`$limit`:5}" = Some (false, []) /\
  says_with "{`_root`:[`setvar`,`$r`,{`a`:`any`,`b`:[`$r`,`a`]}]}" "{`a`:[1,2],`b`:[1,2]}" "{}" = Some (true, []) /\
  says_with "{`_root`:[`setvar`,`$r`,{`a`:`any`,`b`:[`$r`,`a`]}]}" "{`a`:[1,2],`b`:[1]}" "{}" = Some (false, []) /\
  says_with "{`_root`:[`usevar`,`$v`,`string`]}" "1" "{`$v`:`s`}" = Some (true, []) /\
  says_with "{`_root`:[`usevar`,[`$v`,`a`,1],`string`]}" "1" "{`$v`:{`a`:[1,`s`]}}" = Some (true, []) /\
  says_with "{`_root`:[`usevar`,`$w`,`any`]}" "1" "{`$v`:`s`}" = Some (false, []) /\
  says_with "{`_root`:[`setvar`,`v`,`any`]}" "1" "{}" = Some (false, []) /\
  says_with "{`_root`:[`emit`,{`k`:[`$this`,`a`],`n`:[`$this`,`zz`],`c`:1},`object`]}" "{`a`:[`x`]}" "{}" = Some (true, [([], pv "{`c`:1,`k`:[`x`]}")]) /\
  says_with "{`_root`:[`emit`,[1,[`$this`,`zz`],[`$this`,`a`]],`object`]}" "{`a`:[`x`]}" "{}" = Some (true, [([], VArr [([], VNum (NUInt 1)); (txt "a", pv "[`x`]")])]).
Proof. vm_compute. repeat split. Qed.
Example C68_case_step : forall V, names V [] ([], VObj false [(txt "a", VNum (NUInt 1))]) (VArr [([], VStr None (txt "$this")); ([], VStr None (txt "a"))]) (txt "a", VNum (NUInt 1)).
Proof. intros V. eapply Names; [constructor|discriminate|]. eapply Steps_plain; [|constructor]. constructor. reflexivity. Qed.

(** A path that names nothing stands for itself, so that [usevar] applies its
    rules to the path. *)
Theorem C68_usevar_path_refuted : exists d s : string, d = "{`_root`:[`usevar`,[`$missing`],`array`]}"%string /\ s = "1"%string /\ val_says d s = Some true.
Proof. do 2 eexists. split; [reflexivity|]. split; [reflexivity|]. vm_compute. reflexivity. Qed.
Print Assumptions C68_usevar_path_refuted.
(** What was emitted stays although the whole is rejected. *)
Theorem C68_emit_rejected_refuted : exists d s : string, d = "{`_root`:[`all`,[`emit`,`x`,`any`],`string`]}"%string /\ s = "1"%string /\
  says_with d s "{}" = Some (false, [([], VStr None (txt "x"))]).
Proof. do 2 eexists. split; [reflexivity|]. split; [reflexivity|]. vm_compute. reflexivity. Qed.
Print Assumptions C68_emit_rejected_refuted.
