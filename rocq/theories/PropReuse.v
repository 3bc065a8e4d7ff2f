(** C129: a validator used many times. *)
From Coq Require Import String.
From Verif Require Import Base ModelKeyed ModelValue ModelObject ModelEq ModelPath ModelRpc ModelNumView ModelValidator
  SpecText SpecValidator SpecVars SpecReuse ProofReuse PropValidator.
Local Open Scope Z_scope.
Local Open Scope list_scope.

(** Whatever was done with a validator before (without an exception), the verdict
    and the emitted values are those of a new one given the variables set last. *)
Theorem C129_history : forall V us s fuel m class p b t, used V v_init us s -> validate V fuel m class p s = VDone b t ->
  exists t', validate V fuel m class p (set_variables (last_vars us VUndef) v_init) = VDone b t' /\
    (supported V -> get_emits t = get_emits t').
Proof. exact reuse_same. Qed.
Print Assumptions C129_history.

(** With a supported version the verdict is that of the rule of the class, and
    there is one whenever there is one for the rule. *)
Theorem C129_class : forall V fuel m class p s b t, supported V -> validate V fuel m class p s = VDone b t ->
  ends V (vs_vars s) m (value_member (v_def V) class) b.
Proof. exact supported_class. Qed.
Print Assumptions C129_class.
Theorem C129_class_some : forall V m class b vars, supported V -> ends V vars m (value_member (v_def V) class) b ->
  exists fuel, forall g p s, (fuel <= g)%nat -> vs_vars s = vars -> exists t, validate V g m class p s = VDone b t.
Proof. exact supported_runs. Qed.
Print Assumptions C129_class_some.

(** [getEmits()] lists what the run emitted: when the rule of the class is an
    accepted [emit], the values of the rule inside and then the instance of the
    template. *)
Theorem C129_emits : forall V fuel m class p s t' k e t rule post, supported V ->
  in_order (vs_vars s) m -> all_sorted (snd t) ->
  value_member (v_def V) class = VArr ((k, VStr e (txt "emit")) :: t :: rule :: post) ->
  validate V fuel m class p s = VDone true t' ->
  exists l w, get_emits t' = VArr (l ++ [w]) /\ instance V (vs_vars s) m t w /\
    exists f u, eval_rule V f p m (snd rule) (set_variables (VArr (rev (vs_vars s))) v_init) = VDone true u /\ get_emits u = VArr l.
Proof. exact emit_listed. Qed.
Print Assumptions C129_emits.

(** With another version everything is rejected and the emitted values of the
    run before stay; *)
Theorem C129_version : forall V fuel m class p s, ~ supported V ->
  exists t, validate V fuel m class p s = VDone false t /\ get_emits t = get_emits s /\ vs_vars t = vs_vars s.
Proof. exact unsupported. Qed.
Print Assumptions C129_version.
(** the rejection of a new validator names the version. *)
Theorem C129_version_rejection : forall V fuel m class p, ~ supported V ->
  let ver := value_member (v_def V) (txt "_version") in
  (forall l, ver <> VArr l) -> (forall d l, ver <> VObj d l) ->
  exists t, validate V fuel m class p v_init = VDone false t /\
    get_rejections t = VArr [([], VArr [([], VArr [([], VStr None (txt "_version"))]); ([], ver)])].
Proof. exact unsupported_new. Qed.
Print Assumptions C129_version_rejection.

(** *** Cases and refuted readings *)
Definition reuse_def : string := "{`_root`:[`setvar`,`$a`,`string`,`nosuch`],`b`:[`usevar`,`$a`,`any`],`c`:[`emit`,[`$a`],`any`]}".
Definition reuse_run (class : string) (subject : value) (s : vst) : vout :=
  validate (valV (pv reuse_def)) 50 ([], subject) (txt class) [] s.

(** After an exception it is not so: the variable of the interrupted rule stays. *)
Theorem C129_throw_refuted : exists t u w, reuse_run "_root" (VNum (NUInt 1)) v_init = VThrow t /\
  reuse_run "b" VNull t = VDone true u /\ reuse_run "b" VNull v_init = VDone false w.
Proof. do 3 eexists. repeat split; vm_compute; reflexivity. Qed.
Print Assumptions C129_throw_refuted.

Example C129_case : supported (valV (pv reuse_def)) /\ supported (valV (pv "{`_version`:1.0}")) /\ ~ supported (valV (pv "{`_version`:2}")) /\
  exists s t, used (valV (pv reuse_def)) v_init
    [UVars (pv "{`$a`:1}"); UCheck ([], VNull) (txt "c") []; UVars (pv "{`$a`:2}"); UCheck ([], VNull) (txt "b") []] s /\
  reuse_run "c" VNull s = VDone true t /\ get_emits t = VArr [(txt "$a", VNum (NUInt 2))].
Proof.
  repeat split.
  - left. vm_compute. reflexivity.
  - right. vm_compute. reflexivity.
  - intros [H|H]; vm_compute in H; discriminate.
  - do 2 eexists. split; [|split].
    + apply Used_vars. eapply Used_check with (fuel := 50%nat); [vm_compute; reflexivity|]. apply Used_vars.
      eapply Used_check with (fuel := 50%nat); [vm_compute; reflexivity|]. apply Used_none.
    + vm_compute. reflexivity.
    + vm_compute. reflexivity.
Qed.
