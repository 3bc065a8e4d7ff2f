(** C131: rejections of a validator point into the subject. *)
From Coq Require Import String.
From Verif Require Import Base ModelKeyed SpecKeyed ModelValue ModelObject ModelArray ModelEq ModelPath ModelRpc ModelNumView ModelValidator
  SpecText SpecReuse SpecPoints ProofPoints PropValidator.
Local Open Scope Z_scope.
Local Open Scope list_scope.

(** For a definition whose rules are all applied to the subject itself: every
    rejection carries the path given to [validate] continued by a path that leads
    into the subject. *)
Theorem C131_points : forall V fuel m class p s b t r, supported V -> direct (v_def V) -> short (snd m) ->
  validate V fuel m class p s = VDone b t -> In r (members_of (get_rejections t)) ->
  exists q rule, snd r = VArr [([], path_to_value (rev q ++ p)); ([], rule)] /\ points (snd m) q.
Proof. exact rejections_point. Qed.
Print Assumptions C131_points.

(** Without its last step such a path reads an object of the subject where the
    last step is a name, an array where it is a position. *)
Theorem C131_reads : forall v q x, all_sorted v -> points v (q ++ [x]) ->
  (exists d l, get_path v (rev q) = VObj d l /\ exists k, x = pkey k) \/
  (exists l, get_path v (rev q) = VArr l /\ exists i, 0 <= i < 2 ^ 32 /\ x = pindex i).
Proof. exact points_read_path. Qed.
Print Assumptions C131_reads.

(** *** Cases and refuted readings *)
Ltac leaf := intros; discriminate.
Ltac prove_direct := vm_compute; repeat first
  [ apply Dir_object | (apply Dir_array; [|intros ? ? ? ? H; injection H; intros; subst; vm_compute; intuition discriminate])
  | (apply Dir_array; [|intros ? ? ? ? H; discriminate H]) | (apply Dir_leaf; leaf) | apply Forall_nil | apply Forall_cons ].
Ltac prove_short := vm_compute; repeat first
  [ apply Sh_object | (apply Sh_array; [|vm_compute; reflexivity]) | (apply Sh_leaf; leaf) | apply Forall_nil | apply Forall_cons ].

Definition point_def : string := "{`_root`:{`list`:[[],`item`],`%`:`any`},`item`:{`n`:`number`}}".
Definition point_subject : string := "{`list`:[{`n`:1},{`n`:`x`}]}".
Example C131_case : direct (pv point_def) /\ short (pv point_subject) /\ supported (valV (pv point_def)) /\
  val_rej point_def point_subject v_init = Some (false,
    [([pkey (txt "n"); pindex 1; pkey (txt "list")], VStr None (txt "number"));
     ([pindex 1; pkey (txt "list")], VStr None (txt "item"))]) /\
  points (pv point_subject) [pkey (txt "list"); pindex 1; pkey (txt "n")].
Proof.
  split; [prove_direct|]. split; [prove_short|]. split; [left; vm_compute; reflexivity|]. split; [vm_compute; reflexivity|].
  change (points (VObj false [(txt "list", VArr [([], VObj false [(txt "n", VNum (NUInt 1))]); ([], VObj false [(txt "n", VStr None (txt "x"))])])])
    [pkey (txt "list"); pindex (Z.of_nat 1); pkey (txt "n")]).
  eapply Pt_into_key; [left; reflexivity|]. eapply Pt_into_item; [reflexivity|reflexivity|]. apply Pt_key.
Qed.

(** Behind a rule for something else than the subject the path can lead nowhere:
    here into a number, when the rule was applied to a variable, *)
Theorem C131_variable_refuted : exists d s t q rule, d = "{`_root`:[`setvar`,`$a`,{`x`:[`usevar`,`$a`,{`y`:`any`,`x`:`any`}]}]}"%string /\
  s = "{`x`:1}"%string /\
  val_run d s v_init = VDone false t /\ In (rev q, rule) (vs_rej t) /\ ~ points (pv s) q.
Proof.
  do 2 eexists. eexists. exists [pkey (txt "x"); pkey (txt "y")]. eexists. split; [reflexivity|]. split; [reflexivity|].
  split; [vm_compute; reflexivity|]. split; [left; vm_compute; reflexivity|]. intros H.
  change (points (VObj false [(txt "x", VNum (NUInt 1))]) [pkey (txt "x"); pkey (txt "y")]) in H.
  inversion H as [| | |d l k w q I P|]; subst. destruct I as [E|[]]. inversion E; subst. inversion P.
Qed.
Print Assumptions C131_variable_refuted.
(** or name another item than the one that was rejected: here the last item is no
    number, and the position reported is that of a number. *)
Theorem C131_prefix_refuted : exists d s t, d = "{`_root`:[`prefix`,[`a`],[[],`number`]]}"%string /\ s = "[`a`,1,`x`]"%string /\
  val_run d s v_init = VDone false t /\ map fst (vs_rej t) = [[pindex 1]] /\
  get_path (pv s) [pindex 1] = VNum (NUInt 1).
Proof. do 3 eexists. split; [reflexivity|]. split; [reflexivity|]. split; [vm_compute; reflexivity|]. split; vm_compute; reflexivity. Qed.
Print Assumptions C131_prefix_refuted.
