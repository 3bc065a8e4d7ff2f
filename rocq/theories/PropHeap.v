(** C95: values and builders keep to value semantics although containers are shared. *)
From Verif Require Import Base ModelKeyed SpecKeyed ModelValue ModelObject SpecObject ModelHeap SpecHeap
  ProofHeap4 ProofHeap8.

(** Any program of any number of builders and variables: when the program has a
    meaning in which nothing is shared, the memory runs it without undefined
    behaviour and every variable shows the value of that meaning. *)
Theorem C95_values : forall ops bs vs, sruns ([], []) ops (bs, vs) ->
  exists st, h_run hs_init ops = Some st /\ Forall2 (shows (hs_heap st)) (hs_vals st) vs.
Proof. exact values_follow. Qed.
Print Assumptions C95_values.

(** Every operation whose variables exist and whose builder was not moved from
    has exactly one meaning, at any point of a program. *)
Theorem C95_defined : forall ops ss op, sruns ([], []) ops ss ->
  (exists ss', sstep ss op ss' /\ forall ss'', sstep ss op ss'' -> ss'' = ss') <-> defined_op ss op.
Proof. exact meaning_total. Qed.
Print Assumptions C95_defined.

(** A value once obtained shows the same for ever, whatever runs afterwards. *)
Theorem C95_stable : forall ops1 ops2 st1 st2 i x v,
  h_run hs_init ops1 = Some st1 -> h_run st1 ops2 = Some st2 ->
  nth_error (hs_vals st1) i = Some x -> shows (hs_heap st1) x v ->
  nth_error (hs_vals st2) i = Some x /\ shows (hs_heap st2) x v.
Proof. exact values_stable. Qed.
Print Assumptions C95_stable.

(** Every variable shows exactly one value: no cycles, no dangling handles. *)
Theorem C95_shown : forall ops st, h_run hs_init ops = Some st ->
  Forall (fun x => exists! v, shows (hs_heap st) x v) (hs_vals st).
Proof. exact values_shown. Qed.
Print Assumptions C95_shown.

(** Work on other builders, copies included, does not show in this one. *)
Theorem C95_apart : forall ops1 ops2 ss1 ss2 c k, sruns ([], []) ops1 ss1 -> sruns ss1 ops2 ss2 ->
  in_use (fst ss1) c -> Forall (fun op => ~ In c (changed_by op)) ops2 ->
  exists st1 st2 o1 o2 h1 h2 o1' o2' x1 x2 v, h_run hs_init ops1 = Some st1 /\ h_run st1 ops2 = Some st2 /\
    nth_error (hs_objs st1) c = Some o1 /\ nth_error (hs_objs st2) c = Some o2 /\
    h_read (hs_heap st1) o1 k = Some (h1, o1', x1) /\ h_read (hs_heap st2) o2 k = Some (h2, o2', x2) /\
    shows h1 x1 v /\ shows h2 x2 v.
Proof. exact builders_apart. Qed.
Print Assumptions C95_apart.

Definition ka : bytes := [97%Z].
Definition kb : bytes := [98%Z].
Definition ex_lit : value := VObj false [(ka, VBool true)].

(** Two builders share a container with a diff handed out earlier; then both
    change, and one is moved. *)
Definition ex_before : list hop :=
  [HLit ex_lit; HNew 0; HLit VNull; HSet 0 kb 1; HCommitDiff 0; HCopy 0].
Definition ex_after : list hop :=
  [HUnset 0 ka; HCommitDiff 0; HMoveNew 0; HCommit 2].

Example C95_sharing : option_map (fun st => (map h_ord (hs_objs st), hs_vals st)) (h_run hs_init ex_before) =
  Some ([Some 1; Some 1], [HV ex_lit; HV VNull; HR 1]).
Proof. vm_compute. reflexivity. Qed.

Ltac by_keys := intros k x;
  unfold spec_get, ex_lit; cbn [s_base s_changes obj_members last_binding binding is_diff In]; split;
  [ intros H; repeat destruct H as [H|H]; inversion H; subst; cbn; auto
  | destruct (beqb ka k) eqn:Ea; [apply beqb_eq in Ea; subst k|
      destruct (beqb kb k) eqn:Eb; [apply beqb_eq in Eb; subst k|]]; intros H;
    repeat match goal with H : _ /\ _ |- _ => destruct H | H : _ \/ _ |- _ => destruct H end;
    repeat match goal with H : _ = Some x |- _ => vm_compute in H; inversion H; clear H; subst x end;
    try discriminate; auto ].

Definition ex_mid : sstate :=
  ([mkSB (Some (mkSpec ex_lit [(kb, VNull)])) None; mkSB (Some (mkSpec ex_lit [(kb, VNull)])) None],
   [ex_lit; VNull; VObj true [(kb, VNull)]]).
Definition ex_end : sstate :=
  ([mkSB None None; mkSB (Some (mkSpec ex_lit [(kb, VNull)])) None;
    mkSB (Some (mkSpec ex_lit [(kb, VNull); (ka, VUndef)])) None],
   [ex_lit; VNull; VObj true [(kb, VNull)]; VObj true [(ka, VUndef); (kb, VNull)]; VObj false [(kb, VNull)]]).

Example C95_case : sruns ([], []) ex_before ex_mid /\ sruns ex_mid ex_after ex_end /\
  in_use (fst ex_mid) 1 /\ Forall (fun op => ~ In 1 (changed_by op)) ex_after.
Proof.
  split; [|split; [|split]].
  - eapply sruns_cons; [apply S_lit|]. cbn [app].
    eapply sruns_cons; [apply (S_new _ _ 0 ex_lit); [reflexivity|]|].
    { split; [repeat constructor|]. intros _ k v [H|[]]; inversion H; reflexivity. }
    eapply sruns_cons; [apply S_lit|].
    eapply sruns_cons; [eapply S_set; reflexivity|]. cbn [replaced firstn skipn app spec_add s_base s_changes].
    eapply sruns_cons; [apply (S_commit_diff _ _ 0 (mkSpec ex_lit [(kb, VNull)]) None (VObj true [(kb, VNull)])); [reflexivity|]|].
    { eexists. split; [reflexivity|]. split; [repeat constructor|]. by_keys. }
    eapply sruns_cons; [eapply (S_copy _ _ 0); reflexivity|]. apply sruns_nil.
  - eapply sruns_cons; [eapply S_unset; reflexivity|]. cbn [replaced firstn skipn app spec_add s_base s_changes].
    eapply sruns_cons; [apply (S_commit_diff _ _ 0 (mkSpec ex_lit [(kb, VNull); (ka, VUndef)]) None
      (VObj true [(ka, VUndef); (kb, VNull)])); [reflexivity|]|].
    { eexists. split; [reflexivity|]. split; [repeat constructor|]. by_keys. }
    eapply sruns_cons; [eapply (S_move_new _ _ 0); reflexivity|]. cbn [replaced firstn skipn app].
    eapply sruns_cons; [apply (S_commit _ _ 2 (mkSpec ex_lit [(kb, VNull); (ka, VUndef)]) None (VObj false [(kb, VNull)])); [reflexivity|]|].
    { eexists. split; [reflexivity|]. split; [repeat constructor|]. by_keys. }
    apply sruns_nil.
  - do 2 eexists. reflexivity.
  - repeat constructor; cbn; intuition discriminate.
Qed.

(** The hypotheses of [C95_stable], with the diff of the first builder. *)
Example C95_stable_case : exists st1 st2, h_run hs_init ex_before = Some st1 /\ h_run st1 ex_after = Some st2 /\
  nth_error (hs_vals st1) 2 = Some (HR 1) /\ shows (hs_heap st1) (HR 1) (VObj true [(kb, VNull)]).
Proof.
  eexists. eexists. split; [vm_compute; reflexivity|]. split; [vm_compute; reflexivity|]. split; [reflexivity|].
  eapply shows_object; [reflexivity|]. repeat constructor.
Qed.

(** Using a builder that was moved from is undefined behaviour. *)
Example C95_moved : h_run hs_init (ex_before ++ [HMoveNew 0; HRead 0 ka]) = None.
Proof. vm_compute. reflexivity. Qed.
