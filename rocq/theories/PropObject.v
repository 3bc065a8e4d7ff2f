(** C11, C12, C13: the Object builder. *)
From Verif Require Import Base ModelKeyed SpecKeyed ModelValue ModelObject SpecObject ProofObject.

(** Two builders, any history of operations: a read shows the latest value set
    for the key, undefined after unset, the base's member if never changed. *)
Theorem C11_read : forall b1 b2 ops k, base_ok b1 -> base_ok b2 -> Forall op_ok ops ->
  exists x y, obj_run (obj_new b1, obj_new b2) ops = Some (x, y) /\
    exists x', obj_read x k = Some (x', spec_read (fst (spec_run (mkSpec b1 [], mkSpec b2 []) ops)) k).
Proof. exact object_read. Qed.
Print Assumptions C11_read.

(** Committing gives exactly that map, sorted, without undefined members (see
    [committed] for an unchanged builder and for a base that is a diff). *)
Theorem C11_commit : forall b1 b2 ops, base_ok b1 -> base_ok b2 -> Forall op_ok ops ->
  exists x y, obj_run (obj_new b1, obj_new b2) ops = Some (x, y) /\
    committed (fst (spec_run (mkSpec b1 [], mkSpec b2 []) ops)) (snd (obj_commit x)).
Proof. exact object_commit. Qed.
Print Assumptions C11_commit.

(** Committing as a diff gives exactly the changes, the last one per key. *)
Theorem C11_commit_as_diff : forall b1 b2 ops, base_ok b1 -> base_ok b2 -> Forall op_ok ops ->
  exists x y, obj_run (obj_new b1, obj_new b2) ops = Some (x, y) /\
    let s := fst (spec_run (mkSpec b1 [], mkSpec b2 []) ops) in
    exists l, members_of (snd (obj_commit_diff x)) = l /\ keys_increasing l /\
      forall k v, In (k, v) l <-> last_binding k (s_changes s) = Some v.
Proof. exact object_commit_diff. Qed.
Print Assumptions C11_commit_as_diff.

(** [dirty] tells whether a change was made and not dropped by clear or
    revert, even when it sets what was there before. *)
Theorem C11_dirty : forall b1 b2 ops, base_ok b1 -> base_ok b2 -> Forall op_ok ops ->
  exists x y, obj_run (obj_new b1, obj_new b2) ops = Some (x, y) /\
    (obj_dirty x = true <-> s_changes (fst (spec_run (mkSpec b1 [], mkSpec b2 []) ops)) <> []).
Proof. exact object_dirty. Qed.
Print Assumptions C11_dirty.

(** The list constructor: the last defined value of each key. *)
Theorem C11_list_constructor : forall l, base_ok (o_base (obj_of_list l)) /\
  forall k v, In (k, v) (obj_members (o_base (obj_of_list l))) <->
    last_binding k (filter (fun m => negb (is_undef (snd m))) l) = Some v.
Proof. exact object_of_list. Qed.
Print Assumptions C11_list_constructor.

(** What [committed] says determines the value. *)
Theorem C11_commit_determined : forall s v w, committed s v -> committed s w -> v = w.
Proof. exact committed_det. Qed.
Print Assumptions C11_commit_determined.

Definition ka : bytes := [97%Z].
Definition kb : bytes := [98%Z].
Definition kc : bytes := [99%Z].
Definition ex_base : value := VObj false [(ka, VBool true); (kb, VNull)].
(** Twelve changes: the first layer of eight overflows and is reorganised. *)
Definition ex_ops : list oop :=
  [OSet kc VNull; OSet ka VNull; OUnset ka; ORead kb; OSet kb (VBool false); OSet kc (VBool true);
   OSet ka (VBool false); OSet kb VNull; OSet kc VNull; OSet kb (VBool true); OUnset kc; OCopy; OSwap;
   OSet ka (VStr None ka); OUnset kb; OSet kc VNull; OOptimize; OUnset kc].

Example C11_case : base_ok ex_base /\ Forall op_ok ex_ops /\
  option_map (fun p => (snd (obj_commit (fst p)), snd (obj_commit (snd p))))
    (obj_run (obj_new ex_base, obj_new empty_object) ex_ops) =
  Some (VObj false [(ka, VStr None ka)], VObj false [(ka, VBool false); (kb, VBool true)]).
Proof.
  split; [|split].
  - split; [repeat constructor|]. intros _ k v [H|[H|[]]]; inversion H; reflexivity.
  - repeat constructor.
  - vm_compute. reflexivity.
Qed.

(** No history reaches a missing layer, no [push_back] of a new member is
    refused, and merging the two layers loses no key. *)
Theorem C12_layers_safe : forall b1 b2 ops, base_ok b1 -> base_ok b2 -> Forall op_ok ops ->
  exists x y, obj_run (obj_new b1, obj_new b2) ops = Some (x, y) /\
    (forall k, obj_read x k <> None) /\ (forall m, snd (obj_set_internal x m) = true) /\
    (forall d l cap u, o_ordered x = Some (d, l) -> o_unordered x = Some (cap, u) ->
       forall m, In m u -> length (apply_impl default_merge true l (obj_sort u)) <= length l + length (obj_sort u) /\
         In (fst m) (map fst (apply_impl default_merge true l (obj_sort u)))).
Proof. exact object_safe. Qed.
Print Assumptions C12_layers_safe.

(** The danger is real: a state with more than sixteen unordered members and no
    ordered layer would be dereferenced; no history builds it. *)
Example C12_case :
  obj_read (mkObj ex_base VUndef None (Some (32, repeat (ka, VNull) 17))) ka = None /\
  option_map (fun p => option_map (fun u => (fst u, length (snd u))) (o_unordered (fst p)))
    (obj_run (obj_new ex_base, obj_new ex_base) (repeat (OSet ka VNull) 40)) = Some (Some (32, 16)).
Proof. split; vm_compute; reflexivity. Qed.

(** An iteration shows what commit would give, either now or at the earlier
    iteration whose snapshot was kept ([seen_run] says when). *)
Theorem C13_iteration_shows : forall b1 b2 ops, base_ok b1 -> base_ok b2 -> Forall op_ok ops ->
  exists x y, obj_run (obj_new b1, obj_new b2) ops = Some (x, y) /\
    let s := fst (spec_run (mkSpec b1 [], mkSpec b2 []) ops) in
    let r := fst (seen_run (mkSpec b1 [], mkSpec b2 []) (None, None) ops) in
    exists v, committed (match r with Some s' => s' | None => s end) v /\ snd (obj_iterate x) = members_of v.
Proof. exact object_iterate. Qed.
Print Assumptions C13_iteration_shows.

(** Without clear, revert, setBaseObject and assignment it is always current. *)
Theorem C13_iteration_current : forall b1 b2 ops, base_ok b1 -> base_ok b2 -> Forall op_ok ops ->
  Forall (fun op => ~ keeps_snapshot op) ops ->
  exists x y, obj_run (obj_new b1, obj_new b2) ops = Some (x, y) /\
    snd (obj_iterate x) = members_of (snd (obj_commit x)).
Proof. exact object_iterate_current. Qed.
Print Assumptions C13_iteration_current.

(** With them it is not: iterate, then clear, then iterate again. *)
Theorem C13_iteration_after_clear_refuted : exists b ops x y,
  base_ok b /\ Forall op_ok ops /\ obj_run (obj_new b, obj_new b) ops = Some (x, y) /\
  snd (obj_iterate x) <> members_of (snd (obj_commit x)).
Proof.
  exists ex_base, [OIterate; OClear].
  let r := eval vm_compute in (obj_run (obj_new ex_base, obj_new ex_base) [OIterate; OClear]) in
  match r with Some (?x, ?y) => exists x, y end.
  split; [apply C11_case|]. split; [repeat constructor|].
  split; [vm_compute; reflexivity|]. vm_compute. discriminate.
Qed.
Print Assumptions C13_iteration_after_clear_refuted.

Example C13_case :
  Forall (fun op => ~ keeps_snapshot op) (OIterate :: ex_ops) /\
  option_map (fun p => snd (obj_iterate (fst p)))
    (obj_run (obj_new ex_base, obj_new empty_object) (OIterate :: ex_ops)) = Some [(ka, VStr None ka)].
Proof.
  split.
  - repeat (constructor; [intros []|]). constructor.
  - vm_compute. reflexivity.
Qed.
