(** C123: const functions of an object builder. *)
From Verif Require Import Base ModelKeyed SpecKeyed ModelValue ModelObject SpecObject ModelConst SpecConst ProofConst.

(** The fields said to be written are those a const function changes: the base never, no other
    field, and where one is said to be written the builder is not the same afterwards
    (unless what is iterated is undefined). *)
Theorem C123_writes : forall o c o' a, const_call o c = Some (o', a) ->
  o_base o' = o_base o /\ (forall f, ~ In f (writes o c) -> same_field o o' f) /\
  (writes o c <> [] -> o' <> o \/ (c = KIterate /\ is_undef (o_snap o') = true)).
Proof. exact writes_exact. Qed.
Print Assumptions C123_writes.

(** The answer depends on nothing but the base and the fields said to be read. *)
Theorem C123_reads : forall o1 o2 c, o_base o1 = o_base o2 -> (forall f, In f (reads o1 c) -> same_field o1 o2 f) ->
  option_map snd (const_call o1 c) = option_map snd (const_call o2 c).
Proof. exact reads_enough. Qed.
Print Assumptions C123_reads.

(** A builder with no change waiting to be sorted can be shared: no two const functions race
    (iteration provided the snapshot has been taken). *)
Theorem C123_shared : forall o c d, settled o -> calm o c -> calm o d -> ~ race o c d.
Proof. exact settled_no_race. Qed.
Print Assumptions C123_shared.

(** Whatever calls are made on it in whatever order, each answers as if made alone, and the
    builder stays as it is. *)
Theorem C123_order : forall l o, settled o -> Forall (calm o) l ->
  exists r, const_calls o l = Some (o, r) /\ map Some r = map (fun c => option_map snd (const_call o c)) l.
Proof. exact calls_alone. Qed.
Print Assumptions C123_order.

(** On any builder, settled or not, made and changed in any way: calls made one after the other
    do not change what the others answer, nor what is answered afterwards; and when one of them
    sorts, the builder left behind is settled. *)
Theorem C123_answers : forall b1 b2 ops l, base_ok b1 -> base_ok b2 -> Forall op_ok ops ->
  exists x y, obj_run (obj_new b1, obj_new b2) ops = Some (x, y) /\ exists x' r,
    const_calls x l = Some (x', r) /\ map Some r = map (fun c => option_map snd (const_call x c)) l /\
    (forall c, option_map snd (const_call x' c) = option_map snd (const_call x c)) /\
    (settled x \/ Exists (fun c => c = KCommit \/ c = KCommitDiff \/ c = KCopy) l -> settled x').
Proof. exact calls_any. Qed.
Print Assumptions C123_answers.

(** Making the value, the diff or a copy, or taking the snapshot, brings a builder there. *)
Theorem C123_settle : forall o c, c = KCommit \/ c = KCommitDiff \/ c = KCopy \/ (c = KIterate /\ is_undef (o_snap o) = true) ->
  exists o' a, const_call o c = Some (o', a) /\ settled o'.
Proof. exact makes_settled. Qed.
Print Assumptions C123_settle.

(** In a builder with changes waiting each of these changes the builder, though const, and
    races with itself and with every other const function. *)
Theorem C123_unsettled : forall o c, ~ settled o ->
  (c = KCommit \/ c = KCommitDiff \/ c = KCopy \/ (c = KIterate /\ is_undef (o_snap o) = true)) ->
  (forall d, (d = KIterate -> is_undef (o_snap o) = true) -> race o c d) /\
  forall o' a, const_call o c = Some (o', a) -> o' <> o.
Proof. exact unsettled_race. Qed.
Print Assumptions C123_unsettled.

Definition ka : bytes := [97%Z].
Definition kb : bytes := [98%Z].

(** So const functions of a builder are not safe to call at the same time. *)
Theorem C123_refuted : exists b ops x y k, obj_run (obj_new b, obj_new b) ops = Some (x, y) /\ race x KCommit (KRead k) /\ race x KCommit KCommit.
Proof.
  exists empty_object, [OSet ka VNull]. do 2 eexists. exists ka. split; [vm_compute; reflexivity|].
  split; exists FUnordered; left; split; cbn; auto.
Qed.
Print Assumptions C123_refuted.

Example C123_case : exists x y, obj_run (obj_new empty_object, obj_new empty_object) [OSet kb VNull; OSet ka (VBool true); OIterate] = Some (x, y) /\
  settled x /\ Forall (calm x) [KRead ka; KIterate; KCommit; KDirty; KCommitDiff] /\
  const_calls x [KRead ka; KIterate; KCommit; KDirty; KCommitDiff] =
    Some (x, [AnsValue (VBool true); AnsItems [(ka, VBool true); (kb, VNull)]; AnsValue (VObj false [(ka, VBool true); (kb, VNull)]);
              AnsFlag true; AnsValue (VObj true [(ka, VBool true); (kb, VNull)])]).
Proof.
  do 2 eexists. split; [vm_compute; reflexivity|]. split; [reflexivity|].
  split; [repeat constructor; intros H; vm_compute; reflexivity|]. vm_compute. reflexivity.
Qed.
(** A read of more than sixteen changes sorts them. *)
Example C123_read : exists x y o' a, obj_run (obj_new empty_object, obj_new empty_object)
    (map (fun n => OSet [Z.of_nat n] VNull) (seq 1 42)) = Some (x, y) /\ ~ settled x /\
  writes x (KRead ka) = [FUnordered; FOrdered] /\ const_call x (KRead ka) = Some (o', a) /\ settled o'.
Proof.
  do 4 eexists. split; [vm_compute; reflexivity|]. split; [intros H; discriminate H|]. split; [vm_compute; reflexivity|].
  split; [vm_compute; reflexivity|]. reflexivity.
Qed.
(** Changes waiting, the first commit sorts them; what is set twice is answered once. *)
Example C123_answers_case : exists x y x', obj_run (obj_new empty_object, obj_new empty_object) [OSet kb VNull; OSet ka (VBool true); OSet kb (VBool false)] = Some (x, y) /\
  ~ settled x /\ settled x' /\ const_calls x [KRead kb; KCommit; KRead kb; KIterate] =
    Some (x', [AnsValue (VBool false); AnsValue (VObj false [(ka, VBool true); (kb, VBool false)]); AnsValue (VBool false);
               AnsItems [(ka, VBool true); (kb, VBool false)]]) /\ o_snap x' = VObj false [(ka, VBool true); (kb, VBool false)].
Proof.
  do 3 eexists. split; [vm_compute; reflexivity|]. split; [intros H; discriminate H|].
  split; [|split; [vm_compute; reflexivity|vm_compute; reflexivity]]. reflexivity.
Qed.
