(** C122: builders when memory runs out. *)
From Verif Require Import Base ModelKeyed SpecKeyed ModelValue ModelObject SpecObject ModelArray SpecArray ModelFail SpecFail ProofFail.

(** Whichever request for memory fails in whichever operations, an object builder then shows
    the map made by the operations that did not throw: one that threw has changed nothing,
    except that a merge has merged the members before the one it threw at.  Assigning a
    builder is excepted. *)
Theorem C122_object : forall b1 b2 ops, base_ok b1 -> base_ok b2 -> Forall op_ok (map fst ops) -> Forall assigned_well ops ->
  exists x y ts kept, obj_tries (obj_new b1, obj_new b2) ops = Some ((x, y), ts) /\ survived (map fst ops) ts kept /\
    let s := fst (spec_run (mkSpec b1 [], mkSpec b2 []) kept) in
    (forall k, exists x', obj_read x k = Some (x', spec_read s k)) /\ committed s (snd (obj_commit x)) /\
    (obj_dirty x = true <-> s_changes s <> []).
Proof. exact objects_fail. Qed.
Print Assumptions C122_object.

(** When nothing fails nothing throws, and the operations are those of C11. *)
Theorem C122_fine : forall ops p, (forall o, In o ops -> snd o = None) ->
  obj_tries p ops = option_map (fun q => (q, repeat false (length ops))) (obj_run p (map fst ops)).
Proof. exact objects_fine. Qed.
Print Assumptions C122_fine.

Definition ka : bytes := [97%Z].
Definition kb : bytes := [98%Z].
Definition kc : bytes := [99%Z].
Definition fill : list (oop * option nat) :=
  [(OSet kb VNull, None); (OSet kb (VBool true), None); (OSet ka VNull, None); (OUnset kb, None);
   (OSet kb VNull, None); (OSet kb (VBool true), None); (OSet ka VNull, None); (OSet kc VNull, None)].

(** The ninth change needs a larger layer and fails while the first is merged; the changes
    have been sorted, yet read the same. *)
Example C122_case :
  let ops := fill ++ [(OSet ka (VBool false), Some 2); (OMerge (VArr [(kb, VNull); (ka, VNum (NUInt 1))]), Some 7);
    (OSet kc (VBool true), Some 0); (OCopy, Some 0); (OCommit, Some 1)] in
  Forall op_ok (map fst ops) /\ Forall assigned_well ops /\
  exists x y, obj_tries (obj_new empty_object, obj_new empty_object) ops =
      Some ((x, y), repeat false 8 ++ [true; false; true; true; true]) /\
    snd (obj_commit x) = VObj false [(ka, VNum (NUInt 1)); (kb, VNull); (kc, VNull)].
Proof.
  split; [repeat constructor|]. split; [repeat constructor; intros H; discriminate|].
  eexists. eexists. split; [vm_compute; reflexivity|]. vm_compute. reflexivity.
Qed.

(** Assigning a builder has no such guarantee: when it throws the target has lost its
    contents, and reading a key of it shows the base of the source without the changes,
    whatever the value made of it shows. *)
Theorem C122_assign : forall x y n p, obj_try (x, y) OAssign n = Some (p, true) ->
  (forall k, obj_read (fst p) k = Some (fst p, value_member (o_base y) k)) /\
  (snd (obj_commit (fst p)) = o_base y \/ snd (obj_commit (fst p)) = snd (obj_commit y)).
Proof. exact assign_fails. Qed.
Print Assumptions C122_assign.

(** So a builder can be left which reads as without a key the value made of it has. *)
Theorem C122_assign_refuted : exists b1 b2 ops n x y x1 l,
  obj_run (obj_new b1, obj_new b2) ops = Some (x, y) /\ obj_try (x, y) OAssign (Some n) = Some ((x1, y), true) /\
  obj_read x1 ka = Some (x1, VUndef) /\ snd (obj_commit x1) = VObj false l /\ In (ka, VNull) l.
Proof.
  exists empty_object, empty_object, [OSwap; OSet ka VNull; OOptimize; OSwap], 0.
  do 4 eexists. split; [vm_compute; reflexivity|]. split; [vm_compute; reflexivity|]. split; [vm_compute; reflexivity|].
  split; [vm_compute; reflexivity|]. left. reflexivity.
Qed.
Print Assumptions C122_assign_refuted.

(** An array builder shows the list made by the operations that did not throw, and every
    operation allowed on that list can be called. *)
Theorem C122_array : forall c ops a ts,
  (match c with CBase l => forall m, In m l -> is_undef (snd m) = false | _ => True end) ->
  arr_tries (arr_create c) ops = Some (a, ts) -> all_ok (aspec_create c) (map fst ops) ts ->
  let s := aspec_run (aspec_create c) (done_only (map fst ops) ts) in
  arr_size a = length (as_cur s) /\ (forall i, arr_get a i = nth_error (as_cur s) i) /\ arr_commit a = VArr (defined_only (as_cur s)) /\
  (forall op n, aop_ok s op -> arr_try a op n <> None).
Proof. exact arrays_fail. Qed.
Print Assumptions C122_array.

Definition it (n : Z) : member := ([], VNum (NUInt n)).

Example C122_array_case :
  let c := CBase [it 0; it 1; it 2] in
  let ops := [(APush (it 3), None); (AInsert 1 (it 7), Some 1); (AErase 3, Some 0); (ASet 0 (it 9), Some 0); (APush (it 4), Some 0); (AReverse, Some 3)] in
  exists a, arr_tries (arr_create c) ops = Some (a, [false; true; false; true; true; false]) /\
    all_ok (aspec_create c) (map fst ops) [false; true; false; true; true; false] /\
    arr_commit a = VArr [it 2; it 1; it 0].
Proof.
  eexists. split; [vm_compute; reflexivity|]. split; [|vm_compute; reflexivity]. cbn. repeat split; auto; lia.
Qed.

(** Again assignment is excepted: the array is taken over without the changes, the result is
    neither of the two lists. *)
Theorem C122_array_assign_refuted : exists x y a, arr_assign_try x y (Some 0) = (a, true) /\
  arr_commit x = VArr [it 0; it 1; it 2] /\ arr_commit y = VArr [it 7; it 8; it 9] /\
  arr_commit a = VArr [it 7; it 8; it 2].
Proof.
  exists (mkArr (VArr [it 0; it 1]) 2 [it 2]), (mkArr (VArr [it 7; it 8]) 2 [it 9]). eexists.
  split; [reflexivity|]. repeat split.
Qed.
Print Assumptions C122_array_assign_refuted.

(** And [slice] with an end: the end may be cut off and the start not. *)
Theorem C122_slice_refuted : exists a a', arr_slice_try (arr_of (VArr [it 0; it 1; it 2; it 3])) 1 3 (Some 0) = Some (a, true) /\
  arr_commit a = VArr [it 0; it 1; it 2] /\
  arr_slice_try (arr_of (VArr [it 0; it 1; it 2; it 3])) 1 3 None = Some (a', false) /\ arr_commit a' = VArr [it 1; it 2].
Proof. eexists. eexists. split; [vm_compute; reflexivity|]. split; [reflexivity|]. split; [vm_compute; reflexivity|]. reflexivity. Qed.
Print Assumptions C122_slice_refuted.
