(** C116: array builders copied, assigned and moved. *)
From Verif Require Import Base ModelKeyed SpecKeyed ModelValue ModelObject ModelArray SpecArray ModelArrays SpecArrays ProofArrays.

(** Whatever is done with any number of builders, each is a list of its own: a copy starts
    with the list of its source and shares nothing with it afterwards; a move hands the list
    over.  A moved-from builder is as good as new after an assignment or [setBaseObject]. *)
Theorem C116_lists : forall ops, all_allowed [] ops ->
  exists st, b_run bs_init ops = Some st /\ bs_out st = all_shown [] ops.
Proof. exact arrays_are_lists. Qed.
Print Assumptions C116_lists.

Definition it (n : Z) : member := ([], VNum (NUInt n)).
Definition three : value := VArr [it 0; it 1; it 2].

Example C116_case :
  let ops := [BValue three; BOp 0 (APush (it 3)); BCopy 0; BOp 1 (ASet 1 (it 7)); BOp 0 (AErase 0);
              BMoveNew 1; BAssign 1 0; BOp 1 AClear; BMove 0 2; BSetBase 2 three; BOp 2 (AInsert 3 (it 9));
              BCommit 0; BCommit 1; BCommit 2; BSize 0; BGet 0 1; BGet 0 4] in
  all_allowed [] ops /\
  all_shown [] ops = [AValue (VArr [it 0; it 7; it 2; it 3]); AValue (VArr []); AValue (VArr [it 0; it 1; it 2; it 9]);
    ACount 4; AItem (Some (it 7)); AItem None].
Proof.
  split; [|vm_compute; reflexivity].
  assert (W : whole three).
  { exists [it 0; it 1; it 2]. split; [reflexivity|]. intros m H. repeat (destruct H as [<-|H]; [reflexivity|]). destruct H. }
  cbn. repeat split; auto; lia.
Qed.

(** A moved-from builder keeps counting the items of its array it had not copied, and
    reading any of them is undefined behaviour. *)
Theorem C116_left : forall b, b_size (b_moved b) = b_off b /\
  forall i, b_get (b_moved b) i = if i <? b_off b then None else Some None.
Proof. exact moved_size. Qed.
Print Assumptions C116_left.

(** Whatever is done with it then, [reverse] excepted, a value can be made of it only while
    it is empty: otherwise that is undefined behaviour. *)
Theorem C116_moved : forall b ops b', ~ In AReverse ops -> b_ops (b_moved b) ops = Some b' ->
  b_commit b' = if b_size b' =? 0 then Some (VArr []) else None.
Proof. exact moved_commit. Qed.
Print Assumptions C116_moved.

(** What a builder without its array does: a change before the items added since ([off] items
    were in the array), [revert], and [reverse] and [slice] while the array counts, are
    undefined behaviour; a change among the items added since is made. *)
Theorem C116_moved_ops : forall off chg, let b := mkBarr None off chg in
  (forall pos m, pos < off -> b_op b (AInsert pos m) = None /\ b_op b (ASet pos m) = None /\ b_op b (AErase pos) = None) /\
  (forall pos l, pos < off -> b_op b (AInsertSet pos l) = None) /\
  (forall pos n, pos < off -> b_op b (AEraseSet pos n) = None) /\
  b_op b ARevert = None /\
  (0 < off -> b_op b AReverse = None) /\
  (forall z, 0 < off -> (- Z.of_nat (off + length chg) < z < Z.of_nat (off + length chg))%Z -> b_op b (ASlice1 z) = None) /\
  (off = 0 -> b_op b AReverse = Some (mkBarr (Some (VArr [])) 0 (rev chg))) /\
  (forall i m, i <= length chg -> b_op b (AInsert (off + i) m) = Some (mkBarr None off (firstn i chg ++ m :: skipn i chg))) /\
  (forall i m, i < length chg -> b_op b (ASet (off + i) m) = Some (mkBarr None off (firstn i chg ++ m :: skipn (S i) chg)) /\
     b_op b (AErase (off + i)) = Some (mkBarr None off (firstn i chg ++ skipn (S i) chg))) /\
  (forall i n, i + n <= length chg -> b_op b (AEraseSet (off + i) n) = Some (mkBarr None off (firstn i chg ++ skipn (i + n) chg))).
Proof. exact moved_ops. Qed.
Print Assumptions C116_moved_ops.

Example C116_moved_ops_case :
  let b := b_moved (of_arr (arr_push (arr_of three) (it 3))) in
  b_ops b [APush (it 4); APush (it 5); AInsert 4 (it 6); AErase 3] = Some (mkBarr None 3 [it 6; it 5]) /\
  b_ops b [APush (it 4); AInsert 2 (it 6)] = None /\ b_ops b [ARevert] = None /\ b_ops b [AReverse] = None.
Proof. vm_compute. auto. Qed.

(** So using a moved-from builder again after [clear] does not work. *)
Theorem C116_reuse_refuted : forall l x,
  b_run bs_init [BValue (VArr l); BMoveNew 0; BOp 0 AClear; BOp 0 (APush x); BCommit 0] = None.
Proof. exact moved_reuse. Qed.
Print Assumptions C116_reuse_refuted.

Example C116_moved_case :
  let b := of_arr (arr_push (arr_of three) (it 3)) in
  ~ In AReverse [AClear; APush (it 4); APush (it 5); ATrunc 0] /\
  b_ops (b_moved b) [AClear; APush (it 4); APush (it 5); ATrunc 0] = Some (mkBarr None 0 []) /\
  b_ops (b_moved b) [AClear; APush (it 4)] = Some (mkBarr None 0 [it 4]) /\
  b_size (b_moved b) = 3 /\
  b_ops (b_moved b) [AClear; APush (it 4); APush (it 5); AReverse] = Some (mkBarr (Some (VArr [])) 0 [it 5; it 4]).
Proof. split; [cbn; intuition discriminate|]. vm_compute. auto. Qed.
