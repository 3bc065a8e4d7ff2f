(** C14, C15, C16, C52: arrays. *)
From Verif Require Import Base ModelKeyed SpecKeyed ModelValue ModelObject ModelArray SpecArray ProofArray.

(** Whatever operations are made, the builder shows the list they describe. *)
Theorem C14_builder_is_list : forall c ops,
  (match c with CBase l => forall m, In m l -> is_undef (snd m) = false | _ => True end) ->
  aops_ok (aspec_create c) ops ->
  let cur := as_cur (aspec_run (aspec_create c) ops) in
  exists a, arr_run (arr_create c) ops = Some a /\
    arr_size a = length cur /\ (forall i, arr_get a i = nth_error cur i) /\
    arr_commit a = VArr (defined_only cur).
Proof. exact array_builder. Qed.
Print Assumptions C14_builder_is_list.

(** [insertSet] away from position 0 in a builder over an array is undefined
    behaviour. *)
Theorem C14_insert_set_refuted : forall l pos x, 0 < pos <= length l -> x <> [] ->
  arr_run (arr_of (VArr l)) [AInsertSet pos x] = None.
Proof. exact insert_set_undefined. Qed.
Print Assumptions C14_insert_set_refuted.

(** [setBaseObject]: without changes of its own the builder shows the new array;
    otherwise what it kept of the old array is replaced by as many items of the
    new one, as far as there are any. *)
Theorem C14_set_base : forall c ops a v,
  (match c with CBase l => forall m, In m l -> is_undef (snd m) = false | _ => True end) ->
  aops_ok (aspec_create c) ops -> arr_run (arr_create c) ops = Some a ->
  exists cur, (a_chg a = [] -> cur = members_of v) /\
    (a_chg a <> [] -> exists kept own, as_cur (aspec_run (aspec_create c) ops) = kept ++ own /\ own = a_chg a /\
      cur = firstn (length kept) (members_of v) ++ own) /\
    arr_size (arr_set_base a v) = length cur /\ forall i, arr_get (arr_set_base a v) i = nth_error cur i.
Proof. exact set_base_values. Qed.
Print Assumptions C14_set_base.

Definition it (n : Z) : member := ([], VNum (NUInt n)).
Definition ten : list member := map it [0; 1; 2; 3; 4; 5; 6; 7; 8; 9]%Z.

Example C14_case :
  let ops := [APush (it 3); AErase 1; AInsert 1 (it 7); ATrunc 3; ASet 0 (it 9); ASetSize 5 (it 4); AReverse;
              AInsertSet 2 [it 1; it 2]; AEraseSet 0 1; AAddSet (VArr [it 8])] in
  aops_ok (aspec_create (CBase [it 0; it 1; it 2])) ops /\
  option_map arr_commit (arr_run (arr_create (CBase [it 0; it 1; it 2])) ops) =
    Some (VArr [it 4; it 1; it 2; it 2; it 7; it 9; it 8]).
Proof. cbn. repeat split; auto; lia. Qed.

(** [Array::slice(start)] keeps the items from [start] on. *)
Theorem C15_array_slice_start : forall c ops a s,
  (match c with CBase l => forall m, In m l -> is_undef (snd m) = false | _ => True end) ->
  aops_ok (aspec_create c) ops -> arr_run (arr_create c) ops = Some a ->
  let l := as_cur (aspec_run (aspec_create c) ops) in
  exists a', arr_slice1 a s = Some a' /\
    forall i, arr_get a' i = nth_error (range l (norm_pos (length l) s) (length l)) i.
Proof. exact builder_slice1. Qed.
Print Assumptions C15_array_slice_start.

(** [Array::slice(start, end)] keeps [start..end) when neither is negative, or
    when the start is 0. *)
Theorem C15_array_slice_range : forall c ops a s e,
  (match c with CBase l => forall m, In m l -> is_undef (snd m) = false | _ => True end) ->
  aops_ok (aspec_create c) ops -> arr_run (arr_create c) ops = Some a ->
  (0 <= s)%Z -> (0 <= e)%Z \/ s = 0%Z ->
  let l := as_cur (aspec_run (aspec_create c) ops) in
  exists a', arr_slice2 a s e = Some a' /\
    forall i, arr_get a' i = nth_error (range l (norm_pos (length l) s) (norm_pos (length l) e)) i.
Proof. exact builder_slice2_range. Qed.
Print Assumptions C15_array_slice_range.

(** In general: cut at [end]; then keep what [start] selects of that, once, or
    twice when [end] is negative. *)
Theorem C15_array_slice_exact : forall c ops a s e,
  (match c with CBase l => forall m, In m l -> is_undef (snd m) = false | _ => True end) ->
  aops_ok (aspec_create c) ops -> arr_run (arr_create c) ops = Some a ->
  let l := as_cur (aspec_run (aspec_create c) ops) in
  let kept := last_or_skip (firstn (norm_pos (length l) e) l) s in
  exists a', arr_slice2 a s e = Some a' /\
    forall i, arr_get a' i = nth_error (if (e <? 0)%Z then last_or_skip kept s else kept) i.
Proof. exact builder_slice2. Qed.
Print Assumptions C15_array_slice_exact.

(** So slice(2, -1) of ten items drops two items too many, and slice(-3, -1)
    keeps one too many. *)
Theorem C15_array_slice_negative_refuted :
  option_map content (arr_slice2 (arr_of (VArr ten)) 2 (-1)) = Some (map it [4; 5; 6; 7; 8]%Z) /\
  range ten (norm_pos 10 2) (norm_pos 10 (-1)) = map it [2; 3; 4; 5; 6; 7; 8]%Z /\
  option_map content (arr_slice2 (arr_of (VArr ten)) (-3) (-1)) = Some (map it [6; 7; 8]%Z) /\
  range ten (norm_pos 10 (-3)) (norm_pos 10 (-1)) = map it [7; 8]%Z.
Proof. vm_compute. auto. Qed.
Print Assumptions C15_array_slice_negative_refuted.

(** [Value::slice]: exact when [start] is not negative; otherwise [end] is
    ignored. *)
Theorem C15_value_slice : forall v s e, slice_ok v ->
  vslice v s e = slice_result v (range (members_of v) (norm_pos (vsize v) s) (slice_end (vsize v) s e)).
Proof. exact value_slice. Qed.
Print Assumptions C15_value_slice.

Theorem C15_value_slice_negative_refuted :
  vslice (VArr ten) (-3) (-1) = VArr (map it [7; 8; 9]%Z).
Proof. vm_compute. reflexivity. Qed.
Print Assumptions C15_value_slice_negative_refuted.

Example C15_case :
  slice_ok (VArr ten) /\ vslice (VArr ten) 2 (-3) = VArr (map it [2; 3; 4; 5; 6]%Z) /\
  slice_ok (VObj false [([97%Z], VNull); ([98%Z], VNull)]) /\
  vslice (VObj false [([97%Z], VNull); ([98%Z], VNull)]) 1 7 = VObj false [([98%Z], VNull)] /\
  option_map content (arr_slice2 (arr_of (VArr ten)) 7 9) = Some (map it [7; 8]%Z).
Proof.
  unfold slice_ok. repeat match goal with |- _ /\ _ => split end; try reflexivity.
  - intros m H. cbn in H. repeat (destruct H as [<-|H]; [reflexivity|]). destruct H.
  - intros m H. cbn in H. repeat (destruct H as [<-|H]; [reflexivity|]). destruct H.
  - repeat constructor.
Qed.

(** [splitAt] cuts a list in two, also when applied to its own results. *)
Theorem C16_split_partitions : forall w pos, view_ok w -> (Z.of_nat (w_len w) < 2 ^ 31)%Z ->
  let '(x, y) := split_at w pos in
  view_ok x /\ view_ok y /\ view_items x ++ view_items y = view_items w /\
  length (view_items x) = norm_pos (length (view_items w)) pos.
Proof. exact split_at_spec. Qed.
Print Assumptions C16_split_partitions.

(** An index inside a part reads the item of the part. *)
Theorem C16_read_inside : forall w i, i < w_len w -> nth_error (view_items w) i = Some (view_item w i).
Proof. exact view_item_nth. Qed.
Print Assumptions C16_read_inside.

(** An index past the end of the first part reads the second part instead of
    undefined. *)
Theorem C16_read_past_end_refuted : exists l pos, let x := fst (split_at (view_of l) pos) in
  view_item x (w_len x) = it 2 /\ length (view_items x) = 2.
Proof. exists ten, 2%Z. vm_compute. auto. Qed.
Print Assumptions C16_read_past_end_refuted.

Example C16_case : view_ok (view_of ten) /\
  view_items (fst (split_at (view_of ten) (-7))) = map it [0; 1; 2]%Z /\
  view_items (fst (split_at (snd (split_at (view_of ten) (-7))) 2)) = map it [3; 4]%Z.
Proof. split; [cbv; lia|]. vm_compute. auto. Qed.

(** [push], [pop], [unshift], [shift] and [reverse] of an array value. *)
Theorem C52_push : forall l m, (forall x, In x (l ++ [m]) -> is_undef (snd x) = false) ->
  vpush (VArr l) m = VArr (l ++ [m]).
Proof. exact value_push. Qed.
Print Assumptions C52_push.

Theorem C52_pop : forall l m, (forall x, In x (l ++ [m]) -> is_undef (snd x) = false) ->
  vpop (VArr (l ++ [m])) = Some (VArr l, m).
Proof. exact value_pop. Qed.
Print Assumptions C52_pop.

Theorem C52_unshift : forall l m, (forall x, In x (m :: l) -> is_undef (snd x) = false) ->
  vunshift (VArr l) m = VArr (m :: l).
Proof. exact value_unshift. Qed.
Print Assumptions C52_unshift.

Theorem C52_shift : forall l m, (forall x, In x (m :: l) -> is_undef (snd x) = false) ->
  vshift (VArr (m :: l)) = (VArr l, m).
Proof. exact value_shift. Qed.
Print Assumptions C52_shift.

Theorem C52_reverse : forall l, (forall x, In x l -> is_undef (snd x) = false) ->
  vreverse (VArr l) = VArr (rev l).
Proof. exact value_reverse. Qed.
Print Assumptions C52_reverse.

Example C52_case : vpop (vpush (VArr [it 1; it 2]) (it 3)) = Some (VArr [it 1; it 2], it 3) /\
  vshift (vunshift (VArr [it 1; it 2]) (it 3)) = (VArr [it 1; it 2], it 3) /\
  vreverse (VArr [it 1; it 2]) = VArr [it 2; it 1].
Proof. vm_compute. auto. Qed.
