(** C75, C76: references into builders and nested editors. *)
From Verif Require Import Base ModelKeyed SpecKeyed ModelValue ModelObject SpecObject ModelArray SpecArray ModelRef SpecRef ProofRef.

(** Any program over references, the builders and the variable they point to
    runs, and what it sees is what the places say: a reference is a place and
    the value it saw there last. *)
Theorem C75_refs : forall b1 b2 c v ops, base_ok b1 -> base_ok b2 -> rops_ok (sstore_new b1 b2 c v) ops ->
  exists t, ref_run (store_new b1 b2 c v) ops = Some t /\ shows t (rspec_run (sstore_new b1 b2 c v) ops).
Proof. exact refs_run. Qed.
Print Assumptions C75_refs.

(** Assigning through a reference: its place and its copy hold the value; all
    other places, the copies of all other references and what every reference
    points to stay. *)
Theorem C75_assign : forall s n m, ref_usable s n ->
  let s' := rspec_step s (RAssign n m) in let p := sr_place (s_ref s n) in
  place_read s' p = place_member p m /\ (forall p', p' <> p -> place_read s' p' = place_read s p') /\
  sr_seen (s_ref s' n) = place_member p m /\
  (forall j, sr_place (s_ref s' j) = sr_place (s_ref s j)) /\
  (forall j, j <> n -> sr_seen (s_ref s' j) = sr_seen (s_ref s j)).
Proof. exact assign_effect. Qed.
Print Assumptions C75_assign.

(** [sync] shows what is at the place now and changes nothing else. *)
Theorem C75_sync : forall s n, ref_usable s n ->
  let s' := rspec_step s (RSync n) in
  sr_seen (s_ref s' n) = place_read s (sr_place (s_ref s n)) /\
  (forall p, place_read s' p = place_read s p) /\ (forall j, j <> n -> s_ref s' j = s_ref s j).
Proof. exact sync_effect. Qed.
Print Assumptions C75_sync.

Definition ka : bytes := [97%Z].
Definition kb : bytes := [98%Z].
Definition ex_list : list member := [([], VNull); ([], VBool true)].
Definition ex_rops : list rop :=
  [RMakeObj ka; RMakeObj ka; RMakeArr 1; RMakeVal; RAssign 0 (kb, VBool true); RObjOp (OSet kb VNull);
   RAssignRef 2 1; RArrOp (APush ([], VBool false)); RCopy 2; RSync 1; RAssignRef 3 1; RAssign 4 ([], VStr None kb)].

(** The second reference to [a] does not see the first assignment until it is
    synced; what it hands to the array before that is its old copy. *)
Example C75_case : base_ok (VObj false [(ka, VNull)]) /\
  rops_ok (sstore_new (VObj false [(ka, VNull)]) VUndef (CBase ex_list) ([], VUndef)) ex_rops /\
  option_map (fun t => (map r_copy (t_refs t), option_map snd (obj_read (fst (t_objs t)) ka),
      content (t_arr t), t_val t))
    (ref_run (store_new (VObj false [(ka, VNull)]) VUndef (CBase ex_list) ([], VUndef)) ex_rops) =
  Some ([(ka, VBool true); (ka, VBool true); (ka, VNull); (ka, VBool true); ([], VStr None kb)], Some (VBool true),
    [([], VNull); ([], VStr None kb); ([], VBool false)], (ka, VBool true)).
Proof.
  split; [|split; [|vm_compute; reflexivity]].
  - cbn. repeat constructor. intros _ k v [E|[]]. injection E as _ <-. reflexivity.
  - vm_compute. repeat split; try lia; try discriminate.
Qed.

(** An editor with changes that is closed replaces its slot, and only that, by
    its content, whatever happened to the parent meanwhile. *)
Theorem C76_close : forall h s e w, made h -> slot_value h s = Some w -> ed_dirty e = true ->
  exists h', ed_close h s e = Some h' /\ replaced h s (ed_value e) h'.
Proof. exact editor_close. Qed.
Print Assumptions C76_close.

(** Editing a member as an object: after opening, any edits that keep the base,
    and closing, the parent holds the edited object; nothing else changed. *)
Theorem C76_object : forall h s w b2 ops x y, made h -> slot_value h s = Some w -> base_ok w -> base_ok b2 ->
  Forall op_ok ops -> Forall keeps_base ops -> obj_run (obj_new w, obj_new b2) ops = Some (x, y) ->
  exists h1 h', ed_open h s EObject = Some (h1, HObj (obj_new w)) /\ ed_close h1 s (HObj x) = Some h' /\
    exists v, committed (fst (spec_run (mkSpec w [], mkSpec b2 []) ops)) v /\ replaced h s v h'.
Proof. exact object_editor. Qed.
Print Assumptions C76_object.

(** The same for a member edited as an array; a slot without a value is edited
    as an empty array and stays without a value if nothing was changed. *)
Theorem C76_array : forall h s w c ops a, made h -> slot_value h s = Some w ->
  (w = VUndef /\ c = CList [] \/ exists l, w = VArr l /\ c = CBase l /\ forall m, In m l -> is_undef (snd m) = false) ->
  aops_ok (aspec_create c) ops -> Forall (fun op => op <> AReverse) ops -> arr_run (arr_of w) ops = Some a ->
  let cur := as_cur (aspec_run (aspec_create c) ops) in
  exists h1 h', ed_open h s EArray = Some (h1, HArr (arr_of w)) /\ ed_close h1 s (HArr a) = Some h' /\
    exists v, replaced h s v h' /\ (v = VArr (defined_only cur) \/ v = w /\ cur = members_of w).
Proof. exact array_editor. Qed.
Print Assumptions C76_array.

(** [commit] stores the content in the parent and takes the editor back to the
    value it started from, not to the value just stored. *)
Theorem C76_commit_object : forall h s w b b2 ops x y, made h -> slot_value h s = Some w -> base_ok b -> base_ok b2 ->
  Forall op_ok ops -> obj_run (obj_new b, obj_new b2) ops = Some (x, y) -> obj_dirty x = true ->
  let sp := fst (spec_run (mkSpec b [], mkSpec b2 []) ops) in
  exists h' e, ed_commit h s (HObj x) = Some (h', e) /\
    (exists v, committed sp v /\ replaced h s v h') /\ ed_dirty e = false /\ ed_value e = s_base sp.
Proof. exact object_editor_commit. Qed.
Print Assumptions C76_commit_object.

Theorem C76_commit_array : forall h s w l ops a, made h -> slot_value h s = Some w ->
  (forall m, In m l -> is_undef (snd m) = false) -> aops_ok (aspec_create (CBase l)) ops ->
  Forall (fun op => op <> AReverse) ops -> arr_run (arr_of (VArr l)) ops = Some a -> arr_dirty a = true ->
  exists h' e, ed_commit h s (HArr a) = Some (h', e) /\
    replaced h s (VArr (defined_only (as_cur (aspec_run (aspec_create (CBase l)) ops)))) h' /\
    ed_dirty e = false /\ ed_value e = VArr l.
Proof. exact array_editor_commit. Qed.
Print Assumptions C76_commit_array.

(** A parent with an object under [a] and an array under [b]. *)
Definition ex_parent : value := VObj false [(ka, VObj false [(kb, VNull)]); (kb, VArr [([], VNull)])].
Definition with_editor (k : bytes) (e : ekind) (f : holder * holder -> option holder) : option value :=
  match ed_open (HObj (obj_new ex_parent)) (AtKey k) e with
  | Some p => option_map ed_value (f p)
  | None => None
  end.
Definition edit_obj (ops : list oop) (e : holder) : holder :=
  match e with
  | HObj x => match obj_run (x, obj_new VUndef) ops with Some p => HObj (fst p) | None => e end
  | _ => e
  end.
Definition edit_arr (ops : list aop) (e : holder) : holder :=
  match e with HArr a => match arr_run a ops with Some a' => HArr a' | None => e end | _ => e end.

(** "After [commit], further edits add to what was stored": they do not, the
    first edit is lost from the parent. *)
Theorem C76_commit_twice_refuted : exists k ops1 ops2 v, ops1 = [OSet ka VNull] /\ ops2 = [OSet kb (VBool true)] /\
  with_editor k EObject (fun p =>
    match ed_commit (fst p) (AtKey k) (edit_obj ops1 (snd p)) with
    | Some (h, e) => ed_close h (AtKey k) (edit_obj ops2 e)
    | None => None
    end) = Some v /\ value_member (value_member v k) ka = VUndef.
Proof. exists ka, [OSet ka VNull], [OSet kb (VBool true)]. eexists. repeat split; vm_compute; reflexivity. Qed.
Print Assumptions C76_commit_twice_refuted.

(** "Closing an editor stores its content": an object that was cleared, or an
    array that was emptied and reversed, has no changes and is not stored. *)
Theorem C76_clear_refuted : exists v w,
  with_editor ka EObject (fun p => ed_close (fst p) (AtKey ka) (edit_obj [OClear] (snd p))) = Some v /\
  ed_value (edit_obj [OClear] (HObj (obj_new (value_member ex_parent ka)))) = VObj false [] /\
  value_member v ka = VObj false [(kb, VNull)] /\
  with_editor kb EArray (fun p => ed_close (fst p) (AtKey kb) (edit_arr [AClear; AReverse] (snd p))) = Some w /\
  ed_value (edit_arr [AClear; AReverse] (HArr (arr_of (value_member ex_parent kb)))) = VArr [] /\
  value_member w kb = VArr [([], VNull)].
Proof. do 2 eexists. repeat split; vm_compute; reflexivity. Qed.
Print Assumptions C76_clear_refuted.

(** Editors of both kinds in both kinds of parent. *)
Example C76_case :
  made (HObj (obj_new ex_parent)) /\ base_ok (value_member ex_parent ka) /\
  slot_value (HObj (obj_new ex_parent)) (AtKey ka) = Some (VObj false [(kb, VNull)]) /\
  with_editor ka EObject (fun p => ed_close (fst p) (AtKey ka) (edit_obj [OUnset kb; OSet ka VNull] (snd p))) =
    Some (VObj false [(ka, VObj false [(ka, VNull)]); (kb, VArr [([], VNull)])]) /\
  with_editor kb EArray (fun p => ed_close (fst p) (AtKey kb) (edit_arr [APush ([], VBool true); AErase 0] (snd p))) =
    Some (VObj false [(ka, VObj false [(kb, VNull)]); (kb, VArr [([], VBool true)])]) /\
  made (HArr (arr_of (VArr [([], VNull); ([], VBool true)]))) /\
  option_map ed_value (ed_close (HArr (arr_of (VArr [([], VNull); ([], VBool true)]))) (AtPos 1)
    (edit_obj [OSet ka VNull] (HObj (obj_new (VBool true))))) = Some (VArr [([], VNull); ([], VObj false [(ka, VNull)])]).
Proof.
  repeat split; try (vm_compute; reflexivity).
  - apply (made_obj ex_parent VUndef [] _ (obj_new VUndef)); cbn; auto. split.
    + repeat constructor.
    + intros _ k v [E|[E|[]]]; injection E as _ <-; reflexivity.
  - repeat constructor.
  - intros _ k v [E|[]]. injection E as _ <-. reflexivity.
  - apply (made_arr (CBase [([], VNull); ([], VBool true)]) []); cbn; auto.
    intros m [<-|[<-|[]]]; reflexivity.
Qed.
