(** The Object builder: /repo/src/imtjson/object.cpp, object.h. *)
From Verif Require Import Base ModelKeyed ModelValue.

(** Model only: a key and a value. *)
Notation member := (bytes * value)%type.

(** container.h 164-184, [Container::push_back]: refuses when full. *)
Definition cpush {A} (cap : nat) (l : list A) (x : A) : bool * list A :=
  if length l <? cap then (true, l ++ [x]) else (false, l).

(** The items of a container or object (value.h 466, [forEach]; iteration). *)
Definition members_of (v : value) : list member :=
  match v with VArr l => l | VObj _ l => l | _ => [] end.

(** value.h, [Value::operator[](StrViewA)]: objectValue.cpp 27-31 for objects,
    undefined for everything else (abstractValue.h 23). *)
Definition value_member (v : value) (name : bytes) : value :=
  match v with
  | VObj _ l => match find_member l name with Some m => snd m | None => VUndef end
  | _ => VUndef
  end.

(** object.cpp 323-383, [applyDiffImpl].  [cd] is [createDiff]; results of
    [push_back] are ignored as in the code.  The tests [nw.type() & valueDiff]
    (336, 341) are always false: types are 0..6 and valueDiff is 16. *)
Section Apply.
Variables (mf : value -> value -> value) (cd : bool) (cap : nat).
Definition apush (acc : list member) (x : member) : list member := snd (cpush cap acc x).
Definition apush_new (acc : list member) (y : member) : list member :=
  if negb (is_undef (snd y)) then apush acc y else if cd then apush acc y else acc.
Fixpoint apply_loop (b : list member) : list member -> list member -> list member :=
  fix inner (acc d : list member) {struct d} : list member :=
    match b, d with
    | [], _ => fold_left apush_new d acc
    | _, [] => fold_left apush b acc
    | x :: b', y :: d' =>
      match kcmp (fst x) (fst y) with
      | Lt => apply_loop b' (apush acc x) d
      | Gt => inner (apush_new acc y) d'
      | Eq =>
        let acc' := if negb (is_undef (snd y)) then apush acc (fst x, mf (snd x) (snd y))
                    else if cd then apush acc y else acc in
        apply_loop b' acc' d'
      end
    end.
End Apply.

(** The whole of it: the loop from the beginning. *)
Definition apply_impl (mf : value -> value -> value) (cd : bool) (b d : list member) : list member :=
  apply_loop mf cd (length b + length d) b [] d.

(** object.cpp 16-18 *)
Definition default_merge (b d : value) : value := d.

(** object.cpp 306-311, [Object::applyDiff]. *)
Definition apply_diff_with (mf : value -> value -> value) (base diff : value) : value :=
  match diff with
  | VObj _ dl =>
    match base with
    | VObj bd bl => VObj bd (apply_impl mf bd bl dl)
    | _ => VObj false (apply_impl default_merge false [] dl)
    end
  | _ => base
  end.
Definition apply_diff (base diff : value) : value := apply_diff_with default_merge base diff.

(** object.h 322-335: the builder's state.  Containers are values here: sharing
    of [ordered] between copies is not visible because it is never changed in
    place.  A layer is [None] when its pointer is null; [ordered] carries its
    [isDiff] flag, [unordered] its capacity; [snap] is [lastIterSnapshot]. *)
Record obj := mkObj {
  o_base : value;
  o_snap : value;
  o_ordered : option (bool * list member);
  o_unordered : option (nat * list member)
}.

(** object.cpp 50-56 *)
Definition obj_new (v : value) : obj := mkObj v VUndef None None.
Definition empty_object : value := VObj false [].

(** container.h 137-142, [Container::operator=] into a container of capacity
    [cap]. *)
Definition cassign (cap : nat) (l : list member) : list member :=
  fold_left (fun acc x => snd (cpush cap acc x)) l [].

(** object.cpp 177-195, [optimize]. *)
Definition obj_optimize (o : obj) : obj :=
  match o_unordered o with
  | None => o
  | Some (cap, u) =>
    if Nat.eqb (length u) 0 then o
    else
      let u' := obj_sort u in
      let ord' :=
        match o_ordered o with
        | None => (true, cassign (length u') u')
        | Some (d, l) => (d, apply_impl default_merge d l u')
        end in
      mkObj (o_base o) (o_snap o) (Some ord') (Some (cap, []))
  end.

(** object.cpp 94-109, [set_internal].  The second component is what the last
    [push_back] returned (ignored by the code). *)
Definition obj_set_internal (o : obj) (m : member) : obj * bool :=
  let '(cap, u) := match o_unordered o with None => (8, []) | Some cu => cu end in
  let '(ok, u1) := cpush cap u m in
  if ok then (mkObj (o_base o) VUndef (o_ordered o) (Some (cap, u1)), true)
  else
    let cap2 := length u * 2 in
    let o2 := obj_optimize (mkObj (o_base o) VUndef (o_ordered o) (Some (cap, u))) in
    let '(ok2, u2) := cpush cap2 [] m in
    (mkObj (o_base o2) VUndef (o_ordered o2) (Some (cap2, u2)), ok2).

(** object.cpp 111-127, [set(name, value)]: whatever key the value carried, it
    is stored under [name].  129-133 is [set(value)] with the value's own key. *)
Definition obj_set (o : obj) (m : member) : obj := fst (obj_set_internal o m).

(** object.cpp 135-138 *)
Definition obj_unset (o : obj) (name : bytes) : obj := obj_set o (name, VUndef).

(** object.cpp 225-231 *)
Definition obj_merge (o : obj) (v : value) : obj := fold_left obj_set (members_of v) o.

(** object.cpp 148-151: the scan of the unordered layer, latest first. *)
Fixpoint scan_back (rev_items : list member) (name : bytes) : option member :=
  match rev_items with
  | [] => None
  | m :: l => if beqb (fst m) name then Some m else scan_back l name
  end.

(** object.cpp 140-160, [operator[]].  [None] is a null dereference (144). *)
Definition obj_read (o : obj) (name : bytes) : option (obj * value) :=
  match o_unordered o with
  | None => Some (o, value_member (o_base o) name)
  | Some (cap, u) =>
    let usz := length u in
    let test :=
      if 16 <? usz then
        match o_ordered o with
        | None => None
        | Some (_, l) => Some (Nat.div (length l) 2 <? usz)
        end
      else Some false in
    match test with
    | None => None
    | Some opt =>
      let o1 := if opt then obj_optimize o else o in
      let scanned :=
        if opt then None
        else scan_back (rev u) name in
      match scanned with
      | Some m => Some (o1, snd m)
      | None =>
        match o_ordered o1 with
        | Some (_, l) =>
          match find_member l name with
          | Some m => Some (o1, snd m)
          | None => Some (o1, value_member (o_base o1) name)
          end
        | None => Some (o1, value_member (o_base o1) name)
        end
      end
    end
  end.

(** object.cpp 300-304 and 395-398, [commitAsDiff]. *)
Definition obj_commit_diff (o : obj) : obj * value :=
  let o1 := obj_optimize o in
  (o1, match o_ordered o1 with Some (d, l) => VObj d l | None => empty_object end).

(** object.cpp 198-205, [commit]. *)
Definition obj_commit (o : obj) : obj * value :=
  let o1 := obj_optimize o in
  match o_ordered o1 with
  | None => (o1, o_base o1)
  | Some _ =>
    let '(o2, d) := obj_commit_diff o1 in
    (o2, apply_diff (o_base o2) d)
  end.

(** object.cpp 234-237 and 216-220 *)
Definition obj_revert (o : obj) : obj := mkObj (o_base o) (o_snap o) None None.
Definition obj_clear (o : obj) : obj := obj_revert (mkObj empty_object (o_snap o) (o_ordered o) (o_unordered o)).

(** object.h 206 *)
Definition obj_set_base (o : obj) (v : value) : obj :=
  mkObj v (o_snap o) (o_ordered o) (o_unordered o).

(** object.cpp 221-224 *)
Definition obj_dirty (o : obj) : bool :=
  (match o_ordered o with Some (_, l) => negb (Nat.eqb (length l) 0) | None => false end) ||
  (match o_unordered o with Some (_, l) => negb (Nat.eqb (length l) 0) | None => false end).

(** object.cpp 239-246: iteration from [begin] to [end] takes its items from
    the snapshot. *)
Definition obj_iterate (o : obj) : obj * list member :=
  let o1 :=
    if is_undef (o_snap o) then
      let '(o', v) := obj_commit o in
      mkObj (o_base o') v (o_ordered o') (o_unordered o')
    else o in
  (o1, members_of (o_snap o1)).

(** object.cpp 70-73, copy constructor: (source afterwards, copy). *)
Definition obj_copy (o : obj) : obj * obj :=
  let o1 := obj_optimize o in
  (o1, mkObj (o_base o) VUndef (o_ordered o1)
       (match o_ordered o1 with Some (_, l) => Some (length l, []) | None => None end)).

(** object.cpp 75-82, copy assignment [x = other], [x] and [other] distinct:
    (x afterwards, other afterwards). *)
Definition obj_assign (x other : obj) : obj * obj :=
  let x1 := obj_clear x in
  let o1 := obj_optimize other in
  (mkObj (o_base other) (o_snap x1) (o_ordered o1)
     (match o_ordered o1 with Some (_, l) => Some (length l, []) | None => None end), o1).

(** object.cpp 84-91, move assignment; the source is then replaced by a new
    empty builder (using a moved-from builder is not modelled). *)
Definition obj_move (x other : obj) : obj * obj :=
  let x1 := obj_clear x in
  (mkObj (o_base other) (o_snap x1) (o_ordered other) (o_unordered other), obj_new empty_object).

(** object.cpp 411-421, the initializer-list constructor. *)
Definition obj_of_list (l : list member) : obj :=
  obj_new (VObj false (obj_sort (filter (fun m => negb (is_undef (snd m))) l))).

(** Operation histories over two builders; operations act on the first one.
    [OSwap] only chooses which one that is. Functions above, lines beside each definition. *)
Inductive oop :=
| OSet (k : bytes) (v : value)
| OUnset (k : bytes)
| OMerge (v : value)
| OOptimize
| ORead (k : bytes)
| OCommit
| OCommitDiff
| OIterate
| OClear
| ORevert
| OSetBase (v : value)
| OAssign
| OMove
| OCopy
| OSwap.

(** One operation; [None] is undefined behaviour.  [OCopy] makes the second
    builder a copy-constructed one. Dispatch to the functions above. *)
Definition obj_step (p : obj * obj) (op : oop) : option (obj * obj) :=
  let '(x, y) := p in
  match op with
  | OSet k v => Some (obj_set x (k, v), y)
  | OUnset k => Some (obj_unset x k, y)
  | OMerge v => Some (obj_merge x v, y)
  | OOptimize => Some (obj_optimize x, y)
  | ORead k => match obj_read x k with Some (x', _) => Some (x', y) | None => None end
  | OCommit => Some (fst (obj_commit x), y)
  | OCommitDiff => Some (fst (obj_commit_diff x), y)
  | OIterate => Some (fst (obj_iterate x), y)
  | OClear => Some (obj_clear x, y)
  | ORevert => Some (obj_revert x, y)
  | OSetBase v => Some (obj_set_base x v, y)
  | OAssign => Some (obj_assign x y)
  | OMove => Some (obj_move x y)
  | OCopy => Some (obj_copy x)
  | OSwap => Some (y, x)
  end.

(** Model only: operations one after another. *)
Fixpoint obj_run (p : obj * obj) (ops : list oop) : option (obj * obj) :=
  match ops with
  | [] => Some p
  | op :: ops' => match obj_step p op with Some p' => obj_run p' ops' | None => None end
  end.
