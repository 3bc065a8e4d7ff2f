(** What an Object builder means: a base value and the list of changes made to
    it, the latest change of a key winning. *)
From Verif Require Import Base ModelKeyed SpecKeyed ModelValue ModelObject.

Record ospec := mkSpec { s_base : value; s_changes : list member }.

(** Members of a value seen as an object; nothing for other values. *)
Definition obj_members (v : value) : list member :=
  match v with VObj _ l => l | _ => [] end.

Definition spec_get (s : ospec) (k : bytes) : option value :=
  match last_binding k (s_changes s) with
  | Some v => Some v
  | None => binding k (obj_members (s_base s))
  end.

(** What reading a key shows. *)
Definition spec_read (s : ospec) (k : bytes) : value :=
  match spec_get s k with Some v => v | None => VUndef end.

Definition spec_add (s : ospec) (l : list member) : ospec :=
  mkSpec (s_base s) (s_changes s ++ l).

Definition spec_step (p : ospec * ospec) (op : oop) : ospec * ospec :=
  let '(x, y) := p in
  match op with
  | OSet k v => (spec_add x [(k, v)], y)
  | OUnset k => (spec_add x [(k, VUndef)], y)
  | OMerge v => (spec_add x (members_of v), y)
  | OOptimize | ORead _ | OCommit | OCommitDiff | OIterate => (x, y)
  | OClear => (mkSpec empty_object [], y)
  | ORevert => (mkSpec (s_base x) [], y)
  | OSetBase v => (mkSpec v (s_changes x), y)
  | OAssign => (y, y)
  | OMove => (y, mkSpec empty_object [])
  | OCopy => (x, x)
  | OSwap => (y, x)
  end.

Definition spec_run (p : ospec * ospec) (ops : list oop) : ospec * ospec :=
  fold_left spec_step ops p.

(** Values usable as a base: objects have increasing keys and, unless they are
    diffs, no undefined members.  Other values are allowed too. *)
Definition base_ok (v : value) : Prop :=
  match v with
  | VObj d l => keys_increasing l /\
      (d = false -> forall k v, In (k, v) l -> is_undef v = false)
  | _ => True
  end.

Definition op_ok (op : oop) : Prop :=
  match op with OSetBase v => base_ok v | _ => True end.

(** Whether a value is an object marked as a diff. *)
Definition is_diff (v : value) : bool := match v with VObj d _ => d | _ => false end.

(** [v] is what committing [s] must give: the base itself when nothing was
    changed, otherwise the object that holds exactly the readable keys of [s],
    sorted; only when the base is a diff does it keep undefined members. *)
Definition committed (s : ospec) (v : value) : Prop :=
  match s_changes s with
  | [] => v = s_base s
  | _ :: _ =>
    exists l, v = VObj (is_diff (s_base s)) l /\ keys_increasing l /\
      forall k x, In (k, x) l <->
        spec_get s k = Some x /\ (is_undef x = false \/ is_diff (s_base s) = true)
  end.

(** Which state an iteration shows: [Some s], the state at an earlier iteration,
    or [None], the current state.  Changing a member forgets the earlier state;
    clear, revert, setBaseObject and the assignments do not. *)
Definition seen_iter (s : ospec) (r : option ospec) : option ospec :=
  match r with
  | Some _ => r
  | None =>
    match s_changes s, s_base s with
    | [], VUndef => None
    | _, _ => Some s
    end
  end.

Definition seen_step (p : ospec * ospec) (r : option ospec * option ospec) (op : oop) :
    option ospec * option ospec :=
  let '(x, y) := r in
  match op with
  | OSet _ _ | OUnset _ => (None, y)
  | OMerge v => (match members_of v with [] => x | _ :: _ => None end, y)
  | OOptimize | ORead _ | OCommit | OCommitDiff => (x, y)
  | OIterate => (seen_iter (fst p) x, y)
  | OClear | ORevert | OSetBase _ => (x, y)
  | OAssign => (x, y)
  | OMove => (x, None)
  | OCopy => (x, None)
  | OSwap => (y, x)
  end.

Fixpoint seen_run (p : ospec * ospec) (r : option ospec * option ospec) (ops : list oop) :
    option ospec * option ospec :=
  match ops with
  | [] => r
  | op :: ops' => seen_run (spec_step p op) (seen_step p r op) ops'
  end.

(** Operations after which a snapshot taken before them is out of date and kept. *)
Definition keeps_snapshot (op : oop) : Prop :=
  match op with OClear | ORevert | OSetBase _ | OAssign | OMove => True | _ => False end.
