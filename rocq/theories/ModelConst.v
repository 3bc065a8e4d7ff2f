(** The functions of Object declared const: /repo/src/imtjson/object.cpp, object.h 322-335 (the
    layers and the snapshot are mutable). *)
From Verif Require Import Base ModelKeyed ModelValue ModelObject.

(** [operator[]] (140-160), [commit] (198-205), [commitAsDiff] (300-304), iteration (239-246),
    [dirty] (221-224), being copied (70-73). *)
Inductive cfun := KRead (k : bytes) | KCommit | KCommitDiff | KIterate | KDirty | KCopy.
Inductive canswer := AnsValue (v : value) | AnsItems (l : list member) | AnsFlag (b : bool) | AnsCopy (o : obj).

(** [None] is undefined behaviour. Dispatch to the functions of ModelObject, lines as above. *)
Definition const_call (o : obj) (c : cfun) : option (obj * canswer) :=
  match c with
  | KRead k => option_map (fun r => (fst r, AnsValue (snd r))) (obj_read o k)
  | KCommit => let '(o1, v) := obj_commit o in Some (o1, AnsValue v)
  | KCommitDiff => let '(o1, v) := obj_commit_diff o in Some (o1, AnsValue v)
  | KIterate => let '(o1, l) := obj_iterate o in Some (o1, AnsItems l)
  | KDirty => Some (o, AnsFlag (obj_dirty o))
  | KCopy => let '(o1, o2) := obj_copy o in Some (o1, AnsCopy o2)
  end.

(** What is shared: the pointer [ordered] with its container, [unordered] with its container,
    [lastIterSnapshot].  [base] is only read. object.h 322-335. *)
Inductive field := FOrdered | FUnordered | FSnap.

(** [optimize] (177-195) looks at [unordered]; unless that is empty it sorts and empties it
    (181, 194) and replaces [ordered] (183-191). *)
Definition optimize_writes (o : obj) : list field :=
  match o_unordered o with
  | Some (_, u) => if Nat.eqb (length u) 0 then [] else [FUnordered; FOrdered]
  | None => []
  end.
Definition writes (o : obj) (c : cfun) : list field :=
  match c with
  | KRead _ =>
    match o_unordered o, o_ordered o with
    | Some (_, u), Some (_, l) => if (16 <? length u) && (Nat.div (length l) 2 <? length u) then optimize_writes o else []
    | _, _ => []
    end
  | KCommit | KCommitDiff | KCopy => optimize_writes o
  | KIterate => if is_undef (o_snap o) then FSnap :: optimize_writes o else []
  | KDirty => []
  end.
Definition reads (o : obj) (c : cfun) : list field :=
  match c with
  | KRead _ | KCommit | KCommitDiff | KDirty | KCopy => [FOrdered; FUnordered]
  | KIterate => FSnap :: if is_undef (o_snap o) then [FOrdered; FUnordered] else []
  end.

(** Calls made one after the other. Model only. *)
Fixpoint const_calls (o : obj) (l : list cfun) : option (obj * list canswer) :=
  match l with
  | [] => Some (o, [])
  | c :: l' =>
    match const_call o c with
    | None => None
    | Some (o1, a) => match const_calls o1 l' with None => None | Some (o2, r) => Some (o2, a :: r) end
    end
  end.
