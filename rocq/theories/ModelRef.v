(** References into builders and nested editors: /repo/src/imtjson/valueref.cpp,
    valueref.h and edit.h. *)
From Verif Require Import Base ModelKeyed ModelValue ModelObject ModelArray.

(** *** References *)
(** valueref.h 97-113: [typeOrIndex]; an object reference remembers its key only
    as the key of its own copy.  Indices are below the two reserved numbers. *)
Inductive rkind := KObj | KArr (i : nat) | KVal.
Record vref := mkRef { r_copy : member; r_kind : rkind }.

(** What the references of a program may point to: an Object (with another one
    to assign from), an Array and a variable. *)
Record rstore := mkStore { t_objs : obj * obj; t_arr : arr; t_val : member; t_refs : list vref }.

(** Model only: fields replaced. *)
Definition with_obj (t : rstore) (o : obj) : rstore := mkStore (o, snd (t_objs t)) (t_arr t) (t_val t) (t_refs t).
Definition with_refs (t : rstore) (l : list vref) : rstore := mkStore (t_objs t) (t_arr t) (t_val t) l.

(** valueref.cpp 15-19, [getValueOrName]; object.cpp 27-35, [bindKeyToPValue]:
    whatever was found, the result carries the key [name]. *)
Definition get_value_or_name (t : rstore) (name : bytes) : option (rstore * member) :=
  match obj_read (fst (t_objs t)) name with
  | Some (o, v) => Some (with_obj t o, (name, v))
  | None => None
  end.

(** valueref.cpp 21-35: the constructors.  [None] is the exception of
    [vector::at] for an array. *)
Definition ref_of_object (t : rstore) (name : bytes) : option (rstore * vref) :=
  match get_value_or_name t name with
  | Some (t', m) => Some (t', mkRef m KObj)
  | None => None
  end.
Definition ref_of_array (t : rstore) (i : nat) : option (rstore * vref) :=
  match arr_get (t_arr t) i with Some m => Some (t, mkRef m (KArr i)) | None => None end.
Definition ref_of_value (t : rstore) : option (rstore * vref) := Some (t, mkRef (t_val t) KVal).

(** valueref.cpp 37-53, [operator=(const Value &)]. *)
Definition ref_assign (t : rstore) (r : vref) (m : member) : option (rstore * vref) :=
  match r_kind r with
  | KObj =>
    let m' := (fst (r_copy r), snd m) in
    Some (with_obj t (obj_set (fst (t_objs t)) m'), mkRef m' KObj)
  | KVal => Some (mkStore (t_objs t) (t_arr t) m (t_refs t), mkRef m KVal)
  | KArr i =>
    match arr_set (t_arr t) i m with
    | Some a => Some (mkStore (t_objs t) a (t_val t) (t_refs t), mkRef m (KArr i))
    | None => None
    end
  end.

(** valueref.cpp 67-81, [sync]. *)
Definition ref_sync (t : rstore) (r : vref) : option (rstore * vref) :=
  match r_kind r with
  | KObj => ref_of_object t (fst (r_copy r))
  | KVal => ref_of_value t
  | KArr i => ref_of_array t i
  end.

(** Programs: references are numbered in the order they were made.  55-65: the
    copy constructor and the assignment of one reference to another. *)
Inductive rop :=
| RMakeObj (name : bytes) | RMakeArr (i : nat) | RMakeVal | RCopy (n : nat)
| RAssign (n : nat) (m : member) | RAssignRef (n k : nat) | RSync (n : nat)
| RObjOp (op : oop) | RArrOp (op : aop) | RSetVal (m : member).

(** Model only: an item replaced, an item added. *)
Definition set_nth {A} (l : list A) (n : nat) (x : A) : list A := firstn n l ++ x :: skipn (S n) l.
Definition add_ref (p : option (rstore * vref)) : option rstore :=
  match p with Some (t, r) => Some (with_refs t (t_refs t ++ [r])) | None => None end.
Definition put_ref (n : nat) (p : option (rstore * vref)) : option rstore :=
  match p with Some (t, r) => Some (with_refs t (set_nth (t_refs t) n r)) | None => None end.

(** Dispatch to the functions above. *)
Definition ref_step (t : rstore) (op : rop) : option rstore :=
  match op with
  | RMakeObj name => add_ref (ref_of_object t name)
  | RMakeArr i => add_ref (ref_of_array t i)
  | RMakeVal => add_ref (ref_of_value t)
  | RCopy n => match nth_error (t_refs t) n with Some r => add_ref (Some (t, r)) | None => None end
  | RAssign n m => match nth_error (t_refs t) n with Some r => put_ref n (ref_assign t r m) | None => None end
  | RAssignRef n k =>
    match nth_error (t_refs t) n, nth_error (t_refs t) k with
    | Some r, Some q => put_ref n (ref_assign t r (r_copy q))
    | _, _ => None
    end
  | RSync n => match nth_error (t_refs t) n with Some r => put_ref n (ref_sync t r) | None => None end
  | RObjOp op => match obj_step (t_objs t) op with
                 | Some p => Some (mkStore p (t_arr t) (t_val t) (t_refs t)) | None => None end
  | RArrOp op => match arr_step (t_arr t) op with
                 | Some a => Some (mkStore (t_objs t) a (t_val t) (t_refs t)) | None => None end
  | RSetVal m => Some (mkStore (t_objs t) (t_arr t) m (t_refs t))
  end.
(** Model only: operations one after another. *)
Fixpoint ref_run (t : rstore) (ops : list rop) : option rstore :=
  match ops with
  | [] => Some t
  | op :: ops' => match ref_step t op with Some t' => ref_run t' ops' | None => None end
  end.

(** *** Nested editors *)
(** edit.h 9-34, [AutoCommitT]: the parent and the editor are builders.  A slot
    of the wrong kind does not compile; it is [None] here. *)
Inductive holder := HObj (o : obj) | HArr (a : arr).
Inductive slot := AtKey (k : bytes) | AtPos (i : nat).
Inductive ekind := EObject | EArray.

Definition hold_get (h : holder) (s : slot) : option (holder * member) :=
  match h, s with
  | HObj o, AtKey k => match obj_read o k with Some (o', v) => Some (HObj o', (k, v)) | None => None end
  | HArr a, AtPos i => match arr_get a i with Some m => Some (h, m) | None => None end
  | _, _ => None
  end.
(** object.cpp 111-127 and array.cpp 114-119. *)
Definition hold_set (h : holder) (s : slot) (v : value) : option holder :=
  match h, s with
  | HObj o, AtKey k => Some (HObj (obj_set o (k, v)))
  | HArr a, AtPos i => match arr_set a i ([], v) with Some a' => Some (HArr a') | None => None end
  | _, _ => None
  end.

(** array.cpp 164-171 and object.cpp 208-215, [object] and [array] of a builder:
    (parent, editor). *)
Definition ed_open (h : holder) (s : slot) (k : ekind) : option (holder * holder) :=
  match hold_get h s with
  | Some (h', m) => Some (h', match k with EObject => HObj (obj_new (snd m)) | EArray => HArr (arr_of (snd m)) end)
  | None => None
  end.
Definition ed_dirty (e : holder) : bool := match e with HObj o => obj_dirty o | HArr a => arr_dirty a end.
Definition ed_value (e : holder) : value := match e with HObj o => snd (obj_commit o) | HArr a => arr_commit a end.
(** edit.h 14-18, the destructor: the parent afterwards. *)
Definition ed_close (h : holder) (s : slot) (e : holder) : option holder :=
  if ed_dirty e then hold_set h s (ed_value e) else Some h.
(** edit.h 19-24, [commit]: (parent, editor). *)
Definition ed_commit (h : holder) (s : slot) (e : holder) : option (holder * holder) :=
  if ed_dirty e then
    match hold_set h s (ed_value e) with
    | Some h' => Some (h', match e with HObj o => HObj (obj_revert (fst (obj_commit o))) | HArr a => HArr (arr_revert a) end)
    | None => None
    end
  else Some (h, e).
