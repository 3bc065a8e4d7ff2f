(** What references and nested editors mean. *)
From Verif Require Import Base ModelKeyed SpecKeyed ModelValue ModelObject SpecObject ModelArray SpecArray ModelRef.

(** *** References *)
(** A reference names a place and remembers what it saw there last. *)
Inductive place := PKey (k : bytes) | PIndex (i : nat) | PVar.
Record sref := mkSRef { sr_place : place; sr_seen : member }.
Record sstore := mkSStore { ss_objs : ospec * ospec; ss_arr : aspec; ss_val : member; ss_refs : list sref }.

Definition place_read (s : sstore) (p : place) : member :=
  match p with
  | PKey k => (k, spec_read (fst (ss_objs s)) k)
  | PIndex i => nth i (as_cur (ss_arr s)) ([], VUndef)
  | PVar => ss_val s
  end.
(** What is written at a place: a member of an object takes the object's key. *)
Definition place_member (p : place) (m : member) : member :=
  match p with PKey k => (k, snd m) | _ => m end.
Definition place_write (s : sstore) (p : place) (m : member) : sstore :=
  match p with
  | PKey k => mkSStore (spec_add (fst (ss_objs s)) [(k, snd m)], snd (ss_objs s)) (ss_arr s) (ss_val s) (ss_refs s)
  | PIndex i => mkSStore (ss_objs s) (aspec_step (ss_arr s) (ASet i m)) (ss_val s) (ss_refs s)
  | PVar => mkSStore (ss_objs s) (ss_arr s) m (ss_refs s)
  end.
Definition place_ok (s : sstore) (p : place) : Prop :=
  match p with PIndex i => i < length (as_cur (ss_arr s)) | _ => True end.

Definition s_refs_to (s : sstore) (l : list sref) : sstore := mkSStore (ss_objs s) (ss_arr s) (ss_val s) l.
Definition s_new (s : sstore) (p : place) : sstore := s_refs_to s (ss_refs s ++ [mkSRef p (place_read s p)]).
Definition no_ref : sref := mkSRef PVar ([], VUndef).
Definition s_ref (s : sstore) (n : nat) : sref := nth n (ss_refs s) no_ref.
Definition s_see (s : sstore) (n : nat) (m : member) : sstore :=
  s_refs_to s (set_nth (ss_refs s) n (mkSRef (sr_place (s_ref s n)) m)).
Definition s_assign (s : sstore) (n : nat) (m : member) : sstore :=
  let p := sr_place (s_ref s n) in s_see (place_write s p m) n (place_member p m).

Definition rspec_step (s : sstore) (op : rop) : sstore :=
  match op with
  | RMakeObj name => s_new s (PKey name)
  | RMakeArr i => s_new s (PIndex i)
  | RMakeVal => s_new s PVar
  | RCopy n => s_refs_to s (ss_refs s ++ [s_ref s n])
  | RAssign n m => s_assign s n m
  | RAssignRef n k => s_assign s n (sr_seen (s_ref s k))
  | RSync n => s_see s n (place_read s (sr_place (s_ref s n)))
  | RObjOp op => mkSStore (spec_step (ss_objs s) op) (ss_arr s) (ss_val s) (ss_refs s)
  | RArrOp op => mkSStore (ss_objs s) (aspec_step (ss_arr s) op) (ss_val s) (ss_refs s)
  | RSetVal m => mkSStore (ss_objs s) (ss_arr s) m (ss_refs s)
  end.
Definition rspec_run (s : sstore) (ops : list rop) : sstore := fold_left rspec_step ops s.

(** References are used that exist; those to array items while the item exists.
    [OSwap] is not an operation of the library. *)
Definition ref_usable (s : sstore) (n : nat) : Prop :=
  n < length (ss_refs s) /\ place_ok s (sr_place (s_ref s n)).
Definition rop_ok (s : sstore) (op : rop) : Prop :=
  match op with
  | RMakeArr i => place_ok s (PIndex i)
  | RCopy n => n < length (ss_refs s)
  | RAssign n _ | RSync n => ref_usable s n
  | RAssignRef n k => ref_usable s n /\ k < length (ss_refs s)
  | RObjOp op => op_ok op /\ op <> OSwap
  | RArrOp op => aop_ok (ss_arr s) op
  | _ => True
  end.
Fixpoint rops_ok (s : sstore) (ops : list rop) : Prop :=
  match ops with
  | [] => True
  | op :: ops' => rop_ok s op /\ rops_ok (rspec_step s op) ops'
  end.

Definition store_new (b1 b2 : value) (c : acreate) (v : member) : rstore :=
  mkStore (obj_new b1, obj_new b2) (arr_create c) v [].
Definition sstore_new (b1 b2 : value) (c : acreate) (v : member) : sstore :=
  mkSStore (mkSpec b1 [], mkSpec b2 []) (aspec_create c) v [].

(** What a program can see: the references' copies, members, items, variable. *)
Definition shows (t : rstore) (s : sstore) : Prop :=
  map r_copy (t_refs t) = map sr_seen (ss_refs s) /\
  (forall k, exists o, obj_read (fst (t_objs t)) k = Some (o, spec_read (fst (ss_objs s)) k)) /\
  (forall i, arr_get (t_arr t) i = nth_error (as_cur (ss_arr s)) i) /\
  t_val t = ss_val s.

(** *** Nested editors *)
(** Builders that a program can have made. *)
Inductive made : holder -> Prop :=
| made_obj : forall b1 b2 ops x y, base_ok b1 -> base_ok b2 -> Forall op_ok ops ->
    obj_run (obj_new b1, obj_new b2) ops = Some (x, y) -> made (HObj x)
| made_arr : forall c ops a,
    (match c with CBase l => forall m, In m l -> is_undef (snd m) = false | _ => True end) ->
    aops_ok (aspec_create c) ops -> arr_run (arr_create c) ops = Some a -> made (HArr a).

(** What is at a slot; [None] when there is no such slot. *)
Definition slot_value (h : holder) (s : slot) : option value :=
  option_map (fun p => snd (snd p)) (hold_get h s).

(** The builder [h'] is [h] with [v] at the slot. *)
Definition replaced (h : holder) (s : slot) (v : value) (h' : holder) : Prop :=
  slot_value h' s = Some v /\ forall s', s' <> s -> slot_value h' s' = slot_value h s'.

(** Edits of an object that keep its base: everything but clear, setBaseObject
    and the assignments. *)
Definition keeps_base (op : oop) : Prop :=
  match op with OClear | OSetBase _ | OAssign | OMove | OSwap => False | _ => True end.
