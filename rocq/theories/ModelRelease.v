(** Release of containers.  /repo/src/imtjson/object.cpp, objectValue.cpp,
    arrayValue.cpp, container.h, value.h.
    Every pointer to a container is a [RefCntPtr] ([PValue], value.h; the layers
    of a builder, object.h 322-335), which is in the submodule shared/refcnt.h, absent
    from /repo.  Its contract is assumed: a container is released when the last
    pointer to it is gone.  A released container destroys the pointers it
    holds (container.h 89-92, 151-156).
    Simplifications: an operation runs to its end before anything is
    released (in the code the counts go up and down in between; the pointers
    it works with keep alive what it uses); addresses are not used again, instead a
    released container may hold anything at all afterwards ([junk]); only the
    containers of ModelHeap are followed, not the blocks of strings and keys. *)
From Verif Require Import Base ModelKeyed ModelValue ModelObject ModelHeap.

(** The pointers in a handle, in a builder (object.h 322-335), in a container
    (container.h 72-75) and in the variables and builders of a program. *)
Definition hv_ptrs (x : hval) : list nat := match x with HV _ => [] | HR a => [a] end.
Definition opt_ptrs (x : option nat) : list nat := match x with Some a => [a] | None => [] end.
Definition obj_ptrs (o : hobj) : list nat :=
  match h_base o with Some b => hv_ptrs b | None => [] end ++
  hv_ptrs (h_snap o) ++ opt_ptrs (h_ord o) ++ opt_ptrs (h_unord o).
Definition cell_ptrs (c : cell) : list nat := flat_map (fun m => hv_ptrs (snd m)) (c_items c).
Definition root_ptrs (s : hstate) : list nat :=
  flat_map obj_ptrs (hs_objs s) ++ flat_map hv_ptrs (hs_vals s).

(** The pointers in containers that are not released yet; the first of [h]
    has the address [i]. Model only. *)
Fixpoint held_ptrs (gone : nat -> bool) (i : nat) (h : heap) : list nat :=
  match h with
  | [] => []
  | c :: h' => (if gone i then [] else cell_ptrs c) ++ held_ptrs gone (S i) h'
  end.

(** Containers without a pointer to them are released ([RefCntObj::release],
    shared/refcnt.h, by its contract) (Contract in DESIGN.md). *)
Definition release_once (s : hstate) (gone : nat -> bool) : nat -> bool :=
  let ps := root_ptrs s ++ held_ptrs gone 0 (hs_heap s) in
  let n := length (hs_heap s) in
  fun a => gone a || ((a <? n) && negb (existsb (Nat.eqb a) ps)).

(** container.h 89-92 and 151-156: the destructor of a container drops the
    pointers it held, so that other containers follow. *)
Fixpoint release_all (n : nat) (s : hstate) (gone : nat -> bool) : nat -> bool :=
  match n with
  | O => gone
  | S n' => release_all n' s (release_once s gone)
  end.

(** What released memory holds afterwards is not determined: any [junk]
    (allocator.h: [dealloc]) (allocator.h 22). *)
Fixpoint scribble (junk : nat -> cell) (gone : nat -> bool) (i : nat) (h : heap) : heap :=
  match h with
  | [] => []
  | c :: h' => (if gone i then junk i else c) :: scribble junk gone (S i) h'
  end.

(** The operations of ModelHeap and the end of variables and builders. *)
Inductive rop :=
| ROp (op : hop)
| RDropVal (i : nat)     (* ~Value, or an undefined value assigned *)
| RDropObj (b : nat).    (* object.cpp 62-67, ~Object *)

(** The operation itself, nothing released. Dispatch to ModelHeap. *)
Definition d_step (s : hstate) (op : rop) : option hstate :=
  match op with
  | ROp op => h_step s op
  | RDropVal i => on_val s i (fun _ => Some (mkHState (hs_heap s) (hs_objs s) (h_put (hs_vals s) i (HV VUndef))))
  | RDropObj b =>
    on_obj s b (fun _ => Some (mkHState (hs_heap s)
      (h_put (hs_objs s) b (mkHObj None (HV VUndef) None None)) (hs_vals s)))
  end.
Fixpoint d_run (s : hstate) (ops : list rop) : option hstate :=
  match ops with
  | [] => Some s
  | op :: ops' => match d_step s op with Some s' => d_run s' ops' | None => None end
  end.

(** A program with its released containers. Model only. *)
Record rstate := mkR { r_st : hstate; r_gone : nat -> bool }.
Definition r_init : rstate := mkR hs_init (fun _ => false).

(** One operation, then everything without a pointer is released. *)
Definition r_step (junk : nat -> cell) (r : rstate) (op : rop) : option rstate :=
  match d_step (r_st r) op with
  | None => None
  | Some s =>
    let g := release_all (length (hs_heap s)) s (r_gone r) in
    Some (mkR (mkHState (scribble junk g 0 (hs_heap s)) (hs_objs s) (hs_vals s)) g)
  end.

(** [junk] may differ at every step. Model only. *)
Fixpoint r_run (junk : nat -> nat -> cell) (r : rstate) (ops : list rop) : option rstate :=
  match ops with
  | [] => Some r
  | op :: ops' =>
    match r_step (junk (length ops)) r op with Some r' => r_run junk r' ops' | None => None end
  end.
