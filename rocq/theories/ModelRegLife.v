(** Methods of an RPC server which change the server while they run: rpc.cpp
    281-333 (line numbers without a file are rpc.cpp) and rpc.h 663-672, 825-855.

    The server keeps a counted pointer to each registered method in a hash map; a
    call works with a plain pointer taken out of the map (289, 295), so a method
    removed while it runs is destroyed under its own feet.  That is harmless unless
    its code touches what it holds - the captures of a lambda - afterwards.
    Modelled: which object a name stands for, and when the objects die.  Not
    modelled: requests and answers (ModelRpc), the proxy, exceptions, other
    holders of a method (there are none: the class is private), several threads
    (rpc.h 661 asks for a lock), code run by the destructors of captures. *)
From Coq Require Import List ZArith Bool.
From Verif Require Import Base.
Import ListNotations.

(** What code given to the server does with it: touch its captures, register a
    method, remove one, remove all, ask for the execution of a request with the
    name of a method. *)
Inductive mop :=
| MUse
| MAdd (name : bytes) (body : list mop)
| MRemove (name : bytes)
| MClear
| MCall (name : bytes).

(** What happened, in order.  Objects are numbered as they are registered. Model only. *)
Inductive mev :=
| XAdd (name : bytes) (id : nat)
| XRefuse (name : bytes)
| XRemove (name : bytes)
| XClear
| XEnter (name : bytes) (id : nat)
| XMiss (name : bytes)
| XLeave (id : nat)
| XUse (id : nat).

(** [mapReg] (rpc.h 817) and the objects: the code, and whether the object is
    alive. *)
Record mstate := mkMS { ms_reg : list (bytes * nat); ms_tab : list (list mop * bool); ms_log : list mev }.
Definition ms_new : mstate := mkMS [] [] [].
Definition note (s : mstate) (e : mev) : mstate := mkMS (ms_reg s) (ms_tab s) (ms_log s ++ [e]).

(** 328-333 *)
Definition m_find (s : mstate) (name : bytes) : option nat :=
  match find (fun m => beqb (fst m) name) (ms_reg s) with Some m => Some (snd m) | None => None end.
(** rpc.h 836-837: [insert] keeps a method of the same name, the new object dies. *)
Definition m_add (s : mstate) (name : bytes) (body : list mop) : mstate :=
  match m_find s name with
  | Some _ => note s (XRefuse name)
  | None => mkMS ((name, length (ms_tab s)) :: ms_reg s) (ms_tab s ++ [(body, true)]) (ms_log s ++ [XAdd name (length (ms_tab s))])
  end.
(** The last reference to an object goes away. Contract of [RefCntPtr] (shared/refcnt.h, absent). *)
Definition kill (tab : list (list mop * bool)) (id : nat) : list (list mop * bool) :=
  firstn id tab ++ match skipn id tab with [] => [] | (b, _) :: r => (b, false) :: r end.
(** 320-322 *)
Definition m_remove (s : mstate) (name : bytes) : mstate :=
  match m_find s name with
  | Some id => mkMS (filter (fun m => negb (beqb (fst m) name)) (ms_reg s)) (kill (ms_tab s) id) (ms_log s ++ [XRemove name])
  | None => note s (XRemove name)
  end.
(** 324-326 *)
Definition m_clear (s : mstate) : mstate :=
  mkMS [] (fold_left (fun t m => kill t (snd m)) (ms_reg s) (ms_tab s)) (ms_log s ++ [XClear]).

(** [LBad]: a destroyed object is used.  [LMore]: still running. Model only. *)
Inductive lres := LDone (s : mstate) | LBad (s : mstate) | LMore (s : mstate).
Definition is_alive (s : mstate) (id : nat) : bool := match nth_error (ms_tab s) id with Some (_, a) => a | None => false end.
Definition body_of (s : mstate) (id : nat) : list mop := match nth_error (ms_tab s) id with Some (b, _) => b | None => [] end.

(** Code of the object [self] - [None]: code outside of the server, its data are
    its own - running for [fuel] operations, calls included. *)
Fixpoint mrun (fuel : nat) (self : option nat) (l : list mop) (s : mstate) : lres :=
  match fuel with
  | O => LMore s
  | S f =>
    match l with
    | [] => LDone s
    | MUse :: l' =>
      match self with
      | None => mrun f self l' s
      | Some id => if is_alive s id then mrun f self l' (note s (XUse id)) else LBad (note s (XUse id))
      end
    | MAdd name body :: l' => mrun f self l' (m_add s name body)
    | MRemove name :: l' => mrun f self l' (m_remove s name)
    | MClear :: l' => mrun f self l' (m_clear s)
    | MCall name :: l' =>
      match m_find s name with
      | None => mrun f self l' (note s (XMiss name))
      | Some id =>
        match mrun f (Some id) (body_of s id) (note s (XEnter name id)) with
        | LDone s1 => mrun f self l' (note s1 (XLeave id))
        | r => r
        end
      end
    end
  end.
Definition mstart (fuel : nat) (l : list mop) : lres := mrun fuel None l ms_new.
