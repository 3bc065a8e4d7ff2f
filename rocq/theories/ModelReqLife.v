(** How long a request of the RPC server lives: rpc.cpp 112-155, 281-286, 712-734,
    839-880 and rpc.h 258-283, 600-648.  Line numbers without a file are rpc.cpp.

    A request is a counted object ([RefCntObj]); user code has handles
    ([RpcRequest]).  The object is destroyed with its last handle, and its
    destructor sends an error if nothing was sent before - by a function of the user,
    which gets a new handle to the object being destroyed.  The object knows the
    server that executed it by a plain pointer.  Modelled: the count, the life of
    the object and of the servers, one request.  Not modelled here: contents of
    messages, notifications, exceptions (ModelRpc); threads. *)
From Coq Require Import List Bool Arith.
From Verif Require Import Base ModelRpc.
Import ListNotations.

(** What user code does.  [inner] is what the user's function does if one is called
    meanwhile.  A handle is copied; one is dropped; a server is given the request
    ([init], 732-734); [setResult] (170-176); [setError] with a code (273-279); a
    server ends. *)
Inductive qop :=
| QCopy
| QDrop (inner : list qop)
| QExec (server : nat)
| QResult (inner : list qop)
| QError (inner : list qop)
| QEnd (server : nat).

Inductive mem := Live | Dying | Freed.
(** [q_user]: handles the user has; [q_temp]: those of calls going on (rpc.h 638,
    847, 850); [q_count]: the counter of the object.  [q_id]: the request has an
    identifier (113, 132). *)
Record qstate := mkQ {
  q_kind : rkind;
  q_id : bool;
  q_user : nat;
  q_temp : nat;
  q_count : nat;
  q_mem : mem;
  q_svc : option nat;
  q_sent : bool;
  q_ended : list nat
}.
(** rpc.h 648, 876: [create] gives the first handle. *)
Definition q_new (kind : rkind) (id : bool) : qstate := mkQ kind id 1 0 1 Live None false [].

(** [UseFreed]: a handle of a destroyed request is used.  [UseServer]: the server of the
    request is asked after its end.  [UseSelf]: a request is destroyed while one of
    its functions runs, which then writes into it. Model only. *)
Inductive fault := UseFreed | UseServer | UseSelf.
Inductive qres := QOk (s : qstate) | QBad (f : fault).

(** Model only: fields replaced; [q_init] is a new request, [q_end] its end. *)
Definition set_user (s : qstate) (u c : nat) : qstate := mkQ (q_kind s) (q_id s) u (q_temp s) c (q_mem s) (q_svc s) (q_sent s) (q_ended s).
Definition set_temp (s : qstate) (t c : nat) : qstate := mkQ (q_kind s) (q_id s) (q_user s) t c (q_mem s) (q_svc s) (q_sent s) (q_ended s).
Definition set_mem (s : qstate) (c : nat) (m : mem) : qstate := mkQ (q_kind s) (q_id s) (q_user s) (q_temp s) c m (q_svc s) (q_sent s) (q_ended s).
Definition q_mark (s : qstate) : qstate := mkQ (q_kind s) (q_id s) (q_user s) (q_temp s) (q_count s) (q_mem s) (q_svc s) true (q_ended s).
Definition q_init (s : qstate) (k : nat) : qstate := mkQ (q_kind s) (q_id s) (q_user s) (q_temp s) (q_count s) (q_mem s) (Some k) (q_sent s) (q_ended s).
Definition q_end (s : qstate) (k : nat) : qstate := mkQ (q_kind s) (q_id s) (q_user s) (q_temp s) (q_count s) (q_mem s) (q_svc s) (q_sent s) (k :: q_ended s).
Definition ended (s : qstate) (k : nat) : bool := existsb (Nat.eqb k) (q_ended s).
(** There is a handle to call by: without one the code cannot be written. Model only. *)
Definition has_handle (s : qstate) : bool := negb (Nat.eqb (q_user s) 0 && Nat.eqb (q_temp s) 0).
Definition is_freed (s : qstate) : bool := match q_mem s with Freed => true | _ => false end.

Section Call.
(** What the function of the user does. *)
Variable inner : qstate -> qres.
(** The function is called with a handle made for the call. Contract of [RefCntPtr]. *)
Definition enter (s : qstate) : qres := inner (set_temp s (S (q_temp s)) (S (q_count s))).
Definition leave (s : qstate) : qstate := set_temp s (pred (q_temp s)) (pred (q_count s)).

(** 112-130, 152-155 with rpc.h 637-639: the handle is gone before
    [postSendResponse] writes.  846-848: it is gone after that. *)
Definition q_result (s : qstate) : qres :=
  match q_kind s with
  | ByFunction =>
    if q_id s && negb (q_sent s) then
      match enter s with
      | QOk s1 => let s2 := leave s1 in if Nat.eqb (q_count s2) 0 then QBad UseSelf else QOk (q_mark s2)
      | b => b
      end
    else QOk s
  | ByCallbacks =>
    match enter s with
    | QOk s1 => let s2 := leave (q_mark s1) in QOk (if Nat.eqb (q_count s2) 0 then set_mem s2 0 Freed else s2)
    | b => b
    end
  end.
(** 131-151, 849-851: [sendError] is marked first. *)
Definition q_send_error (s : qstate) : qres :=
  match q_kind s with
  | ByFunction =>
    if q_id s && negb (q_sent s) then
      match enter (q_mark s) with
      | QOk s1 => let s2 := leave s1 in if Nat.eqb (q_count s2) 0 then QBad UseSelf else QOk (q_mark s2)
      | b => b
      end
    else QOk s
  | ByCallbacks =>
    match enter s with
    | QOk s1 => let s2 := leave (q_mark s1) in QOk (if Nat.eqb (q_count s2) 0 then set_mem s2 0 Freed else s2)
    | b => b
    end
  end.
(** 273-279: the server formats the error. *)
Definition q_error (s : qstate) : qres :=
  match q_svc s with
  | Some k => if ended s k then QBad UseServer else q_send_error s
  | None => q_send_error s
  end.
(** The last handle is dropped: rpc.h 640-644, 864-869; 712-726 takes a reference to
    the object for the time of the error and gives it back; the memory is freed then. *)
Definition q_destroy (s : qstate) : qres :=
  let s := set_mem s 0 Dying in
  if q_sent s then QOk (set_mem s 0 Freed)
  else
    match q_svc s with
    | None => QOk (set_mem s 0 Freed)
    | Some k =>
      if ended s k then QBad UseServer
      else
        match q_send_error (set_mem s 1 Dying) with
        | QOk s1 => QOk (set_mem s1 (pred (q_count s1)) Freed)
        | b => b
        end
    end.
Definition q_drop (s : qstate) : qres :=
  let s1 := set_user s (pred (q_user s)) (pred (q_count s)) in
  if Nat.eqb (q_count s1) 0 then q_destroy s1 else QOk s1.
End Call.

(** One operation.  A destroyed request is used if the user still has handles.
    Dispatch to the functions above. *)
Fixpoint qstep (o : qop) (s : qstate) : qres :=
  let run := fix run (l : list qop) (s : qstate) : qres :=
    match l with
    | [] => QOk s
    | o :: l' => match qstep o s with QOk s1 => run l' s1 | b => b end
    end in
  match o with
  | QEnd k => QOk (q_end s k)
  | QCopy => if has_handle s then if is_freed s then QBad UseFreed else QOk (set_user s (S (q_user s)) (S (q_count s))) else QOk s
  | QExec k =>
    if has_handle s && negb (ended s k) then if is_freed s then QBad UseFreed else QOk (q_init s k) else QOk s
  | QResult inner => if has_handle s then if is_freed s then QBad UseFreed else q_result (run inner) s else QOk s
  | QError inner => if has_handle s then if is_freed s then QBad UseFreed else q_error (run inner) s else QOk s
  | QDrop inner => if Nat.eqb (q_user s) 0 then QOk s else if is_freed s then QBad UseFreed else q_drop (run inner) s
  end.
Fixpoint qrun (l : list qop) (s : qstate) : qres :=
  match l with
  | [] => QOk s
  | o :: l' => match qstep o s with QOk s1 => qrun l' s1 | b => b end
  end.
