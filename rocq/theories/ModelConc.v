(** The RPC client used by several threads: rpc.cpp 503-601, 703-705 and rpc.h 1088-1117,
    with its lock (rpc.h 1035) and the condition variable of a waiting call.
    Line numbers without a file are rpc.cpp.

    Steps of the threads interleave in any order; one step makes at most one access
    to shared memory (the map of calls, a field of a pending call, the mutex), so
    every interleaving of the accesses is an interleaving of the steps.  Not
    modelled: reorderings by the hardware, the contents of messages, the context of
    the client, the flag [executed] (a prepared call is executed once), identifiers
    other than integers, the end of the client itself.  A call is a number, given
    when the call is made. *)
From Coq Require Import List ZArith Bool.
From Verif Require Import Base ModelRpc.
Import ListNotations.

(** What a thread does with the client.  [send] is what the virtual [sendRequest]
    does with the client before it ends, [throws] tells it ends by an exception (the
    exception is caught by the code which made the call), [fn] is what the function
    given to [>>] does with the client.  An exception of [sendRequest] leaves an
    asynchronous call as a return does (rpc.h 1112-1113). *)
Inductive op :=
| OpSync (id : Z) (send : list op) (throws : bool)
| OpAsync (id : Z) (send fn : list op)
| OpCancel (id : Z) (r : rpc_result)
| OpCancelAll (r : rpc_result).

(** A pending call.  [pc_sync]: 503-523, otherwise rpc.h 1092-1108.  [pc_recv] is
    [received] (521); for an asynchronous call, that the function has been called.
    [pc_live] is false when the object is destroyed. *)
Record pcall := mkPC { pc_sync : bool; pc_res : rpc_result; pc_recv : bool; pc_live : bool; pc_fn : list op }.

(** What happened, in order: a call was put in the map; a call was not put there for
    its identifier was taken (emplace, 704); a call was taken out with a result (582);
    [cancelPendingCall] found nothing; a waiting call returned a result, or the
    function was called with it; a waiting call was left by an exception. *)
Inductive cev :=
| EAdd (k : nat) (id : Z)
| ERefuse (k : nat) (id : Z)
| EAnswer (k : nat) (id : Z) (r : rpc_result)
| EMiss (id : Z)
| EDone (k : nat) (r : rpc_result)
| EThrow (k : nat).

(** Where a thread is: a stack, the innermost frame first. *)
Inductive frame :=
(** the code of the user: a thread, [sendRequest], the function of a call *)
| Run (l : list op)
(** 528-550, [operator RpcResult]: before the lock; before the map; after
    [sendRequest]; before the test of [received]; asleep; woken, before the lock;
    before reading the result; before the end *)
| SLock (id : Z) (send : list op) (throws : bool)
| SAdd (k : nat) (id : Z) (send : list op) (throws : bool)
| SSent (k : nat) (throws : bool)
| STest (k : nat)
| SSleep (k : nat)
| SWake (k : nat)
| SGet (k : nat)
| SDel (k : nat) (r : rpc_result)
(** 512-518, [release] *)
| RLock (k : nat)
| RSet (k : nat)
| RNotify (k : nat)
| RUnlock
(** rpc.h 1088-1117, [operator >>] *)
| ALock (id : Z) (send fn : list op)
| AAdd (k : nat) (id : Z) (send : list op)
| ASent
(** rpc.h 1098-1104, the destructor: before the function, after it *)
| DRun (k : nat)
| DDel (k : nat)
(** 582-591, [cancelPendingCall] *)
| KLock (id : Z) (r : rpc_result)
| KFind (id : Z) (r : rpc_result)
| KMiss
| KUnlock (k : nat) (r : rpc_result)
| KResp (k : nat) (r : rpc_result)
(** 593-601, [cancelAllPendingCalls] *)
| LLock (r : rpc_result)
| LCopy (r : rpc_result)
| LUnlock (ids : list Z) (r : rpc_result).

(** The recursive mutex: the owner and how many times it has it.
    rpc.h 1035-1036, by the contract of [std::recursive_mutex]. *)
Definition mutex := option (nat * nat).
(** [None]: the thread has to wait. Contract of [lock]. *)
Definition acquire (m : mutex) (t : nat) : option mutex :=
  match m with
  | None => Some (Some (t, 1))
  | Some (u, d) => if Nat.eqb u t then Some (Some (u, S d)) else None
  end.
(** [None]: not the owner, the behaviour is undefined. Contract of [unlock]. *)
Definition release (m : mutex) (t : nat) : option mutex :=
  match m with
  | Some (u, S d) => if Nat.eqb u t then Some match d with O => None | _ => Some (u, d) end else None
  | _ => None
  end.

(** rpc.h 1033-1036: the map and the mutex; then the calls and the threads. *)
Record cstate := mkCS {
  c_lock : mutex;
  c_map : list (Z * nat);
  c_calls : list pcall;
  c_thr : list (list frame);
  c_log : list cev
}.
(** [Bad]: undefined behaviour - a destroyed call is used, a mutex is released by a
    thread which does not have it. Model only. *)
Inductive outcome := Next (s : cstate) | Bad.

(** Replace the item at a position. Model only. *)
Fixpoint upd {A} (l : list A) (n : nat) (x : A) : list A :=
  match l, n with
  | [], _ => []
  | _ :: r, O => x :: r
  | y :: r, S m => y :: upd r m x
  end.
(** [unordered_map::find], [erase] on the map of calls (rpc.h 1033). *)
Fixpoint find_call (l : list (Z * nat)) (id : Z) : option nat :=
  match l with
  | [] => None
  | (i, k) :: r => if Z.eqb i id then Some k else find_call r id
  end.
Fixpoint erase_call (l : list (Z * nat)) (id : Z) : list (Z * nat) :=
  match l with
  | [] => []
  | (i, k) :: r => if Z.eqb i id then r else (i, k) :: erase_call r id
  end.

(** [notify_one] (517): the waiting thread leaves the sleep.  At most one thread
    waits for a call. *)
Definition wake1 (k : nat) (stk : list frame) : list frame :=
  match stk with
  | SSleep j :: r => if Nat.eqb j k then SWake j :: r else stk
  | _ => stk
  end.

Section Step.
Variable s : cstate.
Variable t : nat.
(** The thread goes on with the given stack. Model only. *)
Definition go (stk : list frame) : option outcome :=
  Some (Next (mkCS (c_lock s) (c_map s) (c_calls s) (upd (c_thr s) t stk) (c_log s))).
(** It goes on after it gets the mutex, otherwise it has to wait. Model only. *)
Definition go_lock (stk : list frame) : option outcome :=
  match acquire (c_lock s) t with
  | Some m => Some (Next (mkCS m (c_map s) (c_calls s) (upd (c_thr s) t stk) (c_log s)))
  | None => None
  end.
(** It goes on after it releases the mutex. Model only. *)
Definition go_unlock (stk : list frame) : option outcome :=
  match release (c_lock s) t with
  | Some m => Some (Next (mkCS m (c_map s) (c_calls s) (upd (c_thr s) t stk) (c_log s)))
  | None => Some Bad
  end.
(** It goes on if the call is not destroyed. Model only. *)
Definition with_call (k : nat) (f : pcall -> option outcome) : option outcome :=
  match nth_error (c_calls s) k with
  | Some c => if pc_live c then f c else Some Bad
  | None => Some Bad
  end.
Definition set_call (k : nat) (c : pcall) (stk : list frame) (log : list cev) : option outcome :=
  Some (Next (mkCS (c_lock s) (c_map s) (upd (c_calls s) k c) (upd (c_thr s) t stk) (c_log s ++ log))).
(** 534-537, rpc.h 1110-1111: the lock is taken and the object made. *)
Definition new_call (c : pcall) (stk : list frame) : option outcome :=
  match acquire (c_lock s) t with
  | Some m => Some (Next (mkCS m (c_map s) (c_calls s ++ [c]) (upd (c_thr s) t stk) (c_log s)))
  | None => None
  end.
(** 539-540, 703-705, rpc.h 1111: into the map unless the identifier is there; then
    the object is given up and [refused] runs first. *)
Definition add_call (k : nat) (id : Z) (refused stk : list frame) : option outcome :=
  match find_call (c_map s) id with
  | Some _ => Some (Next (mkCS (c_lock s) (c_map s) (c_calls s) (upd (c_thr s) t (refused ++ stk)) (c_log s ++ [ERefuse k id])))
  | None => Some (Next (mkCS (c_lock s) ((id, k) :: c_map s) (c_calls s) (upd (c_thr s) t stk) (c_log s ++ [EAdd k id])))
  end.

(** Where an operation begins. *)
Definition start_op (o : op) : frame :=
  match o with
  | OpSync id send throws => SLock id send throws
  | OpAsync id send fn => ALock id send fn
  | OpCancel id r => KLock id r
  | OpCancelAll r => LLock r
  end.

(** One step of the thread with the innermost frame [f] and the other frames [r];
    [None] when it has to wait. *)
Definition fstep (f : frame) (r : list frame) : option outcome :=
  match f with
  | Run [] => go r
  | Run (o :: l) => go (start_op o :: Run l :: r)
  (** 534-549; [k] is the number of the new call *)
  | SLock id send throws =>
    let k := length (c_calls s) in
    new_call (mkPC true empty_result false true []) (SAdd k id send throws :: r)
  | SAdd k id send throws => add_call k id [RLock k] (Run send :: SSent k throws :: r)
  | SSent k true =>
    with_call k (fun c =>
      match release (c_lock s) t with
      | Some m => Some (Next (mkCS m (c_map s)
                    (upd (c_calls s) k (mkPC (pc_sync c) (pc_res c) (pc_recv c) false (pc_fn c)))
                    (upd (c_thr s) t r) (c_log s ++ [EThrow k])))
      | None => Some Bad
      end)
  | SSent k false => go (STest k :: r)
  | STest k => with_call k (fun c => if pc_recv c then go (SGet k :: r) else go_unlock (SSleep k :: r))
  | SSleep _ => None
  | SWake k => go_lock (STest k :: r)
  | SGet k => with_call k (fun c => go (SDel k (pc_res c) :: r))
  | SDel k v =>
    with_call k (fun c =>
      match release (c_lock s) t with
      | Some m => Some (Next (mkCS m (c_map s)
                    (upd (c_calls s) k (mkPC (pc_sync c) (pc_res c) (pc_recv c) false (pc_fn c)))
                    (upd (c_thr s) t r) (c_log s ++ [EDone k v])))
      | None => Some Bad
      end)
  (** 512-518 *)
  | RLock k => with_call k (fun _ => go_lock (RSet k :: r))
  | RSet k => with_call k (fun c =>
      set_call k (mkPC (pc_sync c) (pc_res c) true (pc_live c) (pc_fn c)) (RNotify k :: r) [])
  | RNotify k => with_call k (fun _ =>
      Some (Next (mkCS (c_lock s) (c_map s) (c_calls s) (map (wake1 k) (upd (c_thr s) t (RUnlock :: r))) (c_log s))))
  | RUnlock => go_unlock r
  (** rpc.h 1110-1113 *)
  | ALock id send fn =>
    let k := length (c_calls s) in
    new_call (mkPC false empty_result false true fn) (AAdd k id send :: r)
  | AAdd k id send => add_call k id [DRun k] (Run send :: ASent :: r)
  | ASent => go_unlock r
  (** rpc.h 1098-1104; the function runs once *)
  | DRun k => with_call k (fun c =>
      set_call k (mkPC (pc_sync c) (pc_res c) true (pc_live c) []) (Run (pc_fn c) :: DDel k :: r) [EDone k (pc_res c)])
  | DDel k => with_call k (fun c =>
      set_call k (mkPC (pc_sync c) (pc_res c) (pc_recv c) false (pc_fn c)) r [])
  (** 583-590; at the end the object is destroyed *)
  | KLock id v => go_lock (KFind id v :: r)
  | KFind id v =>
    match find_call (c_map s) id with
    | None => Some (Next (mkCS (c_lock s) (c_map s) (c_calls s) (upd (c_thr s) t (KMiss :: r)) (c_log s ++ [EMiss id])))
    | Some k => Some (Next (mkCS (c_lock s) (erase_call (c_map s) id) (c_calls s) (upd (c_thr s) t (KUnlock k v :: r))
                              (c_log s ++ [EAnswer k id v])))
    end
  | KMiss => go_unlock r
  | KUnlock k v => go_unlock (KResp k v :: r)
  | KResp k v => with_call k (fun c =>
      set_call k (mkPC (pc_sync c) v (pc_recv c) (pc_live c) (pc_fn c))
               ((if pc_sync c then RLock k else DRun k) :: r) [])
  (** 594-600 *)
  | LLock v => go_lock (LCopy v :: r)
  | LCopy v => go (LUnlock (map fst (c_map s)) v :: r)
  | LUnlock ids v => go_unlock (map (fun i => KLock i v) ids ++ r)
  end.
End Step.

(** One step of the thread [t]; [None] when it has to wait or has ended. Model only. *)
Definition tstep (s : cstate) (t : nat) : option outcome :=
  match nth_error (c_thr s) t with
  | Some (f :: r) => fstep s t f r
  | _ => None
  end.
(** A condition variable may wake a thread without being notified.
    By the contract of [std::condition_variable]. *)
Definition spurious (s : cstate) (t : nat) : option cstate :=
  match nth_error (c_thr s) t with
  | Some (SSleep k :: r) => Some (mkCS (c_lock s) (c_map s) (c_calls s) (upd (c_thr s) t (SWake k :: r)) (c_log s))
  | _ => None
  end.

(** A schedule chooses the thread which makes the next step; a thread which cannot
    make it is passed over. Model only. *)
Inductive move := Step (t : nat) | Spurious (t : nat).
Definition cmove (s : cstate) (m : move) : outcome :=
  match m with
  | Step t => match tstep s t with Some o => o | None => Next s end
  | Spurious t => match spurious s t with Some s' => Next s' | None => Next s end
  end.
Fixpoint cexec (s : cstate) (l : list move) : outcome :=
  match l with
  | [] => Next s
  | m :: r => match cmove s m with Next s' => cexec s' r | Bad => Bad end
  end.
(** The start: nothing is pending, every thread is to run its program. Model only. *)
Definition cstart (progs : list (list op)) : cstate := mkCS None [] [] (map (fun p => [Run p]) progs) [].
