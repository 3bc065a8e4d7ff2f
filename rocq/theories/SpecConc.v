(** What the users of the client in several threads rely on, without the locks. *)
From Coq Require Import List ZArith Bool.
From Verif Require Import Base ModelKeyed ModelValue ModelRpc ModelConc.
Import ListNotations.

(** *** The client as one thread sees it
    [a_pend] are the calls waiting for an answer, [a_fin] the calls with a result
    not delivered yet, [a_used] all the calls so far. *)
Record aclient := mkA { a_pend : list (Z * nat); a_fin : list (nat * rpc_result); a_used : list nat }.
Definition a_start : aclient := mkA [] [] [].

Definition a_step (a b : aclient) (e : cev) : Prop :=
  match e with
  (** a new call; nobody waits under the identifier *)
  | EAdd k id =>
      ~ In k (a_used a) /\ (forall j, ~ In (id, j) (a_pend a)) /\
      b = mkA ((id, k) :: a_pend a) (a_fin a) (k :: a_used a)
  (** a new call; somebody waits under the identifier: it has the empty result *)
  | ERefuse k id =>
      ~ In k (a_used a) /\ (exists j, In (id, j) (a_pend a)) /\
      b = mkA (a_pend a) ((k, mkRR VUndef true VUndef) :: a_fin a) (k :: a_used a)
  (** the call waiting under the identifier has a result *)
  | EAnswer k id r =>
      In (id, k) (a_pend a) /\
      (forall x, In x (a_pend b) <-> In x (a_pend a) /\ x <> (id, k)) /\
      a_fin b = (k, r) :: a_fin a /\ a_used b = a_used a
  (** nobody waits under the identifier *)
  | EMiss id => (forall j, ~ In (id, j) (a_pend a)) /\ b = a
  (** the result of a call is delivered, and only once *)
  | EDone k r =>
      In (k, r) (a_fin a) /\
      (forall x, In x (a_fin b) <-> In x (a_fin a) /\ fst x <> k) /\
      a_pend b = a_pend a /\ a_used b = a_used a
  | EThrow _ => False
  end.
(** Every event is right for the client the earlier ones left. *)
Inductive a_run : aclient -> list cev -> aclient -> Prop :=
| a_nil : forall a, a_run a [] a
| a_cons : forall a b c e l, a_step a b e -> a_run b l c -> a_run a (e :: l) c.

(** *** Programs *)
(** No [sendRequest] of a waiting call ends by an exception. *)
Fixpoint calm (o : op) : bool :=
  match o with
  | OpSync _ send throws => negb throws && forallb calm send
  | OpAsync _ send fn => forallb calm send && forallb calm fn
  | _ => true
  end.
Definition calm_all (progs : list (list op)) : bool := forallb (forallb calm) progs.
(** No waiting call inside. *)
Fixpoint no_wait (o : op) : bool :=
  match o with
  | OpSync _ _ _ => false
  | OpAsync _ send fn => forallb no_wait send && forallb no_wait fn
  | _ => true
  end.
(** Waiting calls are made by threads, not by [sendRequest] and not by the functions
    of asynchronous calls. *)
Definition flat (o : op) : bool :=
  match o with
  | OpSync _ send _ => forallb no_wait send
  | OpAsync _ send fn => forallb no_wait send && forallb no_wait fn
  | _ => true
  end.
Definition flat_all (progs : list (list op)) : bool := forallb (forallb flat) progs.

(** *** Memory *)
(** Shared memory that is not a mutex: the map, [res] and [received] of a call, and
    the whole object of the call, which is written when it is destroyed and read
    when it is used. *)
Inductive loc := LMap | LRes (k : nat) | LRecv (k : nat) | LObj (k : nat).
(** The accesses of the next step of a thread; [true]: a write. *)
Definition accesses (f : frame) : list (loc * bool) :=
  match f with
  | SAdd _ _ _ _ | AAdd _ _ _ => [(LMap, true)]
  | KFind _ _ => [(LMap, true)]
  | LCopy _ => [(LMap, false)]
  | SSent k true => [(LObj k, true)]
  | STest k => [(LRecv k, false); (LObj k, false)]
  | SSleep k | SWake k => [(LObj k, false)]
  | SGet k => [(LRes k, false); (LObj k, false)]
  | SDel k _ => [(LObj k, true)]
  | RLock k | RNotify k => [(LObj k, false)]
  | RSet k => [(LRecv k, true); (LObj k, false)]
  | KResp k _ => [(LRes k, true); (LObj k, false)]
  | DRun k => [(LRes k, false); (LObj k, false)]
  | DDel k => [(LObj k, true)]
  | _ => []
  end.
Definition next_frame (s : cstate) (t : nat) : option frame :=
  match nth_error (c_thr s) t with Some (f :: _) => Some f | _ => None end.
(** Two threads are about to use the same memory, one of them to write it. *)
Definition race (s : cstate) : Prop :=
  exists t u f g l w v,
    t <> u /\ next_frame s t = Some f /\ next_frame s u = Some g /\
    In (l, w) (accesses f) /\ In (l, v) (accesses g) /\ (w = true \/ v = true).

(** *** The end *)
Definition ended (s : cstate) (t : nat) : Prop := nth_error (c_thr s) t = Some [].
(** The thread is asleep in a waiting call which nobody has answered. *)
Definition unanswered (s : cstate) (t : nat) : Prop :=
  exists k r id, nth_error (c_thr s) t = Some (SSleep k :: r) /\ In (id, k) (c_map s).
(** The thread is asleep in a waiting call and keeps the lock of the client. *)
Definition asleep_with_lock (s : cstate) (t : nat) : Prop :=
  exists k r d, nth_error (c_thr s) t = Some (SSleep k :: r) /\ c_lock s = Some (t, d).
(** No thread can make a step. *)
Definition quiet (s : cstate) : Prop := forall t, tstep s t = None.
(** How many moves of a schedule are steps, and how many spurious awakenings. *)
Fixpoint steps_made (s : cstate) (l : list move) : nat :=
  match l with
  | [] => 0
  | m :: r =>
    (match m with Step t => match tstep s t with Some _ => 1 | None => 0 end | Spurious _ => 0 end) +
    match cmove s m with Next s' => steps_made s' r | Bad => 0 end
  end.
Fixpoint awakenings (s : cstate) (l : list move) : nat :=
  match l with
  | [] => 0
  | m :: r =>
    (match m with Spurious t => match spurious s t with Some _ => 1 | None => 0 end | Step _ => 0 end) +
    match cmove s m with Next s' => awakenings s' r | Bad => 0 end
  end.

(** *** Operations of a program *)
(** The operation is in the list, or inside an operation of it. *)
Inductive within (o : op) (l : list op) : Prop :=
| w_here : In o l -> within o l
| w_sync : forall id send throws, In (OpSync id send throws) l -> within o send -> within o l
| w_send : forall id send fn, In (OpAsync id send fn) l -> within o send -> within o l
| w_fn : forall id send fn, In (OpAsync id send fn) l -> within o fn -> within o l.
Definition in_programs (progs : list (list op)) (o : op) : Prop := exists p, In p progs /\ within o p.
(** The thread is about to start the operation. *)
Definition starts (s : cstate) (t : nat) (o : op) : Prop :=
  exists l rest, nth_error (c_thr s) t = Some (Run (o :: l) :: rest).
