(** C85, C86: the RPC client used by several threads. *)
From Coq Require Import List ZArith Bool.
From Verif Require Import Base ModelValue ModelRpc ModelConc SpecConc ProofConc ProofConc2 ProofConc3 ProofConc4 ProofConc5.
Import ListNotations.

(** *** C85: the threads see one client *)
(** Whatever the threads do and in whatever order their steps come, no destroyed call
    is used and the lock is released only by its owner, if no [sendRequest] of a
    waiting call ends by an exception. *)
Theorem C85_no_dangling : forall progs sched,
  calm_all progs = true -> cexec (cstart progs) sched <> Bad.
Proof. exact never_bad. Qed.
Print Assumptions C85_no_dangling.

(** What happened is a history of the client of one thread: a result is given to the
    call waiting under its identifier, every call has at most one result and gets
    exactly that one, at most once. *)
Theorem C85_history : forall progs sched s,
  calm_all progs = true -> cexec (cstart progs) sched = Next s ->
  exists a, a_run a_start (c_log s) a /\ a_pend a = c_map s.
Proof. exact history_right. Qed.
Print Assumptions C85_history.

(** Two threads never use the same memory at once when one of them writes. *)
Theorem C85_no_race : forall progs sched s,
  calm_all progs = true -> cexec (cstart progs) sched = Next s -> ~ race s.
Proof. exact race_free. Qed.
Print Assumptions C85_no_race.

(** A thread which cancels an identifier, or all, and ends: the call which was waiting
    under the identifier before has an answer by then. *)
Theorem C85_cancels : forall progs sched s t o id k more s',
  calm_all progs = true -> cexec (cstart progs) sched = Next s ->
  starts s t o -> (exists r, o = OpCancel id r \/ o = OpCancelAll r) ->
  In (id, k) (c_map s) -> cexec s more = Next s' -> ended s' t ->
  exists r ev, c_log s' = c_log s ++ ev /\ In (EAnswer k id r) ev.
Proof. exact cancels. Qed.
Print Assumptions C85_cancels.

(** The answer of a thread is given, with its result, or nobody waited for it. *)
Theorem C85_cancel_own : forall progs sched s t id r more s',
  calm_all progs = true -> cexec (cstart progs) sched = Next s ->
  starts s t (OpCancel id r) -> cexec s more = Next s' -> ended s' t ->
  exists ev, c_log s' = c_log s ++ ev /\ ((exists k, In (EAnswer k id r) ev) \/ In (EMiss id) ev).
Proof. exact cancel_own. Qed.
Print Assumptions C85_cancel_own.

(** A waiting call of a thread which ended was made and its result was returned. *)
Theorem C85_sync : forall progs sched s t send id more s',
  calm_all progs = true -> cexec (cstart progs) sched = Next s ->
  starts s t (OpSync id send false) -> cexec s more = Next s' -> ended s' t ->
  exists ev k r, c_log s' = c_log s ++ ev /\ length (c_calls s) <= k /\
    (In (EAdd k id) ev \/ In (ERefuse k id) ev) /\ In (EDone k r) ev.
Proof. exact sync_called. Qed.
Print Assumptions C85_sync.

(** An asynchronous call of a thread which ended was made. *)
Theorem C85_async : forall progs sched s t send fn id more s',
  calm_all progs = true -> cexec (cstart progs) sched = Next s ->
  starts s t (OpAsync id send fn) -> cexec s more = Next s' -> ended s' t ->
  exists ev k, c_log s' = c_log s ++ ev /\ length (c_calls s) <= k /\ (In (EAdd k id) ev \/ In (ERefuse k id) ev).
Proof. exact async_called. Qed.
Print Assumptions C85_async.

(** Only what the threads give as results is given to calls, and only the calls of the
    threads are made. *)
Theorem C85_answers_given : forall progs sched s k id r,
  cexec (cstart progs) sched = Next s -> In (EAnswer k id r) (c_log s) ->
  in_programs progs (OpCancel id r) \/ in_programs progs (OpCancelAll r).
Proof. exact answers_given. Qed.
Print Assumptions C85_answers_given.
Theorem C85_calls_made : forall progs sched s k id,
  cexec (cstart progs) sched = Next s -> In (EAdd k id) (c_log s) \/ In (ERefuse k id) (c_log s) ->
  (exists send throws, in_programs progs (OpSync id send throws)) \/
  (exists send fn, in_programs progs (OpAsync id send fn)).
Proof. exact calls_made. Qed.
Print Assumptions C85_calls_made.

(** An exception of [sendRequest] leaves the object of the stack in the map; a later
    answer uses it. *)
Theorem C85_exception_refuted : exists progs sched, cexec (cstart progs) sched = Bad.
Proof. exact exception_bad. Qed.
Print Assumptions C85_exception_refuted.

(** *** C86: the threads end *)
(** When no thread can go on, every thread has ended or sleeps in a call which waits
    for an answer - or a thread sleeps with the lock of the client. *)
Theorem C86_quiet : forall progs sched s,
  calm_all progs = true -> cexec (cstart progs) sched = Next s -> quiet s ->
  (forall t, t < length (c_thr s) -> ended s t \/ unanswered s t) \/
  (exists u, asleep_with_lock s u).
Proof. exact stuck_states. Qed.
Print Assumptions C86_quiet.

(** When waiting calls are not made inside [sendRequest] and inside the functions,
    every thread has ended or waits for an answer, and every result has been
    delivered. *)
Theorem C86_flat : forall progs sched s,
  calm_all progs = true -> flat_all progs = true ->
  cexec (cstart progs) sched = Next s -> quiet s ->
  (forall t, t < length progs -> ended s t \/ unanswered s t) /\
  exists a, a_run a_start (c_log s) a /\ a_pend a = c_map s /\ a_fin a = [].
Proof. exact stuck_flat. Qed.
Print Assumptions C86_flat.

(** Every schedule comes to the end: the number of steps is bounded by a number which
    depends only on the programs, and two for each spurious awakening. *)
Theorem C86_terminates : forall progs,
  calm_all progs = true ->
  exists n, forall sched, steps_made (cstart progs) sched <= n + 2 * awakenings (cstart progs) sched.
Proof. exact bounded_steps. Qed.
Print Assumptions C86_terminates.

(** A waiting call made inside [sendRequest] of another call keeps the lock while it
    sleeps: the answer cannot be given and both threads stay for ever. *)
Theorem C86_nested_refuted : exists progs sched s,
  calm_all progs = true /\ cexec (cstart progs) sched = Next s /\
  forall more s', cexec s more = Next s' -> ~ ended s' 0 /\ ~ ended s' 1.
Proof. exact nested_stuck. Qed.
Print Assumptions C86_nested_refuted.

(** *** Examples *)
Definition yes : rpc_result := mkRR (VBool true) false VUndef.
(** a thread waits, another answers; an asynchronous call whose function makes
    another call; all is cancelled at the end *)
Definition ex_progs : list (list op) :=
  [[OpSync 1 [] false]; [OpCancel 1 yes; OpAsync 2 [] [OpAsync 3 [] []]; OpCancelAll empty_result; OpCancelAll yes]].
Definition round_robin (n : nat) : list move := flat_map (fun _ => [Step 0; Step 1]) (repeat tt n).
Definition first_then (n m : nat) : list move := repeat (Step 0) n ++ repeat (Step 1) m.
Example ex_calm : calm_all ex_progs = true /\ flat_all ex_progs = true.
Proof. split; reflexivity. Qed.
(** the call sleeps before the answer comes, and all ends *)
Example ex_end : match cexec (cstart ex_progs) (first_then 20 60 ++ round_robin 20) with
  | Next s => c_log s = [EAdd 0 1; EAnswer 0 1 yes; EAdd 1 2; EAnswer 1 2 empty_result; EDone 1 empty_result;
                         EAdd 2 3; EAnswer 2 3 yes; EDone 2 yes; EDone 0 yes] /\
              c_thr s = [[]; []] /\ c_map s = [] /\ c_lock s = None
  | Bad => False
  end.
Proof. vm_compute. auto. Qed.
(** the answer comes before the call and is lost: the call waits for ever, through a
    spurious awakening too *)
Definition lost_sched : list move := repeat (Step 1) 60 ++ repeat (Step 0) 20 ++ [Spurious 0] ++ repeat (Step 0) 5.
Example ex_lost : match cexec (cstart ex_progs) lost_sched with
  | Next s => ended s 1 /\ unanswered s 0 /\ quiet s /\
              In (EMiss 1) (c_log s) /\ ~ In (EDone 0 yes) (c_log s)
  | Bad => False
  end /\ awakenings (cstart ex_progs) lost_sched = 1.
Proof.
  vm_compute. split; [|reflexivity]. split; [reflexivity|]. split.
  { exists 2, [Run []], 1%Z. auto. }
  split; [intros [|[|[|t]]]; reflexivity|]. split; [auto|]. intros H. repeat (destruct H as [H|H]; [discriminate H|]). exact H.
Qed.
(** the second call of an identifier has the empty result at once *)
Example ex_refused : match cexec (cstart [[OpSync 1 [] false]; [OpSync 1 [] false]]) (first_then 20 20) with
  | Next s => c_log s = [EAdd 0 1; ERefuse 1 1; EDone 1 empty_result] /\ unanswered s 0 /\ ended s 1
  | Bad => False
  end.
Proof. vm_compute. split; [reflexivity|]. split; [|reflexivity]. exists 0, [Run []], 1%Z. auto. Qed.
(** [sendRequest] which answers the call itself *)
Example ex_inside : match cexec (cstart [[OpSync 1 [OpCancel 1 yes] false]]) (repeat (Step 0) 40) with
  | Next s => c_log s = [EAdd 0 1; EAnswer 0 1 yes; EDone 0 yes] /\ ended s 0 /\ c_lock s = None
  | Bad => False
  end.
Proof. vm_compute. auto. Qed.
(** a thread is about to cancel the call of the other one, which waits; both end *)
Example ex_cancels : match cexec (cstart ex_progs) (repeat (Step 0) 20) with
  | Next s => starts s 1 (OpCancel 1 yes) /\ In (1%Z, 0) (c_map s) /\
              match cexec s (repeat (Step 1) 60 ++ round_robin 20) with
              | Next s' => ended s' 1 /\ ended s' 0 | Bad => False
              end
  | Bad => False
  end.
Proof. vm_compute. split; [eexists; eexists; reflexivity|auto]. Qed.
(** the start of the waiting call of the first thread *)
Example ex_sync : starts (cstart ex_progs) 0 (OpSync 1 [] false).
Proof. eexists; eexists; reflexivity. Qed.
(** all is cancelled while a call made by the function of another waits *)
Example ex_all : match cexec (cstart ex_progs) (first_then 20 30) with
  | Next s => starts s 1 (OpCancelAll yes) /\ In (3%Z, 2) (c_map s)
  | Bad => False
  end.
Proof. vm_compute. split; [eexists; eexists; reflexivity|auto]. Qed.
