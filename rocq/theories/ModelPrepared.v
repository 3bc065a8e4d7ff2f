(** Prepared calls and copies of clients: /repo/src/imtjson/rpc.h 911-927, 991, 1088-1117 and
    rpc.cpp 497-576.  Line numbers without a file are rpc.cpp.  One thread. *)
From Verif Require Import Base ModelKeyed ModelValue ModelObject ModelRpc.

Section Prepared.
Variable same : value -> value -> bool.

(** rpc.h 911-927, [PreparedCall]: the owner, a reference, is the number of a client. *)
Record prep := mkPrep { pr_owner : nat; pr_id : value; pr_msg : value; pr_executed : bool }.

(** What is seen: the prepared call [p] gave client [i] a request to send; [>>] returned an
    identifier; a waiting call returned a result. Model only. *)
Inductive pev :=
| ESent (p i : nat) (id msg : value)
| EId (p : nat) (id : value)
| ERes (p : nat) (r : rpc_result).

(** The clients there are with their [ver], [None] when it has never been given a value; the
    prepared calls there are; what was seen.  Clients are not destroyed. *)
Record world := mkW { w_clients : list (option rpc_version * client); w_preps : list prep; w_log : list pev }.

(** [WBad]: undefined behaviour - an indeterminate version is read, there is no such client or
    prepared call, a null pointer is met.  [WWait]: a waiting call sleeps, with no thread to
    answer it. Model only. *)
Inductive wres := WOk (w : world) | WBad | WWait.

(** What is done.  [send] is what the virtual [sendRequest] does before it returns, or throws
    if [throws]; the exception is caught by whoever made the call.  A [sendRequest] that throws
    in a waiting call is left to C85.  [DClient]: the operations of a client in [cop]. *)
Inductive pop :=
| DNew (ver : rpc_version)
| DCopyClient (i : nat)
| DCall (i : nat) (name : bytes) (args context : value)
| DCallDefault (i : nat) (name : bytes) (args : value)
| DCopyCall (p : nat)
| DAsync (p : nat) (send : list pop) (throws : bool)
| DWait (p : nat) (send : list pop)
| DClient (i : nat) (o : cop).

(** Replace an item. Model only. *)
Fixpoint put {A} (l : list A) (n : nat) (x : A) : list A :=
  match l, n with
  | [], _ => []
  | _ :: r, O => x :: r
  | y :: r, S m => y :: put r m x
  end.
Definition put_client (w : world) (i : nat) (v : option rpc_version) (c : client) : world :=
  mkW (put (w_clients w) i (v, c)) (w_preps w) (w_log w).
Definition add_client (w : world) (v : option rpc_version) : world :=
  mkW (w_clients w ++ [(v, client_new)]) (w_preps w) (w_log w).
Definition add_prep (w : world) (p : prep) : world := mkW (w_clients w) (w_preps w ++ [p]) (w_log w).
Definition add_ev (w : world) (e : pev) : world := mkW (w_clients w) (w_preps w) (w_log w ++ [e]).
(** 532, rpc.h 1114: [executed = true]. *)
Definition set_executed (w : world) (p : nat) : world :=
  match nth_error (w_preps w) p with
  | Some q => mkW (w_clients w) (put (w_preps w) p (mkPrep (pr_owner q) (pr_id q) (pr_msg q) true)) (w_log w)
  | None => w
  end.

(** 552-576 with the two [genRequestID] of 554 and 561.  The version is read at 562. *)
Definition do_call (w : world) (i : nat) (f : client -> rpc_version -> client * value * value) : wres :=
  match nth_error (w_clients w) i with
  | Some (Some v, c) => let '(c1, id, msg) := f c v in WOk (add_prep (put_client w i (Some v) c1) (mkPrep i id msg false))
  | _ => WBad
  end.

(** 537-542, rpc.h 1111-1112: into the map, then [sendRequest]; also the number of the call. *)
Definition register (w : world) (p : nat) (q : prep) : option (world * nat) :=
  match nth_error (w_clients w) (pr_owner q) with
  | Some (v, c) =>
    Some (add_ev (put_client w (pr_owner q) v (add_pending same c (pr_id q))) (ESent p (pr_owner q) (pr_id q) (pr_msg q)), cl_next c)
  | None => None
  end.
(** 545-549: what the call was given, if it has ended. *)
Definition outcome_of (w : world) (i h : nat) : option rpc_result :=
  match nth_error (w_clients w) i with
  | Some (_, c) => option_map snd (find (fun e => Nat.eqb (fst e) h) (cl_done c))
  | None => None
  end.

(** The lines are at the functions above. *)
Fixpoint wstep (o : pop) : world -> wres :=
  let wrun := fix wrun (l : list pop) (w : world) : wres :=
    match l with
    | [] => WOk w
    | x :: l' => match wstep x w with WOk w1 => wrun l' w1 | e => e end
    end in
  fun w =>
  match o with
  (** 773-777 *)
  | DNew ver => WOk (add_client w (Some ver))
  (** rpc.h 991: [ver] is not initialised, nothing is taken from the source. *)
  | DCopyClient i => match nth_error (w_clients w) i with Some _ => WOk (add_client w None) | None => WBad end
  | DCall i name args context => do_call w i (fun c v => prepare c v name args context)
  | DCallDefault i name args => do_call w i (fun c v => prepare_default c v name args)
  (** the implicit copy constructor *)
  | DCopyCall p => match nth_error (w_preps w) p with Some q => WOk (add_prep w q) | None => WBad end
  (** rpc.h 1088-1117 *)
  | DAsync p send throws =>
    match nth_error (w_preps w) p with
    | None => WBad
    | Some q =>
      if pr_executed q then WOk (add_ev w (EId p (pr_id q)))
      else
        match register w p q with
        | None => WBad
        | Some (w1, _) =>
          match wrun send w1 with
          | WOk w2 => WOk (if throws then w2 else add_ev (set_executed w2 p) (EId p (pr_id q)))
          | e => e
          end
        end
    end
  (** 528-550 *)
  | DWait p send =>
    match nth_error (w_preps w) p with
    | None => WBad
    | Some q =>
      if pr_executed q then WOk (add_ev w (ERes p empty_result))
      else
        match register (set_executed w p) p q with
        | None => WBad
        | Some (w1, h) =>
          match wrun send w1 with
          | WOk w2 => match outcome_of w2 (pr_owner q) h with Some r => WOk (add_ev w2 (ERes p r)) | None => WWait end
          | e => e
          end
        end
    end
  | DClient i o =>
    match nth_error (w_clients w) i with
    | None => WBad
    | Some (v, c) => match cstep same c o with Some c1 => WOk (put_client w i v c1) | None => WBad end
    end
  end.
Fixpoint wrun (l : list pop) (w : world) : wres :=
  match l with
  | [] => WOk w
  | x :: l' => match wstep x w with WOk w1 => wrun l' w1 | e => e end
  end.
End Prepared.
