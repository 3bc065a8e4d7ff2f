(** What the properties of JSON-RPC requests and clients speak about. *)
From Coq Require Import String.
From Verif Require Import Base ModelKeyed SpecKeyed ModelValue ModelObject SpecObject ModelEq ModelHash ModelRpc.

(** *** Messages *)
(** A response carries an identifier, a notification a method name. *)
Definition is_response (v : value) : bool :=
  negb (is_undef (value_member v k_id)) && negb (is_null (value_member v k_id)).
Definition is_notification (v : value) : bool := negb (is_undef (value_member v k_method)).

Definition delivers (test : value -> bool) (e : entry) : bool :=
  match e with Delivered (Message v) => test v | _ => false end.
(** Number of responses the peer was given. *)
Definition responses (log : list entry) : nat := length (filter (delivers is_response) log).

(** *** Behaviours of the peer *)
(** Nothing in the operation, at any depth, answers the request. *)
Fixpoint quiet (o : rop) : bool :=
  match o with
  | RInit _ | RSetParams _ => true
  | RResult _ _ _ _ | RError _ _ _ | RErrorCode _ _ _ _ _ | RNoResult _ _ => false
  | RNotify _ _ inner _ | RHeartbeat inner _ => forallb quiet inner
  end.
(** While it is given a result, the peer neither answers the request nor throws. *)
Fixpoint calm (o : rop) : bool :=
  match o with
  | RInit _ | RSetParams _ => true
  | RResult _ _ inner a =>
    forallb quiet inner && match a with Accepts _ => true | Throws => false end
  | RError _ inner _ | RErrorCode _ _ _ inner _ | RNoResult inner _ | RNotify _ _ inner _ | RHeartbeat inner _ =>
    forallb calm inner
  end.
(** The peer never uses the request while it is given something. *)
Definition flat (o : rop) : bool :=
  match o with
  | RInit _ | RSetParams _ => true
  | RResult _ _ [] _ | RError _ [] _ | RErrorCode _ _ _ [] _ | RNoResult [] _ | RNotify _ _ [] _ | RHeartbeat [] _ => true
  | _ => false
  end.
(** The operation does not change the server of the request. *)
Fixpoint no_init (o : rop) : bool :=
  match o with
  | RInit _ => false
  | RSetParams _ => true
  | RResult _ _ inner _ | RError _ inner _ | RErrorCode _ _ _ inner _ | RNoResult inner _ | RNotify _ _ inner _ | RHeartbeat inner _ =>
    forallb no_init inner
  end.

(** *** When a notification may be sent *)
(** What a peer that never uses the request meanwhile sees: messages, each with
    its answer. *)
Fixpoint exchanges (l : list (value * answer)) : list entry :=
  match l with
  | [] => []
  | (v, a) :: l' => Delivered (Message v) :: Answered a :: exchanges l'
  end.
(** Enabled from the start by [preResponseNotify] (bit 0); a response turns notifications
    on if it was accepted and [postResponseNotify] (bit 1) is set, otherwise off; the
    answer to a notification turns them on or off. *)
Definition may_notify (flags : Z) (l : list (value * answer)) : bool :=
  fold_left (fun enabled x =>
    match snd x with
    | Throws => enabled
    | Accepts b =>
      if is_response (fst x) then Z.testbit flags 1 && b
      else if is_notification (fst x) then b else enabled
    end) l (Z.testbit flags 0).

(** *** The server *)
Definition method_ok (P : rop -> bool) (m : method) : Prop := forall r, forallb P (fst (m r)) = true.
Definition hook_ok (P : rop -> bool) (h : option hook) : Prop :=
  match h with Some h => forall r, forallb P (fst (h r)) = true | None => True end.
Definition server_ok (P : rop -> bool) (sv : server) : Prop :=
  Forall (fun m => method_ok P (snd m)) (sv_reg sv) /\ hook_ok P (sv_proxy sv) /\ hook_ok P (sv_handler sv).
Definition no_result_formats (f : services) : Prop :=
  exists e, f (-32099)%Z (txt "The method did not produce a result") VUndef = Some e.

(** Registration of methods as a history. *)
Inductive regop := GAdd (name : bytes) (m : method) | GRemove (name : bytes) | GClear.
Definition reg_step (reg : list (bytes * method)) (o : regop) : list (bytes * method) :=
  match o with
  | GAdd name m => reg_add reg name m
  | GRemove name => reg_remove reg name
  | GClear => []
  end.
Definition reg_run (l : list regop) : list (bytes * method) := fold_left reg_step l [].
(** The operation removes [name]. *)
Definition removes (name : bytes) (o : regop) : Prop :=
  match o with GRemove n => n = name | GClear => True | GAdd _ _ => False end.
Definition adds (name : bytes) (o : regop) : Prop :=
  match o with GAdd n _ => n = name | _ => False end.

(** *** The client *)
Section Client.
Variable same : value -> value -> bool.

(** On the identifiers [good], matching is an equivalence. *)
Definition same_ok (good : value -> Prop) : Prop :=
  (forall a, good a -> same a a = true) /\
  (forall a b, good a -> good b -> same a b = true -> same b a = true) /\
  (forall a b c, good a -> good b -> good c -> same a b = true -> same b c = true -> same a c = true).

(** The identifiers an operation mentions. *)
Definition op_ids (o : cop) : list value :=
  match o with
  | CSend id => [id]
  | CCancel id _ => [id]
  | CFilter ids _ => ids
  | CResponse v => if is_response v then [value_member v k_id] else []
  | _ => []
  end.
Definition ids_ok (good : value -> Prop) (l : list cop) : Prop :=
  Forall (fun o => Forall good (op_ids o)) l.

(** The identifiers of the calls, in the order of registration. *)
Fixpoint sent_ids (l : list cop) : list value :=
  match l with
  | [] => []
  | CSend id :: l' => id :: sent_ids l'
  | _ :: l' => sent_ids l'
  end.

Definition pending (c : client) (h : nat) : Prop := exists k, In (k, Some h) (cl_calls c).

(** Why a call registered under [id] may end with [r]. *)
Definition ends (id : value) (r : rpc_result) (o : cop) : Prop :=
  match o with
  | CResponse v => same id (value_member v k_id) = true /\ response_result v = Some r
  | CCancel x r' => same id x = true /\ r = r'
  | CCancelAll r' => r = r'
  | CFilter ids r' => r = r' /\ forall x, In x ids -> same id x = false
  | _ => False
  end.

(** The call of registration [h] ended with [r] for such a reason, or its own
    registration found a call of the same identifier. *)
Definition ended_by (ops : list cop) (h : nat) (r : rpc_result) : Prop :=
  exists ops1 o ops2 id, ops = ops1 ++ o :: ops2 /\ nth_error (sent_ids ops) h = Some id /\
    (ends id r o \/
     (o = CSend id /\ r = mkRR VUndef true VUndef /\ h = length (sent_ids ops1) /\
      exists h' id', h' < h /\ nth_error (sent_ids ops) h' = Some id' /\ same id' id = true)).
End Client.

(** Number of identifiers generated. *)
Fixpoint generated (l : list cop) : nat :=
  match l with
  | [] => 0
  | CPrepare :: l' => S (generated l')
  | CPrepareDefault :: l' => S (S (generated l'))
  | _ :: l' => generated l'
  end.

(** *** Client and server together *)
(** The messages the peer was given. *)
Fixpoint messages (log : list entry) : list value :=
  match log with
  | [] => []
  | Delivered (Message v) :: log' => v :: messages log'
  | _ :: log' => messages log'
  end.

(** A request with a method name and a context the server takes. *)
Definition valid_request (r : preq) : Prop :=
  (exists e s, rq_method r = VStr e s) /\ (rq_context r = VUndef \/ exists d l, rq_context r = VObj d l).

(** The request a call becomes. *)
Definition call_request (ver : rpc_version) (id : value) (name : bytes) (args context : value) : preq :=
  mkReq (VStr None name) args id context (match ver with Ver1 => VUndef | Ver2 => VStr None (txt "2.0") end).

(** The context a response carries. *)
Definition sent_context (context : value) : value := match members_of context with [] => VUndef | _ => context end.

(** Keys of the map of calls match: equal hash and equal. *)
Definition same_value (L : libm) (a b : value) : bool := (value_hash L a =? value_hash L b)%Z && veq L a b.

(** Contexts kept by a client: no object marked as a difference. *)
Definition plain_context (v : value) : Prop := base_ok v /\ is_diff v = false.
