(** C107: notifications from sender to receiver. *)
From Coq Require Import String.
From Verif Require Import Base ModelKeyed ModelValue ModelText SpecText ModelObject ModelRpc SpecRpc SpecRpcText ModelNotify SpecNotify ProofTextEx ProofRpcText ProofNotify PropRpc PropRpcText.
Local Open Scope list_scope.
Local Open Scope Z_scope.

(** A notification written as text is read as what was sent: by a server as a request
    without identifier, by a client as a notification that leaves its calls and its
    context alone. *)
Theorem C107_read : forall L E F utf8 ver name args ctx, precise F = false -> doc_ok utf8 (VStr None name) -> part_ok utf8 args -> part_ok utf8 ctx ->
  exists m args' ctx', sent_as L E F utf8 (client_notify_context ver name args ctx) m /\ same_part args args' /\ same_part ctx ctx' /\
    parse_request m = notify_request ver name args' ctx' /\
    notice_of m = notice_new name args' /\ forall same c, process_response same c m = Some (c, Notification).
Proof. exact text_notify. Qed.
Print Assumptions C107_read.

(** A request without identifier and one with it are alike for the method registered
    under its name: it is called with the arguments and the context. *)
Theorem C107_called : forall sv p ph pi r flags m l name, rq_method r = VStr None name -> (rq_context r = VUndef \/ exists d c, rq_context r = VObj d c) ->
  reg_find (sv_reg sv) name = Some m -> m (wrapped flags r) = (l, Returns tt) ->
  exec sv p ph pi (create ByFunction r flags) = Some (rrun (create ByFunction r flags) (RInit (sv_format sv) :: l)).
Proof. exact exec_notify. Qed.
Print Assumptions C107_called.

(** Whatever the server, its methods and the peer do, no response is sent, not even
    for a method that is not known, that throws, or that gives no result. *)
Theorem C107_silent : forall sv p ph pi r flags s later inner a, has_id r = false -> exec sv p ph pi (create ByFunction r flags) = Some s ->
  responses (rs_log (rdrop (rrun s later) inner a)) = 0%nat.
Proof. exact exec_silent. Qed.
Print Assumptions C107_silent.

(** A notification made into a request by [asRequest] sends nothing at all, neither
    responses nor notifications, but for the sign of life. *)
Theorem C107_as_request : forall sv p ph pi n s later inner a, server_ok no_beat sv -> forallb no_beat (fst p) = true -> forallb no_beat (fst ph) = true -> forallb no_beat (fst pi) = true ->
  forallb no_beat later = true -> exec sv p ph pi (as_request n) = Some s -> rs_log (rdrop (rrun s later) inner a) = [].
Proof. exact notice_silent. Qed.
Print Assumptions C107_as_request.

(** The method of its name is called with its data and its context. *)
Theorem C107_notice_called : forall sv p ph pi name data ctx m l, (ctx = VUndef \/ exists d c, ctx = VObj d c) -> reg_find (sv_reg sv) name = Some m ->
  let r := mkReq (VStr None name) data VUndef ctx VUndef in m (wrapped 0 r) = (l, Returns tt) ->
  exec sv p ph pi (as_request (notice_context name data ctx)) = Some (rrun (create ByFunction r 0) (RInit (sv_format sv) :: l)).
Proof. exact notice_called. Qed.
Print Assumptions C107_notice_called.

(** The context does not survive: a notification made from a message has none, although
    the message has. *)
Theorem C107_context_refuted : exists ver name args ctx, value_member (client_notify_context ver name args ctx) k_context = ctx /\ ctx <> VUndef /\
  nt_context (notice_of (client_notify_context ver name args ctx)) = VUndef.
Proof.
  exists Ver2, (txt "tick"), (VArr []), (VObj false [(txt "user", VStr None (txt "me"))]). split; [vm_compute; reflexivity|]. split; [discriminate|reflexivity].
Qed.
Print Assumptions C107_context_refuted.

(** *** Examples *)
Definition ex_notify : value := client_notify Ver2 (txt "sum") (VArr [([], VNum (NUInt 20)); ([], VNum (NUInt 22))]).
Example C107_text : ser ser0 true ex_notify = txt "{""jsonrpc"":""2.0"",""method"":""sum"",""params"":[20,22]}" /\
  ser ser0 true (client_notify_context Ver1 (txt "tick") VUndef (VObj false [(txt "a", VNull)])) = txt "{""context"":{""a"":null},""id"":null,""method"":""tick""}".
Proof. vm_compute. split; reflexivity. Qed.
Example C107_case :
  option_map (fun s => rs_log (rdrop s [] ok)) (exec ex_server nothing nothing nothing (create ByFunction (parse_request ex_notify) f_pre)) =
    Some [Delivered (Message (VObj false [(k_jsonrpc, v_two); (k_method, VStr None (txt "working")); (k_params, VNull)])); Answered ok] /\
  option_map (fun s => rs_log (rdrop s [] ok)) (exec ex_server nothing nothing nothing (as_request (notice_of ex_notify))) = Some [] /\
  has_id (parse_request ex_notify) = false /\ server_ok no_beat ex_server.
Proof.
  split; [vm_compute; reflexivity|]. split; [vm_compute; reflexivity|]. split; [reflexivity|].
  split; [|split; exact I]. constructor; [|constructor]. intros r. change (forallb no_beat (fst (sum_method r)) = true). unfold sum_method. destruct (rq_params r) as [| | | | |l|]; try reflexivity.
  destruct l as [|[k v] l]; [reflexivity|]. destruct v as [| | |[] | | |]; try reflexivity. destruct l as [|[k2 v2] l]; [reflexivity|].
  destruct v2 as [| | |[] | | |]; try reflexivity. destruct l; reflexivity.
Qed.
