(** C132: the messages of JSON-RPC. *)
From Coq Require Import String.
From Verif Require Import Base ModelKeyed SpecKeyed ModelValue ModelObject ModelJwt ModelRpc SpecRpc SpecMessage ProofMessage PropRpc.
Local Open Scope list_scope.
Local Open Scope Z_scope.

(** Whatever is done with a request, by a server and its methods, later and by the
    peer meanwhile, what is sent is the sign of life (undefined), a notification, a
    result or an error of the version of the request, the latter two only with an
    identifier. *)
Theorem C132_sent : forall sv p ph pi kind r flags s later inner a v, exec sv p ph pi (create kind r flags) = Some s ->
  In (Delivered (Message v)) (rs_log (rdrop (rrun s later) inner a)) -> on_wire r v.
Proof. exact wire_server. Qed.
Print Assumptions C132_sent.

Theorem C132_sent_anyhow : forall kind r flags ops inner a v,
  In (Delivered (Message v)) (rs_log (rdrop (rrun (create kind r flags) ops) inner a)) -> on_wire r v.
Proof. exact wire_all. Qed.
Print Assumptions C132_sent_anyhow.

(** No message has both a result and an error, but for version 1, and then one of
    them is null. *)
Theorem C132_not_both : forall kind r flags ops inner a d m x y,
  In (Delivered (Message (VObj d m))) (rs_log (rdrop (rrun (create kind r flags) ops) inner a)) ->
  In (txt "result", x) m -> In (txt "error", y) m -> rq_version r = VUndef /\ (x = VNull \/ y = VNull).
Proof. exact wire_not_both. Qed.
Print Assumptions C132_not_both.

(** The members of each message. *)
Theorem C132_result : forall ver id r c, result_form ver id r (sent_context c) (result_message ver id r c).
Proof. exact wire_result. Qed.
Print Assumptions C132_result.
Theorem C132_error : forall ver id e, error_form ver id e (error_message ver id e).
Proof. exact wire_error. Qed.
Print Assumptions C132_error.
Theorem C132_notify : forall ver name d c, notify_form ver name d c (format_notify ver name d c).
Proof. exact wire_notify. Qed.
Print Assumptions C132_notify.
Theorem C132_call : forall ver id name d c, call_form ver id name d c (call_message ver id name d c).
Proof. exact wire_call. Qed.
Print Assumptions C132_call.
Theorem C132_error_object : forall code message data,
  made_of (default_format_error code message data)
    [("code"%string, VNum (if code =? 0 then NUInt 0 else NInt code)); ("message"%string, VStr None message); ("data"%string, data)].
Proof. exact wire_error_object. Qed.
Print Assumptions C132_error_object.

(** The handler of exceptions is given the request with the parameters the method
    has set last. *)
Theorem C132_handler : forall sv p ph pi kind r flags m h l what l2, valid_request r ->
  reg_find (sv_reg sv) (get_string (rq_method r)) = Some m -> sv_handler sv = Some h ->
  m (rs_req (create kind r flags)) = (l, Raises what) -> forallb flat l = true ->
  h (mkReq (rq_method r) (set_last (rq_params (rs_req (create kind r flags))) l) (rq_id r) (rq_context r) (rq_version r)) = (l2, Returns true) ->
  exec sv p ph pi (create kind r flags) = Some (rrun (create kind r flags) (RInit (sv_format sv) :: l ++ l2)).
Proof. exact handler_params. Qed.
Print Assumptions C132_handler.

(** *** Examples *)
(** A method that notifies, changes the parameters and throws; the handler sends
    the parameters back. *)
Definition wire_server_ex : server :=
  mkSV [(txt "sum", fun _ => ([RNotify (txt "busy") VNull [] ok; RSetParams (VBool true)], Raises None))] None
       (Some (fun r => ([RResult (rq_params r) (VObj false [(txt "u", VNull)]) [] ok], Returns true))) (sv_format ex_server).
Definition wire_req : preq := mkReq (VStr None (txt "sum")) (VArr []) (VStr None (txt "x")) VUndef VNull.
Example C132_case :
  option_map (fun s => rs_log (rdrop s [] ok)) (exec wire_server_ex ([], ok) ([], ok) ([], ok) (create ByFunction wire_req f_pre)) =
  Some [Delivered (Message (VObj false [(txt "jsonrpc", VStr None (txt "2.0")); (txt "method", VStr None (txt "busy")); (txt "params", VNull)])); Answered ok;
        Delivered (Message (VObj false [(txt "context", VObj false [(txt "u", VNull)]); (txt "id", VStr None (txt "x")); (txt "jsonrpc", VStr None (txt "2.0")); (txt "result", VBool true)])); Answered ok].
Proof. vm_compute. reflexivity. Qed.
Example C132_handler_case : valid_request wire_req /\
  (exists m h, reg_find (sv_reg wire_server_ex) (get_string (rq_method wire_req)) = Some m /\ sv_handler wire_server_ex = Some h /\
    m (rs_req (create ByFunction wire_req f_pre)) = ([RNotify (txt "busy") VNull [] ok; RSetParams (VBool true)], Raises None) /\
    h (mkReq (rq_method wire_req) (VBool true) (rq_id wire_req) (rq_context wire_req) (rq_version wire_req)) =
      ([RResult (VBool true) (VObj false [(txt "u", VNull)]) [] ok], Returns true)) /\
  set_last (VArr []) [RNotify (txt "busy") VNull [] ok; RSetParams (VBool true)] = VBool true.
Proof.
  split; [split; [eexists; eexists; reflexivity|left; reflexivity]|]. split; [|reflexivity].
  eexists. eexists. split; [reflexivity|]. split; [reflexivity|]. split; reflexivity.
Qed.
(** Version 1: both members, one of them null. *)
Definition old_req : preq := mkReq (VStr None (txt "sum")) (VArr []) (VNum (NUInt 4)) VUndef VUndef.
Example C132_both_case : exists d m, In (Delivered (Message (VObj d m))) (rs_log (rdrop (rrun (create ByFunction old_req 0) [RError (VBool false) [] ok]) [] ok)) /\
  In (txt "result", VNull) m /\ In (txt "error", VBool false) m.
Proof. eexists. eexists. split; [vm_compute; left; reflexivity|]. split; vm_compute; tauto. Qed.
