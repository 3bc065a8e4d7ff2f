(** C39, C40, C58: answering JSON-RPC requests. *)
From Coq Require Import String.
From Verif Require Import Base ModelKeyed ModelValue ModelObject ModelJwt ModelRpc SpecRpc ProofRpc ProofRpc2.
Local Open Scope list_scope.
Local Open Scope nat_scope.

(** *** C39 *)
(** Whatever is done with the request, the peer is given at most one response,
    as long as it neither answers nor throws while it is given a result. *)
Theorem C39_at_most_one : forall r flags ops inner a, forallb calm ops = true -> forallb calm inner = true ->
  responses (rs_log (rdrop (rrun (create ByFunction r flags) ops) inner a)) <= 1.
Proof. exact at_most_one. Qed.
Print Assumptions C39_at_most_one.

(** Without an identifier, none. *)
Theorem C39_notification_silent : forall r flags ops inner a, has_id r = false ->
  responses (rs_log (rdrop (rrun (create ByFunction r flags) ops) inner a)) = 0.
Proof. exact notification_silent. Qed.
Print Assumptions C39_notification_silent.

(** Once answered, no other response, whatever the peer does. *)
Theorem C39_final : forall s ops inner a, rs_kind s = ByFunction -> rs_sent s = true ->
  responses (rs_log (rdrop (rrun s ops) inner a)) = responses (rs_log s).
Proof. exact sent_is_final. Qed.
Print Assumptions C39_final.

(** Every response carries the identifier of the request. *)
Theorem C39_identifier : forall kind r flags ops inner a v,
  In (Delivered (Message v)) (rs_log (rdrop (rrun (create kind r flags) ops) inner a)) ->
  is_response v = true -> value_member v k_id = rq_id r.
Proof. exact response_ids. Qed.
Print Assumptions C39_identifier.

(** A request given to a server is answered exactly once, whatever the methods
    do with it, at once or later, until it is dropped. *)
Theorem C39_server_answers : forall sv p ph pi r flags later inner a s,
  has_id r = true -> no_result_formats (sv_format sv) ->
  server_ok calm sv -> forallb calm (fst p) = true -> forallb calm (fst ph) = true -> forallb calm (fst pi) = true ->
  server_ok no_init sv -> forallb no_init (fst p) = true -> forallb no_init (fst ph) = true -> forallb no_init (fst pi) = true ->
  forallb calm later = true -> forallb no_init later = true -> forallb calm inner = true ->
  exec sv p ph pi (create ByFunction r flags) = Some s ->
  responses (rs_log (rdrop (rrun s later) inner a)) = 1.
Proof. exact exec_one. Qed.
Print Assumptions C39_server_answers.

(** The response of a request dropped unanswered is the error of the server. *)
Theorem C39_dropped : forall s f e inner a, rs_kind s = ByFunction -> has_id (rs_req s) = true ->
  rs_sent s = false -> rs_svc s = Some f ->
  f (-32099)%Z (txt "The method did not produce a result") VUndef = Some e ->
  exists rest, rs_log (rdrop s inner a) =
      rs_log s ++ Delivered (Message (error_message (req_version (rs_req s)) (rq_id (rs_req s)) e)) :: rest /\
    responses rest = 0 /\ rs_sent (rdrop s inner a) = true.
Proof. exact drop_error. Qed.
Print Assumptions C39_dropped.

Definition ex_req : preq := mkReq (VStr None (txt "sum")) (VArr [([], VNum (NUInt 1)); ([], VNum (NUInt 2))]) (VNum (NUInt 7)) VUndef v_two.
Definition ok : answer := Accepts true.

(** The conditions on the peer are needed: a peer that answers while it is given
    the result, and one that throws while it is given the result.  A request
    built from callbacks calls them every time. *)
Theorem C39_reentrant_refuted : exists r flags ops, responses (rs_log (rrun (create ByFunction r flags) ops)) = 2.
Proof.
  exists ex_req, 0%Z, [RResult VNull VUndef [RError (VStr None (txt "no")) [] ok] ok]. vm_compute. reflexivity.
Qed.
Print Assumptions C39_reentrant_refuted.
Theorem C39_throwing_refuted : exists r flags ops, forallb flat ops = true /\ responses (rs_log (rrun (create ByFunction r flags) ops)) = 2.
Proof.
  exists ex_req, 0%Z, [RResult VNull VUndef [] Throws; RError (VStr None (txt "no")) [] ok]. vm_compute. split; reflexivity.
Qed.
Print Assumptions C39_throwing_refuted.
Theorem C39_callbacks_refuted : exists r ops, rs_log (rrun (create ByCallbacks r 0) ops) =
  [Delivered (OnResult VNull VUndef); Answered ok; Delivered (OnError VNull); Answered ok].
Proof. exists ex_req, [RResult VNull VUndef [] ok; RError VNull [] ok]. vm_compute. reflexivity. Qed.
Print Assumptions C39_callbacks_refuted.

Definition sum_method : method := fun r =>
  match rq_params r with
  | VArr [(_, VNum (NUInt a)); (_, VNum (NUInt b))] => ([RNotify (txt "working") VNull [] ok; RResult (VNum (NUInt (a + b))) VUndef [] ok], Returns tt)
  | VArr [] => ([], Returns tt)
  | _ => ([], Raises (Some (txt "bad")))
  end.
Definition ex_server : server := mkSV [(txt "sum", sum_method)] None None (fun c m d => Some (default_format_error c m d)).
Definition nothing : reaction := ([], ok).
Example C39_case :
  option_map (fun s => rs_log (rdrop s [] ok)) (exec ex_server nothing nothing nothing (create ByFunction ex_req f_pre)) =
    Some [Delivered (Message (VObj false [(k_jsonrpc, v_two); (k_method, VStr None (txt "working")); (k_params, VNull)])); Answered ok;
          Delivered (Message (VObj false [(k_id, VNum (NUInt 7)); (k_jsonrpc, v_two); (k_result, VNum (NUInt 3))])); Answered ok] /\
  option_map (fun s => rs_log (rdrop s [] ok)) (exec ex_server nothing nothing nothing
      (create ByFunction (mkReq (VStr None (txt "sum")) VUndef (VNum (NUInt 7)) VUndef VUndef) 0)) =
    Some [Delivered (Message (VObj false [(k_error, VObj false [(txt "code", VNum (NInt (-32099)));
        (txt "message", VStr None (txt "The method did not produce a result"))]); (k_id, VNum (NUInt 7)); (k_result, VNull)])); Answered ok] /\
  server_ok calm ex_server /\ server_ok no_init ex_server /\ no_result_formats (sv_format ex_server) /\ has_id ex_req = true.
Proof.
  assert (A : forall P : rop -> bool, P (RNotify (txt "working") VNull [] ok) = true -> (forall n, P (RResult (VNum (NUInt n)) VUndef [] ok) = true) ->
    forall r, forallb P (fst (sum_method r)) = true).
  { intros P H1 H2 r. unfold sum_method. destruct (rq_params r) as [| | | | |l|]; try reflexivity.
    destruct l as [|[k v] l]; [reflexivity|]. destruct v as [| | |[] | | |]; try reflexivity. destruct l as [|[k2 v2] l]; [reflexivity|].
    destruct v2 as [| | |[] | | |]; try reflexivity. destruct l; [|reflexivity]. cbn [fst forallb]. rewrite H1, H2. reflexivity. }
  split; [vm_compute; reflexivity|]. split; [vm_compute; reflexivity|].
  split; [|split; [|split; [eexists; reflexivity|reflexivity]]].
  - split; [|split; exact I]. constructor; [|constructor]. intros r. apply A; reflexivity.
  - split; [|split; exact I]. constructor; [|constructor]. intros r. apply A; reflexivity.
Qed.

(** *** C40 *)
(** The peer is given notifications only while they are enabled, and then always. *)
Theorem C40_only_enabled : forall r flags ops, forallb flat ops = true ->
  exists ps, rs_log (rrun (create ByFunction r flags) ops) = exchanges ps /\
    (forall ps1 v a ps2, ps = ps1 ++ (v, a) :: ps2 -> is_notification v = true -> may_notify flags ps1 = true) /\
    forall name data a, exists v, is_notification v = true /\ value_member v k_method = VStr None name /\ value_member v k_params = data /\
      rs_log (fst (rstep (rrun (create ByFunction r flags) ops) (RNotify name data [] a))) =
      exchanges (if may_notify flags ps then ps ++ [(v, a)] else ps).
Proof. exact notify_when_allowed. Qed.
Print Assumptions C40_only_enabled.

(** Between a refused notification and the next one, a response was accepted. *)
Theorem C40_refused : forall r flags ops ps ps1 ps2 ps3 n n' a, forallb flat ops = true ->
  rs_log (rrun (create ByFunction r flags) ops) = exchanges ps ->
  ps = ps1 ++ (n, Accepts false) :: ps2 ++ (n', a) :: ps3 -> is_notification n = true -> is_response n = false -> is_notification n' = true ->
  Z.testbit flags 1 = true /\ exists v, In (v, Accepts true) ps2 /\ is_response v = true.
Proof. exact refused_stays. Qed.
Print Assumptions C40_refused.

Theorem C40_before_response : forall r flags ops ps ps1 ps2 n a, forallb flat ops = true -> Z.testbit flags 0 = false ->
  rs_log (rrun (create ByFunction r flags) ops) = exchanges ps -> ps = ps1 ++ (n, a) :: ps2 -> is_notification n = true ->
  Z.testbit flags 1 = true /\ exists v, In (v, Accepts true) ps1 /\ is_response v = true.
Proof. exact no_pre_flag. Qed.
Print Assumptions C40_before_response.

Definition ex_note (n : string) : value := VObj false [(k_jsonrpc, v_two); (k_method, VStr None (txt n)); (k_params, VNull)].
Definition ex_response : value := VObj false [(k_id, VNum (NUInt 7)); (k_jsonrpc, v_two); (k_result, VNull)].
(** A refusal does not last for ever: an accepted response enables notifications
    again.  Callbacks are given notifications in any case. *)
Theorem C40_refused_for_ever_refuted : exists r flags ops, forallb flat ops = true /\
  rs_log (rrun (create ByFunction r flags) ops) =
    exchanges [(ex_note "a", Accepts false); (ex_response, Accepts true); (ex_note "c", Accepts true)].
Proof.
  exists ex_req, 3%Z, [RNotify (txt "a") VNull [] (Accepts false); RNotify (txt "b") VNull [] ok; RResult VNull VUndef [] ok; RNotify (txt "c") VNull [] ok].
  vm_compute. split; reflexivity.
Qed.
Print Assumptions C40_refused_for_ever_refuted.
Theorem C40_callbacks_refuted : exists r ops, rs_log (rrun (create ByCallbacks r 0) ops) =
  [Delivered (OnNotify (txt "a") VNull VUndef); Answered (Accepts false); Delivered (OnNotify (txt "b") VNull VUndef); Answered ok].
Proof. exists ex_req, [RNotify (txt "a") VNull [] (Accepts false); RNotify (txt "b") VNull [] ok]. vm_compute. reflexivity. Qed.
Print Assumptions C40_callbacks_refuted.

Example C40_case :
  rs_log (rrun (create ByFunction ex_req 1) [RNotify (txt "a") VNull [] ok; RNotify (txt "b") VNull [] (Accepts false); RNotify (txt "c") VNull [] ok;
    RResult VNull VUndef [] ok; RNotify (txt "d") VNull [] ok]) =
  exchanges [(ex_note "a", ok); (ex_note "b", Accepts false); (ex_response, ok)] /\
  may_notify 2 [(ex_response, ok)] = true /\ may_notify 1 [(ex_response, ok)] = false /\ may_notify 3 [(ex_response, Accepts false)] = false.
Proof. vm_compute. repeat split. Qed.

(** *** C58 *)
(** The method in use is the first one registered since the name was last
    removed. *)
Theorem C58_registry : forall l name m, reg_find (reg_run l) name = Some m <->
  exists l1 l2, l = l1 ++ GAdd name m :: l2 /\ reg_find (reg_run l1) name = None /\ Forall (fun o => ~ removes name o) l2.
Proof. exact registry. Qed.
Print Assumptions C58_registry.

(** It is called with the request. *)
Theorem C58_method : forall sv p ph pi kind r flags m l, valid_request r ->
  reg_find (sv_reg sv) (get_string (rq_method r)) = Some m ->
  m (rs_req (create kind r flags)) = (l, Returns tt) ->
  exec sv p ph pi (create kind r flags) = Some (rrun (create kind r flags) (RInit (sv_format sv) :: l)).
Proof. exact exec_method. Qed.
Print Assumptions C58_method.

(** Otherwise the request is answered with an error: no such method, not a
    request, or the method has thrown without answering. *)
Theorem C58_unknown : forall sv ph pi r flags e b, valid_request r -> has_id r = true ->
  reg_find (sv_reg sv) (get_string (rq_method r)) = None -> sv_proxy sv = None ->
  sv_format sv (-32601)%Z (txt "Method not found") (rq_method r) = Some e ->
  exists s, exec sv ([], Accepts b) ph pi (create ByFunction r flags) = Some s /\ rs_sent s = true /\
    rs_log s = exchanges [(error_message (req_version r) (rq_id r) e, Accepts b)].
Proof. exact exec_unknown. Qed.
Print Assumptions C58_unknown.
Theorem C58_invalid : forall sv ph pi r flags e b, ~ valid_request r -> has_id r = true ->
  sv_format sv (-32600)%Z (txt "Invalid request") VUndef = Some e ->
  exists s, exec sv ([], Accepts b) ph pi (create ByFunction r flags) = Some s /\ rs_sent s = true /\
    rs_log s = exchanges [(error_message (req_version r) (rq_id r) e, Accepts b)].
Proof. exact exec_invalid. Qed.
Print Assumptions C58_invalid.
Theorem C58_raises : forall sv p pi r flags m l what e b, valid_request r -> has_id r = true ->
  reg_find (sv_reg sv) (get_string (rq_method r)) = Some m -> sv_handler sv = None ->
  m (rs_req (create ByFunction r flags)) = (l, Raises what) -> forallb no_init l = true ->
  sv_format sv (-32603)%Z (txt "Internal error") (match what with Some w => VStr None w | None => VUndef end) = Some e ->
  let t := rrun (create ByFunction r flags) (RInit (sv_format sv) :: l) in
  exists s, exec sv p ([], Accepts b) pi (create ByFunction r flags) = Some s /\
    if rs_sent t then s = t
    else rs_sent s = true /\ rs_log s = rs_log t ++ exchanges [(error_message (req_version r) (rq_id r) e, Accepts b)].
Proof. exact exec_raises. Qed.
Print Assumptions C58_raises.

(** The method sees the parameters as an array: an array as it is, nothing as the
    empty array, anything else as the only item; an object stays an object if
    named parameters are enabled. *)
Theorem C58_params : forall r flags,
  let p := rq_params r in let q := rq_params (rs_req (create ByFunction r flags)) in
  (forall l, p = VArr l -> q = VArr l) /\
  (p = VUndef -> q = VArr []) /\
  (forall d l, p = VObj d l -> q = if Z.testbit flags 2 then p else VArr [([], p)]) /\
  (p <> VUndef -> (forall l, p <> VArr l) -> (forall d l, p <> VObj d l) -> q = VArr [([], p)]).
Proof. exact params_seen. Qed.
Print Assumptions C58_params.

Example C58_case :
  reg_find (reg_run [GAdd (txt "f") (fun _ => ([], Returns tt)); GAdd (txt "g") sum_method; GRemove (txt "f"); GAdd (txt "f") sum_method;
    GAdd (txt "f") (fun _ => ([], Returns tt))]) (txt "f") = Some sum_method /\
  valid_request ex_req /\ ~ valid_request (mkReq VNull VUndef (VNum (NUInt 7)) VUndef v_two) /\
  option_map rs_log (exec ex_server nothing nothing nothing (create ByFunction (mkReq (VStr None (txt "div")) VUndef (VNum (NUInt 7)) VUndef v_two) 0)) =
    Some (exchanges [(VObj false [(k_error, VObj false [(txt "code", VNum (NInt (-32601))); (txt "data", VStr None (txt "div"));
        (txt "message", VStr None (txt "Method not found"))]); (k_id, VNum (NUInt 7)); (k_jsonrpc, v_two)], ok)]) /\
  option_map rs_log (exec ex_server nothing nothing nothing (create ByFunction (mkReq (VStr None (txt "sum")) VNull (VNum (NUInt 7)) VUndef v_two) 0)) =
    Some (exchanges [(VObj false [(k_error, VObj false [(txt "code", VNum (NInt (-32603))); (txt "data", VStr None (txt "bad"));
        (txt "message", VStr None (txt "Internal error"))]); (k_id, VNum (NUInt 7)); (k_jsonrpc, v_two)], ok)]).
Proof.
  split; [reflexivity|]. split; [split; [exists None, (txt "sum"); reflexivity|left; reflexivity]|].
  split; [intros ((e & s & H) & _); discriminate|]. vm_compute. split; reflexivity.
Qed.
