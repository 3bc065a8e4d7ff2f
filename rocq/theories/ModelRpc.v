(** JSON-RPC requests, server and client: /repo/src/imtjson/rpc.cpp, rpc.h.
    Line numbers without a file are rpc.cpp.  One thread: the locks of the client
    are not modelled, callbacks run by a call are (see [rop]). *)
From Coq Require Import String Ascii.
From Verif Require Import Base ModelKeyed ModelValue ModelObject ModelArray ModelMerge ModelJwt.
Local Open Scope Z_scope.

(** A C string literal.
    The member names below stand at rpc.cpp 24-28, 80-83, 118-146, 184-216, 564-573, 621-626. *)
Definition txt (s : string) : bytes := List.map (fun c => Z.of_N (N_of_ascii c)) (list_ascii_of_string s).
Definition k_id : bytes := txt "id".
Definition k_method : bytes := txt "method".
Definition k_params : bytes := txt "params".
Definition k_context : bytes := txt "context".
Definition k_jsonrpc : bytes := txt "jsonrpc".
Definition k_result : bytes := txt "result".
Definition k_error : bytes := txt "error".
Definition v_two : value := VStr None (txt "2.0").

(** [Value::isNull]. value.h 615. *)
Definition is_null (v : value) : bool := match v with VNull => true | _ => false end.

(** *** Requests *)
(** rpc.h 255-266, [ParseRequest]. *)
Record preq := mkReq { rq_method : value; rq_params : value; rq_id : value; rq_context : value; rq_version : value }.
(** 22-31 *)
Definition parse_request (v : value) : preq :=
  mkReq (value_member v k_method) (value_member v k_params) (value_member v k_id)
        (value_member v k_context) (value_member v k_jsonrpc).

(** rpc.h 115-120 and rpc.cpp 833-836. *)
Inductive rpc_version := Ver1 | Ver2.
Definition req_version (r : preq) : rpc_version := if is_undef (rq_version r) then Ver1 else Ver2.

(** rpc.h 98-110 *)
Definition f_pre : Z := 1.
Definition f_post : Z := 2.
Definition f_named : Z := 4.
Definition has_flag (flags f : Z) : bool := negb (Z.land flags f =? 0).

(** 56-66: parameters other than an array (or, with [namedParams], an object)
    become an array of one item; undefined is skipped by the array constructor
    (value.cpp 378-388).  The key an item carries is not modelled. *)
Definition wrap_params (flags : Z) (p : value) : value :=
  match p with
  | VArr _ => p
  | VObj _ _ => if has_flag flags f_named then p else VArr [([], p)]
  | VUndef => VArr []
  | _ => VArr [([], p)]
  end.

(** 68-74, [defaultFormatError]. *)
Definition default_format_error (code : Z) (message : bytes) (data : value) : value :=
  VObj false (build_object is_undef
    [(txt "code", VNum (if code =? 0 then NUInt 0 else NInt code)); (txt "message", VStr None message); (txt "data", data)]).

(** 76-87, [formatNotify]. *)
Definition format_notify (ver : rpc_version) (name : bytes) (data context : value) : value :=
  sets_as_object
    match ver with
    | Ver1 => [(k_id, VNull); (k_method, VStr None name); (k_params, data); (k_context, context)]
    | Ver2 => [(k_method, VStr None name); (k_params, data); (k_jsonrpc, v_two); (k_context, context)]
    end.
(** 112-130: the message of a result; [Value::empty] of the context (113). *)
Definition result_message (ver : rpc_version) (id result context : value) : value :=
  let ctxch := if Nat.eqb (vsize context) 0 then VUndef else context in
  sets_as_object
    match ver with
    | Ver1 => [(k_id, id); (k_result, result); (k_error, VNull); (k_context, ctxch)]
    | Ver2 => [(k_id, id); (k_result, result); (k_jsonrpc, v_two); (k_context, ctxch)]
    end.
(** 131-148: the message of an error. *)
Definition error_message (ver : rpc_version) (id error : value) : value :=
  sets_as_object
    match ver with
    | Ver1 => [(k_id, id); (k_error, error); (k_result, VNull)]
    | Ver2 => [(k_id, id); (k_error, error); (k_jsonrpc, v_two)]
    end.

(** What the peer is given: a message through the function of rpc.h 627-647, or
    a call of one of the [Callbacks] (rpc.h 311-413). *)
Inductive event :=
| Message (v : value)
| OnResult (result context : value)
| OnError (error : value)
| OnNotify (name : bytes) (data context : value)
| OnHeartbeat.
(** How it ends.  [Callbacks] are noexcept: for them [Throws] counts as
    [Accepts false]. rpc.h 311. *)
Inductive answer := Accepts (b : bool) | Throws.
Inductive entry := Delivered (e : event) | Answered (a : answer).

(** rpc.h 213-234, [formatError] of the services; [None] is an exception. *)
Definition services := Z -> bytes -> value -> option value.

(** The two implementations of [RequestData]. rpc.h 271, 629. *)
Inductive rkind := ByFunction | ByCallbacks.

(** rpc.h 271-299.  [rs_log] is what the peer saw, in order. *)
Record rstate := mkRS {
  rs_kind : rkind;
  rs_req : preq;
  rs_svc : option services;
  rs_sent : bool;
  rs_errsent : bool;
  rs_notify : bool;
  rs_flags : Z;
  rs_log : list entry
}.
Definition set_svc (s : rstate) (v : option services) : rstate :=
  mkRS (rs_kind s) (rs_req s) v (rs_sent s) (rs_errsent s) (rs_notify s) (rs_flags s) (rs_log s).
Definition set_sent (s : rstate) (sent err : bool) : rstate :=
  mkRS (rs_kind s) (rs_req s) (rs_svc s) sent err (rs_notify s) (rs_flags s) (rs_log s).
Definition set_notify (s : rstate) (b : bool) : rstate :=
  mkRS (rs_kind s) (rs_req s) (rs_svc s) (rs_sent s) (rs_errsent s) b (rs_flags s) (rs_log s).
Definition set_params (s : rstate) (p : value) : rstate :=
  let r := rs_req s in
  mkRS (rs_kind s) (mkReq (rq_method r) p (rq_id r) (rq_context r) (rq_version r))
       (rs_svc s) (rs_sent s) (rs_errsent s) (rs_notify s) (rs_flags s) (rs_log s).
Definition add_log (s : rstate) (e : entry) : rstate :=
  mkRS (rs_kind s) (rs_req s) (rs_svc s) (rs_sent s) (rs_errsent s) (rs_notify s) (rs_flags s) (rs_log s ++ [e]).

(** 56-66, rpc.h 627-647; 839-877 with [RpcFlags::notify]. *)
Definition create (kind : rkind) (r : preq) (flags : Z) : rstate :=
  let flags := match kind with ByFunction => flags | ByCallbacks => 3 end in
  mkRS kind (mkReq (rq_method r) (wrap_params flags (rq_params r)) (rq_id r) (rq_context r) (rq_version r))
       None false false (has_flag flags f_pre) flags [].

(** Operations on a request.  Where the peer may be given something, [inner] is
    what the peer does with the same request before it returns, and [a] how it
    returns. *)
Inductive rop :=
| RInit (svc : services)
| RSetParams (v : value)
| RResult (result context : value) (inner : list rop) (a : answer)
| RError (error : value) (inner : list rop) (a : answer)
| RErrorCode (code : Z) (message : bytes) (data : value) (inner : list rop) (a : answer)
| RNoResult (inner : list rop) (a : answer)
| RNotify (name : bytes) (data : value) (inner : list rop) (a : answer)
| RHeartbeat (inner : list rop) (a : answer).

(** [id.defined() && !id.isNull()] (112, 131) *)
Definition has_id (r : preq) : bool := negb (is_undef (rq_id r)) && negb (is_null (rq_id r)).

(** 152-155 *)
Definition post_send (s : rstate) (b : bool) : rstate :=
  set_notify (set_sent s true (rs_errsent s)) (has_flag (rs_flags s) f_post && b).

(** Whether the peer took the message. *)
Definition accepted (a : answer) : bool := match a with Accepts b => b | Throws => false end.

Section Send.
(** The peer is given the event, acts and returns. *)
Variable deliver : rstate -> event -> rstate.
Variable a : answer.

(** 112-130 and 846-848.  The second component: an exception leaves. *)
Definition send_result (s : rstate) (result context : value) : rstate * bool :=
  let r := rs_req s in
  match rs_kind s with
  | ByFunction =>
    if has_id r && negb (rs_sent s) then
      let s1 := deliver s (Message (result_message (req_version r) (rq_id r) result context)) in
      match a with Accepts b => (post_send s1 b, false) | Throws => (s1, true) end
    else (s, false)
  | ByCallbacks => (post_send (deliver s (OnResult result context)) (accepted a), false)
  end.
(** 131-151 and 849-851 *)
Definition send_error (s : rstate) (error : value) : rstate * bool :=
  let r := rs_req s in
  match rs_kind s with
  | ByFunction =>
    if has_id r && negb (rs_sent s) then
      let s1 := deliver (set_sent s true true) (Message (error_message (req_version r) (rq_id r) error)) in
      match a with Accepts b => (post_send s1 b, false) | Throws => (s1, true) end
    else (s, false)
  | ByCallbacks => (post_send (deliver s (OnError error)) (accepted a), false)
  end.
(** 272-278; [formatError] may throw. *)
Definition send_error_code (s : rstate) (code : Z) (message : bytes) (data : value) : rstate * bool :=
  match rs_svc s with
  | None => send_error s (default_format_error code message data)
  | Some f => match f code message data with Some e => send_error s e | None => (s, true) end
  end.
(** 714-726; exceptions stay inside.  [errorMethodDidNotProduceResult]. *)
Definition send_no_result (s : rstate) : rstate * bool :=
  match rs_svc s with
  | None => (s, false)
  | Some f =>
    match f (-32099) (txt "The method did not produce a result") VUndef with
    | Some e => (fst (send_error s e), false)
    | None => (s, false)
    end
  end.
(** 157-163 (through 743-748: no context) and 852-854. *)
Definition send_notify (s : rstate) (name : bytes) (data : value) : rstate * bool :=
  match rs_kind s with
  | ByFunction =>
    if rs_notify s then
      let s1 := deliver s (Message (format_notify (req_version (rs_req s)) name data VUndef)) in
      match a with Accepts b => (set_notify s1 b, false) | Throws => (s1, true) end
    else (s, false)
  | ByCallbacks => (deliver s (OnNotify name data VUndef), false)
  end.
(** 750-756, 860-862: [hearthbeat] gives undefined to the function.  It is
    noexcept: a peer that throws ends the program; that is not modelled. *)
Definition send_heartbeat (s : rstate) : rstate * bool :=
  match rs_kind s with
  | ByFunction => (deliver s (Message VUndef), false)
  | ByCallbacks => (deliver s OnHeartbeat, false)
  end.
End Send.

(** Dispatch to the functions above. *)
Fixpoint rstep (s : rstate) (o : rop) {struct o} : rstate * bool :=
  let deliver inner a s e :=
    add_log (fold_left (fun t x => fst (rstep t x)) inner (add_log s (Delivered e))) (Answered a) in
  match o with
  | RInit svc => (set_svc s (Some svc), false)
  | RSetParams v => (set_params s v, false)
  | RResult result context inner a => send_result (deliver inner a) a s result context
  | RError error inner a => send_error (deliver inner a) a s error
  | RErrorCode code message data inner a => send_error_code (deliver inner a) a s code message data
  | RNoResult inner a => send_no_result (deliver inner a) a s
  | RNotify name data inner a => send_notify (deliver inner a) a s name data
  | RHeartbeat inner a => send_heartbeat (deliver inner a) s
  end.
(** Model only: operations one after another. *)
Definition rrun (s : rstate) (l : list rop) : rstate := fold_left (fun t x => fst (rstep t x)) l s.

(** rpc.h 637-641 and rpc.cpp 864-869: the last reference goes away. *)
Definition rdrop (s : rstate) (inner : list rop) (a : answer) : rstate :=
  if rs_sent s then s else fst (rstep s (RNoResult inner a)).

(** *** Server *)
(** How user code given a request ends: [Raises what], an exception, [what] the
    text of a [std::exception]. Model only. *)
Inductive ending {A} := Returns (x : A) | Raises (what : option bytes).
Arguments ending : clear implicits.
(** What a method does with the request before it returns. rpc.h 665, 827, 842. *)
Definition method := preq -> list rop * ending unit.
(** The proxy and the exception handler return a flag. rpc.h 818-819. *)
Definition hook := preq -> list rop * ending bool.

(** rpc.h 825-855, 320-333: [unordered_map::insert] keeps a method of the same
    name. *)
Definition reg_find (reg : list (bytes * method)) (name : bytes) : option method :=
  match find (fun m => beqb (fst m) name) reg with Some m => Some (snd m) | None => None end.
Definition reg_add (reg : list (bytes * method)) (name : bytes) (m : method) : list (bytes * method) :=
  match reg_find reg name with Some _ => reg | None => (name, m) :: reg end.
Definition reg_remove (reg : list (bytes * method)) (name : bytes) : list (bytes * method) :=
  filter (fun m => negb (beqb (fst m) name)) reg.

(** rpc.h 814-819: the fields of the server. *)
Record server := mkSV {
  sv_reg : list (bytes * method);
  sv_proxy : option hook;
  sv_handler : option hook;
  sv_format : services
}.

(** 736-739, [setInternalError]. *)
Definition internal_error (what : option bytes) (inner : list rop) (a : answer) : rop :=
  RErrorCode (-32603) (txt "Internal error") (match what with Some w => VStr None w | None => VUndef end) inner a.

(** How the peer takes the error message of the server, if one is sent. *)
Definition reaction := (list rop * answer)%type.

(** 284-302: the [try] block; [Raises] leaves it.  An exception of [setError]
    has no known text. *)
Definition exec_try (sv : server) (p : reaction) (s : rstate) : rstate * ending unit :=
  let s := fst (rstep s (RInit (sv_format sv))) in
  let r := rs_req s in
  let set_error code message data :=
    fun t => let '(t', thrown) := rstep t (RErrorCode code message data (fst p) (snd p)) in
             (t', if thrown : bool then Raises None else Returns tt) in
  let valid :=
    match rq_method r with VStr _ _ => true | _ => false end &&
    match rq_params r with VArr _ | VObj _ _ | VUndef => true | _ => false end &&
    match rq_context r with VUndef | VObj _ _ => true | _ => false end in
  if valid then
    match reg_find (sv_reg sv) (get_string (rq_method r)) with
    | Some m => let '(l, e) := m r in (rrun s l, e)
    | None =>
      let not_found := set_error (-32601) (txt "Method not found") (rq_method r) in
      match sv_proxy sv with
      | None => not_found s
      | Some h =>
        let '(l, e) := h r in
        match e with
        | Returns true => (rrun s l, Returns tt)
        | Returns false => not_found (rrun s l)
        | Raises w => (rrun s l, Raises w)
        end
      end
    end
  else set_error (-32600) (txt "Invalid request") VUndef s.
(** 303-317; [ph] and [pi] are for the messages of the two [setInternalError]
    calls.  [None]: an exception leaves a handler inside a noexcept function. *)
Definition exec (sv : server) (p ph pi : reaction) (s : rstate) : option rstate :=
  let '(s1, e) := exec_try sv p s in
  match e with
  | Returns _ => Some s1
  | Raises what =>
    let again t := let '(t', thrown) := rstep t (internal_error what (fst pi) (snd pi)) in if thrown : bool then None else Some t' in
    let first t := let '(t', thrown) := rstep t (internal_error what (fst ph) (snd ph)) in if thrown : bool then again t' else Some t' in
    match sv_handler sv with
    | None => first s1
    | Some h =>
      let '(l, e2) := h (rs_req s1) in
      match e2 with
      | Returns true => Some (rrun s1 l)
      | Returns false => first (rrun s1 l)
      | Raises _ => again (rrun s1 l)
      end
    end
  end.

(** *** Client *)
(** rpc.h 26-64; the default constructor is an error without content. *)
Record rpc_result := mkRR { rr_value : value; rr_error : bool; rr_context : value }.
Definition empty_result : rpc_result := mkRR VUndef true VUndef.

(** rpc.h 872-882 *)
Inductive receive_status := Success | Request | Notification | Unexpected.

(** 694-701 *)
Definition update_context (context v : value) : value :=
  snd (obj_commit (fold_left
    (fun o m => if is_null (snd m) then obj_unset o (fst m) else obj_set o m)
    (members_of v) (obj_new context))).

Section Client.
(** Keys of [std::unordered_map<Value, _>] match: equal hash and [==]
    (libstdc++ keeps the hash codes as [std::hash<Value>] may throw). *)
Variable same : value -> value -> bool.

(** rpc.h 995-1042.  A pending call is known by the number of its registration;
    [None] is a null pointer.  [cl_done]: the calls that ended, with the result
    given to them (rpc.h 1092-1108: the function is called when the object of
    the pending call is deleted, with the last result stored or an empty one).
    The order of the map is the order of insertion. *)
Record client := mkCl {
  cl_context : value;
  cl_calls : list (value * option nat);
  cl_counter : Z;
  cl_next : nat;
  cl_done : list (nat * rpc_result)
}.
Definition client_new : client := mkCl VUndef [] 0 0 [].
Definition set_calls (c : client) (l : list (value * option nat)) : client :=
  mkCl (cl_context c) l (cl_counter c) (cl_next c) (cl_done c).
Definition set_context (c : client) (v : value) : client :=
  mkCl v (cl_calls c) (cl_counter c) (cl_next c) (cl_done c).
Definition finish (c : client) (h : nat) (r : rpc_result) : client :=
  mkCl (cl_context c) (cl_calls c) (cl_counter c) (cl_next c) (cl_done c ++ [(h, r)]).

(** 819-823: an unsigned int. *)
Definition gen_id (c : client) : client * value :=
  let n := (cl_counter c + 1) mod 2 ^ 32 in
  (mkCl (cl_context c) (cl_calls c) n (cl_next c) (cl_done c), VNum (NUInt n)).
(** 559-576: the message; 552-557 generates an identifier, then another. *)
Definition call_message (ver : rpc_version) (id : value) (name : bytes) (args context : value) : value :=
  sets_as_object
    match ver with
    | Ver1 => [(k_method, VStr None name); (k_params, args); (k_id, id); (k_context, context)]
    | Ver2 => [(k_method, VStr None name); (k_params, args); (k_id, id); (k_jsonrpc, v_two); (k_context, context)]
    end.
Definition prepare (c : client) (ver : rpc_version) (name : bytes) (args context : value) : client * value * value :=
  let '(c1, id) := gen_id c in (c1, id, call_message ver id name args context).
Definition prepare_default (c : client) (ver : rpc_version) (name : bytes) (args : value) : client * value * value :=
  let '(c1, _) := gen_id c in
  prepare c1 ver name args (if Nat.eqb (vsize (cl_context c1)) 0 then VUndef else cl_context c1).

(** [callMap.find] and [erase]: the matching entry and the others. rpc.cpp 584-587, 634-639, 704. *)
Fixpoint take_call (l : list (value * option nat)) (id : value) : option (option nat * list (value * option nat)) :=
  match l with
  | [] => None
  | e :: l' =>
    if same (fst e) id then Some (snd e, l')
    else match take_call l' id with Some (h, r) => Some (h, e :: r) | None => None end
  end.
Definition emplace (l : list (value * option nat)) (id : value) (h : option nat) : option (list (value * option nat)) :=
  match take_call l id with Some _ => None | None => Some (l ++ [(id, h)]) end.

(** 703-705 with the pending call just made: a call whose identifier is taken
    ends at once. *)
Definition add_pending (c : client) (id : value) : client :=
  let c1 := mkCl (cl_context c) (cl_calls c) (cl_counter c) (S (cl_next c)) (cl_done c) in
  match emplace (cl_calls c) id (Some (cl_next c)) with
  | Some l => set_calls c1 l
  | None => finish c1 (cl_next c) empty_result
  end.

(** 582-591.  [None] is a null dereference; otherwise the flag returned. *)
Definition cancel_pending (c : client) (id : value) (r : rpc_result) : option (client * bool) :=
  match take_call (cl_calls c) id with
  | None => Some (c, false)
  | Some (None, _) => None
  | Some (Some h, l) => Some (finish (set_calls c l) h r, true)
  end.
(** 593-601 *)
Fixpoint cancel_list (c : client) (ids : list value) (r : rpc_result) : option client :=
  match ids with
  | [] => Some c
  | id :: ids' => match cancel_pending c id r with Some (c1, _) => cancel_list c1 ids' r | None => None end
  end.
Definition cancel_all (c : client) (r : rpc_result) : option client := cancel_list c (map fst (cl_calls c)) r.

(** 603-618: the entries named by [ids] move to a new map, the pointers left
    behind are null; the others are given to the caller. *)
Fixpoint null_call (l : list (value * option nat)) (id : value) : list (value * option nat) :=
  match l with
  | [] => []
  | e :: l' => if same (fst e) id then (fst e, None) :: l' else e :: null_call l' id
  end.
Fixpoint filter_loop (old new : list (value * option nat)) (ids : list value) : list (value * option nat) * list (value * option nat) :=
  match ids with
  | [] => (old, new)
  | x :: ids' =>
    match take_call old x with
    | None => filter_loop old new ids'
    | Some (h, _) =>
      filter_loop (null_call old x)
        (match emplace new x h with Some new' => new' | None => new end) ids'
    end
  end.
Fixpoint given_out (l : list (value * option nat)) : list nat :=
  match l with
  | [] => []
  | (_, Some h) :: l' => h :: given_out l'
  | (_, None) :: l' => given_out l'
  end.
Definition filter_pending (c : client) (ids : list value) : client * list nat :=
  let '(old, new) := filter_loop (cl_calls c) [] ids in (set_calls c new, given_out old).

(** 623-633, 659-668: what a response carries, if it is one. *)
Definition response_result (v : value) : option rpc_result :=
  let result := value_member v k_result in
  let error := value_member v k_error in
  let ctx := value_member v k_context in
  if negb (is_undef result) || negb (is_undef error) then
    Some (if negb (is_undef result) && (is_undef error || is_null error)
          then mkRR result false ctx else mkRR error true ctx)
  else None.
(** 656-677 (620-654 the same, the call being handed to the caller). *)
Definition process_response (c : client) (v : value) : option (client * receive_status) :=
  let id := value_member v k_id in
  if negb (is_undef id) && negb (is_null id) then
    match response_result v with
    | Some r =>
      let c1 := set_context c (update_context (cl_context c) (value_member v k_context)) in
      match cancel_pending c1 id r with
      | Some (c2, true) => Some (c2, Success)
      | Some (c2, false) => Some (c2, Unexpected)
      | None => None
      end
    | None => Some (c, Request)
    end
  else Some (c, Notification).

(** Histories of a client.  [CFilter]: the caller gives [r] to every call it is
    handed.  A function called at the end of a call may use the client again:
    the call is already out of the map, so that is a longer history, except
    inside [cancelAllPendingCalls], which is then a series of [CCancel] with
    other operations in between. The functions of rpc.cpp 528-705. *)
Inductive cop :=
| CPrepare
| CPrepareDefault
| CSend (id : value)
| CCancel (id : value) (r : rpc_result)
| CCancelAll (r : rpc_result)
| CFilter (ids : list value) (r : rpc_result)
| CResponse (v : value)
| CSetContext (v : value)
| CUpdateContext (v : value).
Definition cstep (c : client) (o : cop) : option client :=
  match o with
  | CPrepare => Some (fst (gen_id c))
  | CPrepareDefault => Some (fst (gen_id (fst (gen_id c))))
  | CSend id => Some (add_pending c id)
  | CCancel id r => option_map fst (cancel_pending c id r)
  | CCancelAll r => cancel_all c r
  | CFilter ids r => let '(c1, out) := filter_pending c ids in Some (fold_left (fun d h => finish d h r) out c1)
  | CResponse v => option_map fst (process_response c v)
  | CSetContext v => Some (set_context c v)
  | CUpdateContext v => Some (set_context c (update_context (cl_context c) v))
  end.
Fixpoint crun (c : client) (l : list cop) : option client :=
  match l with
  | [] => Some c
  | o :: l' => match cstep c o with Some c1 => crun c1 l' | None => None end
  end.
End Client.
