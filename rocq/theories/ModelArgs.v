(** Checking the arguments of a request, and the methods [ping] and [help]:
    /repo/src/imtjson/rpc.cpp, validator.cpp. *)
From Coq Require Import String.
From Verif Require Import Base ModelKeyed ModelValue ModelObject ModelArray ModelJwt ModelPath ModelRpc ModelValidator.
Local Open Scope Z_scope.
Local Open Scope list_scope.

(** rpc.cpp 229-232, [RpcArgValidator::checkArgs]: [evalRuleArray] (validator.cpp
    488-500) at the root, one rule for each position, counted from the first.
    The number of rules is taken below 2^32. *)
Definition check_tuple (V : venv) (ev : path -> member -> value -> vst -> vout) (params : value) (rules : list member)
  (s : vst) : vout :=
  match params with
  | VArr l =>
    vbind (tuple_items ev [] params rules (Z.of_nat (List.length rules)) 0 s) (fun b s =>
      if b then rest_items V ev [] (skipn (List.length rules) l) (VArr rules) (Z.of_nat (List.length rules)) (List.length rules) s
      else VDone false s)
  | _ => VDone false s
  end.
(** 251-257 and 477-481, [RpcRequest::checkArgs] through
    [RpcServer::validateArgs], with a new validator each time; [v_def] is
    [customRules].  A pattern other than an array is put in one, where undefined
    is skipped.  The state holds the rejections, kept in the request only when
    the verdict is false.  A request not given to a server has no [srvsvc]: not
    modelled. *)
Definition arg_rules (pattern : value) : list member :=
  match pattern with VArr l => l | VUndef => [] | _ => [([], pattern)] end.
Definition check_args (V : venv) (fuel : nat) (params pattern : value) : vout :=
  check_tuple V (eval_rule V fuel) params (arg_rules pattern) v_init.

(** 264-270, [setArgError], with the rejections of the check. *)
Definition set_arg_error (t : vst) (inner : list rop) (a : answer) : rop :=
  RErrorCode (-32602) (txt "Invalid params") (get_rejections t) inner a.
(** A method that starts with
    [if (!req.checkArgs(pattern)) return req.setArgError();], the use
    rpc.h 498-520 describes; [body] is the rest.  The peer's function returns [b].
    An exception of the validator (an unknown class) leaves the method; what it
    says is [what].  The last case is not a run: theorems are about checks with
    a verdict or an exception. *)
Definition guarded (V : venv) (fuel : nat) (pattern : value) (what : option bytes) (b : bool) (body : method) : method :=
  fun r =>
    match check_args V fuel (rq_params r) pattern with
    | VDone true _ => body r
    | VDone false t => ([set_arg_error t [] (Accepts b)], Returns tt)
    | VThrow _ => ([], Raises what)
    | VBad | VFuel => ([], Raises None)
    end.

(** 471-475, [add_ping]. *)
Definition ping_method (b : bool) : method := fun r => ([RResult (rq_params r) VUndef [] (Accepts b)], Returns tt).
(** 483-491, [add_help]: [String] of a value that is no string is that value
    (string.cpp 29), its text is empty. *)
Definition help_method (help : value) (b : bool) : method := fun r =>
  ([RResult (value_member help (get_string (snd (vitem (rq_params r) 0)))) VUndef [] (Accepts b)], Returns tt).
