(** C81, C82: the check of arguments; the methods [ping] and [help]. *)
From Coq Require Import String.
From Verif Require Import Base ModelKeyed ModelValue ModelObject ModelArray ModelEq ModelJwt ModelPath ModelRpc SpecRpc ProofRpc2 ModelValidator SpecValidator
  ModelArgs SpecArgs ProofArgs PropEq PropValidator PropRpc.
Local Open Scope list_scope.
Local Open Scope nat_scope.

(** *** C81 *)
(** The check accepts exactly arguments in an array that is no longer than the
    rules, where every rule accepts the argument at its position, undefined for
    one that is missing. *)
Theorem C81_accepted : forall V params rules,
  (exists fuel t, check_args V fuel params (VArr rules) = VDone true t) <-> args_fit V params rules.
Proof. exact accepted_args. Qed.
Print Assumptions C81_accepted.

(** A pattern that is no array is the rule of the only argument; with an undefined
    one there may be no arguments. *)
Theorem C81_bare : forall V params,
  ((exists fuel t, check_args V fuel params VUndef = VDone true t) <-> params = VArr []) /\
  forall pattern, pattern <> VUndef -> (forall l, pattern <> VArr l) ->
    ((exists fuel t, check_args V fuel params pattern = VDone true t) <-> args_fit V params [([], pattern)]).
Proof. exact bare_args. Qed.
Print Assumptions C81_bare.

(** It refuses exactly arguments in no array, or with a first thing wrong. *)
Theorem C81_refused : forall V params rules,
  (exists fuel t, check_args V fuel params (VArr rules) = VDone false t) <->
  (forall l, params <> VArr l) \/ exists l i, params = VArr l /\ first_wrong V l rules i.
Proof. exact refused_args. Qed.
Print Assumptions C81_refused.

(** The verdict does not depend on the bound. *)
Theorem C81_one_verdict : forall V f g params pattern b c t u,
  check_args V f params pattern = VDone b t -> check_args V g params pattern = VDone c u -> b = c.
Proof. exact check_one. Qed.
Print Assumptions C81_one_verdict.

(** Every rejection listed has a path that starts with the position of the first
    thing wrong. *)
Theorem C81_where : forall V fuel l rules t, (Z.of_nat (length rules) < 2 ^ 32)%Z -> check_args V fuel (VArr l) (VArr rules) = VDone false t ->
  exists i, first_wrong V l rules i /\
    forall x, In x (members_of (get_rejections t)) -> exists rest rule,
      snd x = VArr [([], VArr (([], VNum (NUInt (Z.of_nat i))) :: rest)); ([], rule)].
Proof. exact refused_where. Qed.
Print Assumptions C81_where.

(** If the first argument has the wrong type, the list says so. *)
Theorem C81_listed : forall V fuel l k e w rules t, simple_rule V (snd (item l 0)) w = SVerdict false ->
  check_args V fuel (VArr l) (VArr ((k, VStr e w) :: rules)) = VDone false t ->
  get_rejections t = VArr [([], VArr [([], VArr [([], VNum (NUInt 0))]); ([], VStr e w)])].
Proof. exact refused_first. Qed.
Print Assumptions C81_listed.

(** Arguments in no array, such as named ones, are refused whatever the rules, and
    nothing is listed. *)
Theorem C81_named : forall V fuel params pattern b t, (forall l, params <> VArr l) ->
  check_args V fuel params pattern = VDone b t -> b = false /\ get_rejections t = VArr [].
Proof. exact named_refused. Qed.
Print Assumptions C81_named.

(** A method that checks first: its body runs as if alone when the check accepts;
    the only answer is an error -32602 with the rejections when it refuses; an
    internal error when the check throws. *)
Theorem C81_guard_accepts : forall sv p ph pi r flags V fuel pattern what b body t l, valid_request r ->
  reg_find (sv_reg sv) (get_string (rq_method r)) = Some (guarded V fuel pattern what b body) ->
  check_args V fuel (wrap_params flags (rq_params r)) pattern = VDone true t ->
  body (rs_req (create ByFunction r flags)) = (l, Returns tt) ->
  exec sv p ph pi (create ByFunction r flags) = Some (rrun (create ByFunction r flags) (RInit (sv_format sv) :: l)).
Proof. exact guard_accepts. Qed.
Print Assumptions C81_guard_accepts.
Theorem C81_guard_refuses : forall sv p ph pi r flags V fuel pattern what b body t, valid_request r -> has_id r = true ->
  reg_find (sv_reg sv) (get_string (rq_method r)) = Some (guarded V fuel pattern what b body) ->
  check_args V fuel (wrap_params flags (rq_params r)) pattern = VDone false t ->
  forall e, sv_format sv (-32602)%Z (txt "Invalid params") (get_rejections t) = Some e ->
  exists s, exec sv p ph pi (create ByFunction r flags) = Some s /\ rs_sent s = true /\
    rs_log s = exchanges [(error_message (req_version r) (rq_id r) e, Accepts b)].
Proof. exact guard_server. Qed.
Print Assumptions C81_guard_refuses.
Theorem C81_guard_throws : forall sv p pi r flags V fuel pattern what b b' body t e, valid_request r -> has_id r = true ->
  reg_find (sv_reg sv) (get_string (rq_method r)) = Some (guarded V fuel pattern what b body) -> sv_handler sv = None ->
  check_args V fuel (wrap_params flags (rq_params r)) pattern = VThrow t ->
  sv_format sv (-32603)%Z (txt "Internal error") (match what with Some w => VStr None w | None => VUndef end) = Some e ->
  exists s, exec sv p ([], Accepts b') pi (create ByFunction r flags) = Some s /\ rs_sent s = true /\
    rs_log s = exchanges [(error_message (req_version r) (rq_id r) e, Accepts b')].
Proof. exact guard_throws. Qed.
Print Assumptions C81_guard_throws.

(** The list may be empty although an argument is wrong: here the second is
    rejected by the rule that last rejected an alternative for the first. *)
Theorem C81_listed_refuted : exists params rules t,
  params = pv "[1,2]" /\ rules = pv "[[`string`,`number`],`string`]" /\
  check_args (valV VUndef) 20 params rules = VDone false t /\ get_rejections t = VArr [].
Proof. eexists. eexists. eexists. split; [reflexivity|]. split; [reflexivity|]. split; vm_compute; reflexivity. Qed.
Print Assumptions C81_listed_refuted.

Definition ex_check (params pattern : string) : option (bool * value) :=
  match check_args (valV VUndef) 20 (pv params) (pv pattern) with VDone b t => Some (b, get_rejections t) | _ => None end.
Definition ex_rules : value := pv "[`string`,[`number`,`optional`]]".
Definition ex_guarded : server :=
  mkSV [(txt "check", guarded (valV VUndef) 20 ex_rules None true (fun r => ([RResult (snd (vitem (rq_params r) 0)) VUndef [] (Accepts true)], Returns tt)));
        (txt "bad", guarded (valV VUndef) 20 (pv "[`nosuch`]") None true (fun r => ([], Returns tt)))]
       None None (fun c m d => Some (default_format_error c m d)).
Definition ex_exec (name params : string) : option (list entry) :=
  match exec ex_guarded ([], Accepts true) ([], Accepts true) ([], Accepts true)
    (create ByFunction (mkReq (VStr None (txt name)) (pv params) (VNum (NUInt 7)) VUndef v_two) 0) with
  | Some s => Some (rs_log s)
  | None => None
  end.
Definition answered (v : string) : option (list entry) := Some [Delivered (Message (pv v)); Answered (Accepts true)].

Example C81_case :
  ex_check "[`a`,1]" "[`string`,[`number`,`optional`]]" = Some (true, VArr []) /\
  ex_check "[`a`]" "[`string`,[`number`,`optional`]]" = Some (true, VArr []) /\
  ex_check "[`a`]" "[`string`,`number`]" = Some (false, pv "[[[1],`number`]]") /\
  ex_check "[1]" "[`string`,`number`]" = Some (false, pv "[[[0],`string`]]") /\
  ex_check "[`a`,{`x`:[1,true]}]" "[`string`,{`x`:[[],`number`]}]" = Some (false, pv "[[[1,`x`,1],`number`]]") /\
  ex_check "[`a`,2,3]" "[`string`,`number`]" = Some (false, pv "[[[2],[`string`,`number`]]]") /\
  ex_check "[`a`]" "`string`" = Some (true, VArr []) /\
  simple_rule (valV VUndef) (VNum (NUInt 1)) (txt "string") = SVerdict false.
Proof. repeat split; try (vm_compute; reflexivity). Qed.
Example C81_case_guard :
  ex_exec "check" "[`a`]" = answered "{`id`:7,`result`:`a`,`jsonrpc`:`2.0`}" /\
  ex_exec "check" "[`a`,`b`]" =
    answered "{`id`:7,`error`:{`code`:-32602,`message`:`Invalid params`,`data`:[[[1],`number`],[[1],`optional`]]},`jsonrpc`:`2.0`}" /\
  ex_exec "bad" "[1]" = answered "{`id`:7,`error`:{`code`:-32603,`message`:`Internal error`},`jsonrpc`:`2.0`}".
Proof. repeat split; vm_compute; reflexivity. Qed.

(** *** C82 *)
(** [ping] answers with the arguments, in an array if they were not. *)
Theorem C82_ping : forall sv p ph pi r flags b, valid_request r -> has_id r = true ->
  reg_find (sv_reg sv) (get_string (rq_method r)) = Some (ping_method b) ->
  exists s, exec sv p ph pi (create ByFunction r flags) = Some s /\ rs_sent s = true /\
    rs_log s = exchanges [(result_message (req_version r) (rq_id r) (wrap_params flags (rq_params r)) VUndef, Accepts b)] /\
    response_result (result_message (req_version r) (rq_id r) (wrap_params flags (rq_params r)) VUndef) =
      Some (mkRR (wrap_params flags (rq_params r)) false VUndef).
Proof. exact ping_reply. Qed.
Print Assumptions C82_ping.

(** [help] answers with the member of the help named by the first argument. *)
Theorem C82_help : forall sv p ph pi r flags help b v, valid_request r -> has_id r = true ->
  reg_find (sv_reg sv) (get_string (rq_method r)) = Some (help_method help b) ->
  value_member help (get_string (snd (item (members_of (wrap_params flags (rq_params r))) 0))) = v ->
  exists s m, exec sv p ph pi (create ByFunction r flags) = Some s /\ rs_sent s = true /\ rs_log s = exchanges [(m, Accepts b)] /\
    value_member m k_id = rq_id r /\
    (v <> VUndef -> response_result m = Some (mkRR v false VUndef)) /\
    (v = VUndef -> response_result m = match req_version r with Ver1 => Some (mkRR VNull true VUndef) | Ver2 => None end).
Proof. exact help_reply. Qed.
Print Assumptions C82_help.

(** So in version 2.0 asking for help about an unknown name is answered by a
    message that is no response for the client: the call stays pending. *)
Theorem C82_answer_refuted : exists sv r s m c c',
  exec sv ([], Accepts true) ([], Accepts true) ([], Accepts true) (create ByFunction r 0) = Some s /\
  rs_log s = exchanges [(m, Accepts true)] /\
  crun (same_value eqL) client_new [CSend (rq_id r)] = Some c /\ process_response (same_value eqL) c m = Some (c', Request) /\ given_out (cl_calls c') = [0].
Proof.
  exists (mkSV [(txt "help", help_method (pv "{`ping`:`Answers`}") true)] None None (fun c m d => Some (default_format_error c m d))).
  exists (mkReq (VStr None (txt "help")) (pv "[`pong`]") (VNum (NUInt 7)) VUndef v_two).
  eexists. eexists. eexists. eexists. split; [vm_compute; reflexivity|]. split; [vm_compute; reflexivity|].
  split; [vm_compute; reflexivity|]. split; vm_compute; reflexivity.
Qed.
Print Assumptions C82_answer_refuted.

Definition ex_helper : server :=
  mkSV [(txt "ping", ping_method true); (txt "help", help_method (pv "{`ping`:`Answers`}") true)] None None (fun c m d => Some (default_format_error c m d)).
Example C82_case :
  map (fun x => match exec ex_helper ([], Accepts true) ([], Accepts true) ([], Accepts true)
    (create ByFunction (mkReq (VStr None (txt (fst x))) (pv (snd x)) (VNum (NUInt 7)) VUndef v_two) 0) with Some s => Some (rs_log s) | None => None end)
    [("ping", "[1,`a`]"); ("ping", "{`a`:1}"); ("help", "[`ping`]"); ("help", "[`pong`]")]%string =
  [answered "{`id`:7,`result`:[1,`a`],`jsonrpc`:`2.0`}"; answered "{`id`:7,`result`:[{`a`:1}],`jsonrpc`:`2.0`}";
   answered "{`id`:7,`result`:`Answers`,`jsonrpc`:`2.0`}"; answered "{`id`:7,`jsonrpc`:`2.0`}"].
Proof. vm_compute. reflexivity. Qed.
