(** C93: RPC messages sent as text. *)
From Coq Require Import String.
From Verif Require Import Base ModelKeyed ModelValue ModelText SpecText ModelObject ModelRpc SpecRpc SpecRpcText ProofTextEx ProofRpcText PropEq PropRpc PropRpc2.
Local Open Scope list_scope.
Local Open Scope Z_scope.

(** The server reads the request which was written: the same method, identifier and
    version, the same content of the arguments and of the context. *)
Theorem C93_request : forall L E F utf8 ver id name args ctx, precise F = false ->
  plain_id utf8 id -> doc_ok utf8 (VStr None name) -> part_ok utf8 args -> part_ok utf8 ctx ->
  exists m, sent_as L E F utf8 (call_message ver id name args ctx) m /\
    exists args' ctx', parse_request m = call_request ver id name args' ctx' /\ same_part args args' /\ same_part ctx ctx'.
Proof. exact text_request. Qed.
Print Assumptions C93_request.

(** The client reads what the server answered. *)
Theorem C93_response : forall L E F utf8 v w, precise F = false -> doc_ok utf8 v -> sent_as L E F utf8 v w ->
  is_response w = is_response v /\ (is_notification w = is_notification v) /\
  match response_result v, response_result w with
  | Some r, Some r' => same_result r r'
  | None, None => True
  | _, _ => False
  end.
Proof. exact text_response. Qed.
Print Assumptions C93_response.

(** A call from the client through text to the server and back: the call of that
    identifier ends, once, with what the response carries. *)
Theorem C93_completed : forall L E F utf8 same sv p ph pi ver id name args ctx m flags later inner a s c h rest ws,
  precise F = false -> plain_id utf8 id -> doc_ok utf8 (VStr None name) -> part_ok utf8 args -> part_ok utf8 ctx ->
  no_result_formats (sv_format sv) ->
  server_ok calm sv -> forallb calm (fst p) = true -> forallb calm (fst ph) = true -> forallb calm (fst pi) = true ->
  server_ok no_init sv -> forallb no_init (fst p) = true -> forallb no_init (fst ph) = true -> forallb no_init (fst pi) = true ->
  forallb calm later = true -> forallb no_init later = true -> forallb calm inner = true ->
  sent_as L E F utf8 (call_message ver id name args ctx) m ->
  exec sv p ph pi (create ByFunction (parse_request m) flags) = Some s ->
  Forall (doc_ok utf8) (messages (rs_log (rdrop (rrun s later) inner a))) ->
  Forall2 (sent_as L E F utf8) (messages (rs_log (rdrop (rrun s later) inner a))) ws ->
  take_call same (cl_calls c) id = Some (Some h, rest) ->
  exists v c', In v (messages (rs_log (rdrop (rrun s later) inner a))) /\ is_response v = true /\
    crun same c (map CResponse ws) = Some c' /\
    match response_result v with
    | Some r => cl_calls c' = rest /\ exists r', cl_done c' = cl_done c ++ [(h, r')] /\ same_result r r'
    | None => c' = c
    end.
Proof. exact text_completes. Qed.
Print Assumptions C93_completed.

(** A method whose name is the sign of infinity cannot be called: the name is read as
    a number. *)
Theorem C93_name_refuted : exists name, text_ok true name /\ forall L, exists m,
  sent_as L ser0 (mkPF false false) true (call_message Ver2 (VNum (NUInt 1)) name VUndef VUndef) m /\
  rq_method (parse_request m) = VNum (NDbl (S754_infinity false)).
Proof. exact infinite_name. Qed.
Print Assumptions C93_name_refuted.

(** *** Examples *)
Definition ex_call : value := call_message Ver2 (VNum (NUInt 2)) (txt "sum") (VArr [([], VNum (NInt 20)); ([], VNum (NUInt 22))]) VUndef.
Example C93_call_text : ser ser0 true ex_call = txt "{""id"":2,""jsonrpc"":""2.0"",""method"":""sum"",""params"":[20,22]}" /\
  plain_id true (VNum (NUInt 2)) /\ doc_ok true (VStr None (txt "sum")) /\ part_ok true (VArr [([], VNum (NInt 20)); ([], VNum (NUInt 22))]).
Proof.
  split; [vm_compute; reflexivity|]. split; [constructor; split; [discriminate|reflexivity]|].
  split; [constructor; [exists (txt "sum"); split; [|reflexivity]; repeat constructor; discriminate|discriminate|discriminate]|].
  right. constructor. repeat constructor; discriminate.
Qed.
Example C93_answer_text :
  match from_string eqL (mkPF false false) (ser ser0 true ex_call) with
  | Ok m =>
    match exec ex_server nothing nothing nothing (create ByFunction (parse_request m) f_pre) with
    | Some s => map (ser ser0 true) (messages (rs_log s)) =
        [txt "{""jsonrpc"":""2.0"",""method"":""working"",""params"":null}"; txt "{""id"":2,""jsonrpc"":""2.0"",""result"":42}"]
    | None => False
    end
  | _ => False
  end /\
  match from_string eqL (mkPF false false) (txt "{""id"":2,""jsonrpc"":""2.0"",""result"":42}") with
  | Ok w => option_map (fun c => (cl_calls c, cl_done c)) (crun (same_value eqL) ex_client [CResponse w]) =
      Some ([(VNum (NUInt 1), Some 0%nat)], [(1%nat, mkRR (VNum (NUInt 42)) false VUndef)])
  | _ => False
  end.
Proof. vm_compute. split; reflexivity. Qed.
