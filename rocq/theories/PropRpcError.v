(** C133: errors of JSON-RPC as the caller reads them. *)
From Coq Require Import String.
From Verif Require Import Base ModelKeyed ModelValue ModelText SpecText ModelJwt ModelRpc SpecRpc SpecRpcText ModelRpcError SpecRpcError ProofRpcError ProofTextEx PropEq PropRpc PropRpc2.
Local Open Scope list_scope.
Local Open Scope Z_scope.

(** A call that fails on the server ends with an error of which the caller reads the
    code, the message and the data: of a request that is not one, of a method
    that is not known, that throws, that gives no result, that sets an error. *)
Theorem C133_call : forall L F same sv pi b1 b2 ver id name args ctx flags code message data c h calls inner a,
  sv_format sv = rpc_format -> id <> VUndef -> id <> VNull ->
  let r := parse_request (call_message ver id name args ctx) in
  fails sv r flags code message data -> take_call same (cl_calls c) id = Some (Some h, calls) ->
  exists s c' x, exec sv ([], Accepts b1) ([], Accepts b2) pi (create ByFunction r flags) = Some s /\
    crun same c (map CResponse (messages (rs_log (rdrop s inner a)))) = Some c' /\
    cl_calls c' = calls /\ cl_done c' = cl_done c ++ [(h, x)] /\ reads L F x code message data.
Proof. exact call_fails. Qed.
Print Assumptions C133_call.

(** Sent as text, the same is read (the data up to the form of integers). *)
Theorem C133_text : forall L F code message data ctx x, is_int code -> same_result (mkRR (default_format_error code message data) true ctx) x ->
  exists data', reads L F x code message data' /\ same_part data data'.
Proof. exact text_reads. Qed.
Print Assumptions C133_text.

(** Errors made by the user of a client, and those of other forms. *)
Theorem C133_made : forall L F code message data, is_int code ->
  reads L F (make_error code message data) code message data /\ rr_context (make_error code message data) = VUndef.
Proof. exact make_reads. Qed.
Print Assumptions C133_made.
Theorem C133_plain : forall L F x, (forall d l, rr_value x <> VObj d l) ->
  error_code L F x = Some 0 /\ error_text x = [] /\ error_data x = VUndef.
Proof. exact plain_reads. Qed.
Print Assumptions C133_plain.

(** A request made of a list of four or five items is the one a client sends; one of
    a method and parameters has no identifier and is never answered. *)
Theorem C133_list : forall name args id ctx,
  request_of_list [VStr None name; args; id; ctx] = parse_request (call_message Ver1 id name args ctx) /\
  request_of_list [VStr None name; args; id; ctx; VStr None (txt "2.0")] = parse_request (call_message Ver2 id name args ctx).
Proof. exact list_call. Qed.
Print Assumptions C133_list.
Theorem C133_list_silent : forall method params flags ops inner a,
  responses (rs_log (rdrop (rrun (create ByFunction (request_of_list [method; params]) flags) ops) inner a)) = 0%nat.
Proof. exact list_silent. Qed.
Print Assumptions C133_list_silent.

(** *** Examples *)
(** A server with a method that notifies and throws, one that forgets to answer, and
    one that gives an error; the calls are the first of a client. *)
Definition err_server : server :=
  mkSV [(txt "throw", fun _ => ([RNotify (txt "soon") VNull [] ok], Raises (Some (txt "oops"))));
        (txt "forget", fun _ => ([RHeartbeat [] ok], Returns tt));
        (txt "refuse", fun _ => ([RErrorCode 7 (txt "not now") (VBool true) [] ok], Returns tt))] None None rpc_format.
Definition err_request (name : string) (ctx : value) : preq := parse_request (call_message Ver2 (VNum (NUInt 1)) (txt name) VUndef ctx).
Example C133_case :
  fails err_server (err_request "throw" VUndef) 0 (-32603) (txt "Internal error") (VStr None (txt "oops")) /\
  fails err_server (err_request "forget" VUndef) 0 (-32099) (txt "The method did not produce a result") VUndef /\
  fails err_server (err_request "refuse" VUndef) 0 7 (txt "not now") (VBool true) /\
  fails err_server (err_request "other" VUndef) 0 (-32601) (txt "Method not found") (VStr None (txt "other")) /\
  fails err_server (err_request "throw" VNull) 0 (-32600) (txt "Invalid request") VUndef.
Proof.
  assert (V : forall n, valid_request (err_request n VUndef)).
  { intros n. unfold err_request. rewrite C57_request. split; [eexists; eexists; reflexivity|left; reflexivity]. }
  split; [|split; [|split; [|split]]].
  - change (VStr None (txt "oops")) with (match Some (txt "oops") with Some w => VStr None w | None => VUndef end).
    eapply F_raises; [apply V|vm_compute; reflexivity|reflexivity|reflexivity|split; reflexivity].
  - eapply F_silent; [apply V|vm_compute; reflexivity|reflexivity|split; reflexivity].
  - eapply (F_error _ _ _ _ []); [apply V|vm_compute; reflexivity|reflexivity|split; reflexivity|split; [discriminate|reflexivity]].
  - apply F_unknown; [apply V|vm_compute; reflexivity|reflexivity].
  - apply F_invalid. intros (_ & [C|(d & l & C)]); discriminate C.
Qed.
Example C133_read_case : forall L F, reads L F (make_error (-32601) (txt "Method not found") VNull) (-32601) (txt "Method not found") VNull.
Proof. intros L F. split; [reflexivity|]. split; [reflexivity|]. split; reflexivity. Qed.
Example C133_taken_case : take_call (same_value eqL) [(VNum (NUInt 1), Some 0%nat)] (VNum (NUInt 1)) = Some (Some 0%nat, []).
Proof. vm_compute. reflexivity. Qed.
