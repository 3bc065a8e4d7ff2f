(** What the properties of errors of JSON-RPC speak about. *)
From Coq Require Import String.
From Verif Require Import Base ModelKeyed ModelValue ModelText ModelJwt ModelRpc SpecRpc ModelRpcError.
Local Open Scope list_scope.
Local Open Scope Z_scope.

Definition is_int (z : Z) : Prop := - 2 ^ 31 <= z < 2 ^ 31.
(** What the caller reads of a result. *)
Definition reads (L : libm) (F : pflags) (x : rpc_result) (code : Z) (message : bytes) (data : value) : Prop :=
  rr_error x = true /\ error_code L F x = Some code /\ error_text x = message /\ error_data x = data.

(** The method sends nothing but notifications and signs of life. *)
Definition busy (l : list rop) : Prop := forallb quiet l = true /\ forallb no_init l = true.

(** Why a request fails, with which code, message and data. *)
Inductive fails (sv : server) (r : preq) (flags : Z) : Z -> bytes -> value -> Prop :=
| F_invalid : ~ valid_request r -> fails sv r flags (-32600) (txt "Invalid request") VUndef
| F_unknown : valid_request r -> reg_find (sv_reg sv) (get_string (rq_method r)) = None -> sv_proxy sv = None ->
    fails sv r flags (-32601) (txt "Method not found") (rq_method r)
| F_raises : forall m l what, valid_request r -> reg_find (sv_reg sv) (get_string (rq_method r)) = Some m -> sv_handler sv = None ->
    m (rs_req (create ByFunction r flags)) = (l, Raises what) -> busy l ->
    fails sv r flags (-32603) (txt "Internal error") (match what with Some w => VStr None w | None => VUndef end)
| F_silent : forall m l, valid_request r -> reg_find (sv_reg sv) (get_string (rq_method r)) = Some m ->
    m (rs_req (create ByFunction r flags)) = (l, Returns tt) -> busy l ->
    fails sv r flags (-32099) (txt "The method did not produce a result") VUndef
| F_error : forall m l b code message data, valid_request r -> reg_find (sv_reg sv) (get_string (rq_method r)) = Some m ->
    m (rs_req (create ByFunction r flags)) = (l ++ [RErrorCode code message data [] (Accepts b)], Returns tt) -> busy l -> is_int code ->
    fails sv r flags code message data.
