(** Notifications of a JSON-RPC client and those it receives: /repo/src/imtjson/rpc.cpp,
    rpc.h.  Line numbers without a file are rpc.cpp. *)
From Verif Require Import Base ModelKeyed ModelValue ModelObject ModelArray ModelMerge ModelJwt ModelRpc.
Local Open Scope Z_scope.

(** 764-771, [AbstractRpcClient::notify]: what is given to [sendRequest]; the lock
    is not modelled. *)
Definition client_notify (ver : rpc_version) (name : bytes) (args : value) : value := format_notify ver name args VUndef.
Definition client_notify_context (ver : rpc_version) (name : bytes) (args context : value) : value := format_notify ver name args context.

(** rpc.h 70-86, [RpcNotify].  The name is kept as the value itself, as
    [String::String(Value)] (string.cpp 29) keeps any value. *)
Record notice := mkNt { nt_name : value; nt_data : value; nt_context : value }.
(** 781-785: made from a message. *)
Definition notice_of (v : value) : notice := mkNt (value_member v k_method) (value_member v k_params) VUndef.
(** 788-800: made from its parts. *)
Definition notice_new (name : bytes) (data : value) : notice := mkNt (VStr None name) data VUndef.
Definition notice_context (name : bytes) (data context : value) : notice := mkNt (VStr None name) data context.
(** 802-804, [asRequest]: the function given does nothing and returns false. *)
Definition as_request (n : notice) : rstate := create ByFunction (mkReq (nt_name n) (nt_data n) VUndef (nt_context n) VUndef) 0.
