(** Errors of JSON-RPC as the caller reads them: /repo/src/imtjson/rpc.cpp, rpc.h. *)
From Coq Require Import String.
From Verif Require Import Base ModelKeyed ModelValue ModelText ModelObject ModelMerge ModelJwt ModelNumView ModelRpc.
Local Open Scope Z_scope.

(** rpc.cpp 710-712, [RpcServer::formatError]. *)
Definition rpc_format : services := fun code message data => Some (default_format_error code message data).
(** rpc.h 55, [RpcResult::getErrorCode]: [getInt] cut to an int; [None] is undefined
    behaviour of the conversion. *)
Definition error_code (L : libm) (F : pflags) (r : rpc_result) : option Z :=
  option_map s32 (value_s64 L F (value_member (rr_value r) (txt "code"))).
(** rpc.h 56, [getErrorMessage]. *)
Definition error_text (r : rpc_result) : bytes := get_string (value_member (rr_value r) (txt "message")).
(** rpc.h 57, [getErrorData]. *)
Definition error_data (r : rpc_result) : value := value_member (rr_value r) (txt "data").
(** rpc.cpp 891-896, [RpcResult::makeError], through [Object]. *)
Definition make_error (code : Z) (message : bytes) (data : value) : rpc_result :=
  mkRR (sets_as_object [(txt "code", VNum (if code =? 0 then NUInt 0 else NInt code)); (txt "message", VStr None message); (txt "data", data)])
       true VUndef.
(** rpc.cpp 41-55, [ParseRequest] of a list: missing items are undefined. *)
Definition request_of_list (l : list value) : preq :=
  let pick n := nth n l VUndef in mkReq (pick 0%nat) (pick 1%nat) (pick 2%nat) (pick 3%nat) (pick 4%nat).
