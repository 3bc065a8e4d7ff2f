(** What the properties of the messages of JSON-RPC speak about. *)
From Coq Require Import String.
From Verif Require Import Base ModelKeyed SpecKeyed ModelValue ModelObject ModelRpc.
Local Open Scope list_scope.
Local Open Scope Z_scope.

(** [v] is an object of the defined ones of these members and of no other. *)
Definition made_of (v : value) (l : list (string * value)) : Prop :=
  exists m, v = VObj false m /\ keys_increasing m /\
    forall k x, In (k, x) m <-> x <> VUndef /\ exists s, k = txt s /\ In (s, x) l.

(** The messages: version 1 names both the result and the error and gives
    notifications the identifier null, version 2 names itself. *)
Definition two : value := VStr None (txt "2.0").
Definition result_form (ver : rpc_version) (id result context v : value) : Prop :=
  made_of v match ver with
  | Ver1 => [("id", id); ("result", result); ("error", VNull); ("context", context)]
  | Ver2 => [("jsonrpc", two); ("id", id); ("result", result); ("context", context)]
  end%string.
Definition error_form (ver : rpc_version) (id error v : value) : Prop :=
  made_of v match ver with
  | Ver1 => [("id", id); ("result", VNull); ("error", error)]
  | Ver2 => [("jsonrpc", two); ("id", id); ("error", error)]
  end%string.
Definition notify_form (ver : rpc_version) (name : bytes) (data context v : value) : Prop :=
  made_of v match ver with
  | Ver1 => [("id", VNull); ("method", VStr None name); ("params", data); ("context", context)]
  | Ver2 => [("jsonrpc", two); ("method", VStr None name); ("params", data); ("context", context)]
  end%string.
Definition call_form (ver : rpc_version) (id : value) (name : bytes) (args context v : value) : Prop :=
  made_of v match ver with
  | Ver1 => [("id", id); ("method", VStr None name); ("params", args); ("context", context)]
  | Ver2 => [("jsonrpc", two); ("id", id); ("method", VStr None name); ("params", args); ("context", context)]
  end%string.

(** The version of a request: 1 without the member jsonrpc. *)
Definition asked (r : preq) (ver : rpc_version) : Prop := ver = Ver1 <-> rq_version r = VUndef.
Definition identified (r : preq) : Prop := rq_id r <> VUndef /\ rq_id r <> VNull.

(** What may be sent on behalf of a request. *)
Inductive on_wire (r : preq) (v : value) : Prop :=
| OW_alive : v = VUndef -> on_wire r v
| OW_notify : forall ver name data, asked r ver -> notify_form ver name data VUndef v -> on_wire r v
| OW_result : forall ver result context, identified r -> asked r ver -> (context = VUndef \/ members_of context <> []) ->
    result_form ver (rq_id r) result context v -> on_wire r v
| OW_error : forall ver error, identified r -> asked r ver -> error_form ver (rq_id r) error v -> on_wire r v.

(** The parameters of a request: those set last, if any. *)
Definition set_last (p : value) (ops : list rop) : value :=
  fold_left (fun p o => match o with RSetParams q => q | _ => p end) ops p.
