(** What the properties of notifications speak about. *)
From Coq Require Import String.
From Verif Require Import Base ModelKeyed ModelValue ModelRpc.
Local Open Scope Z_scope.

(** The request a server makes of a notification: no identifier. *)
Definition notify_request (ver : rpc_version) (name : bytes) (args context : value) : preq :=
  match ver with
  | Ver1 => mkReq (VStr None name) args VNull context VUndef
  | Ver2 => mkReq (VStr None name) args VUndef context (VStr None (txt "2.0"))
  end.
(** What a method is given of it. *)
Definition wrapped (flags : Z) (r : preq) : preq := mkReq (rq_method r) (wrap_params flags (rq_params r)) (rq_id r) (rq_context r) (rq_version r).
(** No sign of life is given in the operation, at any depth. *)
Fixpoint no_beat (o : rop) : bool :=
  match o with
  | RInit _ | RSetParams _ => true
  | RResult _ _ inner _ | RError _ inner _ | RErrorCode _ _ _ inner _ | RNoResult inner _ | RNotify _ _ inner _ => forallb no_beat inner
  | RHeartbeat _ _ => false
  end.
