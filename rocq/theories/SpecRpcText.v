(** RPC messages sent as text. *)
From Verif Require Import Base ModelKeyed ModelValue ModelText ModelRpc SpecText.
Local Open Scope Z_scope.

(** The same JSON content, or both nothing. *)
Definition same_part (a b : value) : Prop := (a = VUndef /\ b = VUndef) \/ same_json a b.
(** Nothing, or a value which survives the text (SpecText). *)
Definition part_ok (utf8 : bool) (v : value) : Prop := v = VUndef \/ doc_ok utf8 v.

(** Identifiers of calls: the numbers the client makes, and strings. *)
Definition plain_id (utf8 : bool) (id : value) : Prop :=
  match id with VNum (NUInt _) | VStr _ _ => doc_ok utf8 id | _ => False end.

(** Two results are the same but for the form of integers. *)
Definition same_result (a b : rpc_result) : Prop :=
  same_part (rr_value a) (rr_value b) /\ rr_error a = rr_error b /\ same_part (rr_context a) (rr_context b).

(** A message [v] written as text is read as [w]. *)
Definition sent_as (L : libm) (E : serenv) (F : pflags) (utf8 : bool) (v w : value) : Prop :=
  from_string L F (ser E utf8 v) = Ok w.
