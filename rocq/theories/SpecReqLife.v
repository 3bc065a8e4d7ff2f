(** Specification for the life of requests. *)
From Coq Require Import List Bool Arith.
From Verif Require Import Base ModelRpc ModelReqLife.
Import ListNotations.

Definition inner_of (o : qop) : list qop := match o with QDrop l | QResult l | QError l => l | _ => [] end.
(** The operation, or one done meanwhile at any depth, is such. *)
Inductive somewhere (P : qop -> Prop) : qop -> Prop :=
| sw_here : forall o, P o -> somewhere P o
| sw_inner : forall o x, In x (inner_of o) -> somewhere P x -> somewhere P o.
Definition in_code (P : qop -> Prop) (l : list qop) : Prop := exists o, In o l /\ somewhere P o.

(** A handle is copied while the user's function is called by the end of a request. *)
Definition copies_at_end (o : qop) : Prop := exists l, o = QDrop l /\ in_code (eq QCopy) l.
(** A handle is dropped while a response is being sent. *)
Definition drops_inside (o : qop) : Prop := exists l, (o = QResult l \/ o = QError l) /\ in_code (fun x => exists l', x = QDrop l') l.
