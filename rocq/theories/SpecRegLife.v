(** Specification for methods which change their server. *)
From Coq Require Import List ZArith.
From Verif Require Import Base ModelRegLife.
Import ListNotations.

(** The name stands for the object: registered, neither it nor everything removed since. *)
Definition registered (log : list mev) (name : bytes) (id : nat) : Prop :=
  exists a b, log = a ++ XAdd name id :: b /\ ~ In (XRemove name) b /\ ~ In XClear b.
(** The object was registered once and is no more. *)
Definition gone (log : list mev) (id : nat) : Prop :=
  (exists name, In (XAdd name id) log) /\ forall name, ~ registered log name id.
Definition log_of (r : lres) : list mev := match r with LDone s | LBad s | LMore s => ms_log s end.

(** Code whose uses of captures come before everything else. *)
Inductive uses_first : list mop -> Prop :=
| uf_use : forall l, uses_first l -> uses_first (MUse :: l)
| uf_rest : forall l, ~ In MUse l -> uses_first l.
(** Every method made by the code, or by a method made by it, is such. *)
Inductive makes (P : list mop -> Prop) : list mop -> Prop :=
| mk_nil : makes P []
| mk_add : forall name body l, P body -> makes P body -> makes P l -> makes P (MAdd name body :: l)
| mk_other : forall o l, (forall name body, o <> MAdd name body) -> makes P l -> makes P (o :: l).
(** Code which removes nothing. *)
Definition keeps (l : list mop) : Prop := ~ In MClear l /\ forall name, ~ In (MRemove name) l.

(** What may happen next. *)
Definition right (log : list mev) (e : mev) : Prop :=
  match e with
  | XAdd name id => (forall i, ~ registered log name i) /\ forall n, ~ In (XAdd n id) log
  | XRefuse name => exists id, registered log name id
  | XEnter name id => registered log name id
  | XMiss name => forall id, ~ registered log name id
  | XUse id => exists name, registered log name id
  | _ => True
  end.
(** What code of an object does after a history: the calls run the code given for
    the object the name stands for. *)
Inductive does (code : nat -> list mop) : list mev -> option nat -> list mop -> list mev -> Prop :=
| do_nil : forall log self, does code log self [] []
| do_use : forall log id l tr, does code (log ++ [XUse id]) (Some id) l tr -> does code log (Some id) (MUse :: l) (XUse id :: tr)
| do_own : forall log l tr, does code log None l tr -> does code log None (MUse :: l) tr
| do_add : forall log self name id body l tr, (forall i, ~ registered log name i) -> code id = body ->
    does code (log ++ [XAdd name id]) self l tr -> does code log self (MAdd name body :: l) (XAdd name id :: tr)
| do_refuse : forall log self name id body l tr, registered log name id ->
    does code (log ++ [XRefuse name]) self l tr -> does code log self (MAdd name body :: l) (XRefuse name :: tr)
| do_remove : forall log self name l tr,
    does code (log ++ [XRemove name]) self l tr -> does code log self (MRemove name :: l) (XRemove name :: tr)
| do_clear : forall log self l tr, does code (log ++ [XClear]) self l tr -> does code log self (MClear :: l) (XClear :: tr)
| do_miss : forall log self name l tr, (forall i, ~ registered log name i) ->
    does code (log ++ [XMiss name]) self l tr -> does code log self (MCall name :: l) (XMiss name :: tr)
| do_call : forall log self name id l t1 tr, registered log name id -> does code (log ++ [XEnter name id]) (Some id) (code id) t1 ->
    does code (log ++ XEnter name id :: t1 ++ [XLeave id]) self l tr ->
    does code log self (MCall name :: l) (XEnter name id :: t1 ++ XLeave id :: tr).
