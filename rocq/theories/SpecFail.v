(** What is left of a history in which some operations threw. *)
From Verif Require Import Base ModelKeyed SpecKeyed ModelValue ModelObject SpecObject ModelArray SpecArray.

(** The operations which count: those that did not throw and, of a merge that threw, the
    members before the one it threw at. *)
Inductive survived : list oop -> list bool -> list oop -> Prop :=
| su_nil : survived [] [] []
| su_done : forall op ops ts kept, survived ops ts kept -> survived (op :: ops) (false :: ts) (op :: kept)
| su_threw : forall op ops ts kept, (forall v, op <> OMerge v) -> survived ops ts kept -> survived (op :: ops) (true :: ts) kept
| su_merge : forall v n ops ts kept, n < length (members_of v) -> survived ops ts kept ->
    survived (OMerge v :: ops) (true :: ts) (OMerge (VArr (firstn n (members_of v))) :: kept).

(** Copy assignments are not to fail. *)
Definition assigned_well (o : oop * option nat) : Prop := fst o = OAssign -> snd o = None.

(** Arrays: what did not throw. *)
Fixpoint done_only (ops : list aop) (ts : list bool) : list aop :=
  match ops, ts with
  | op :: ops', t :: ts' => if t then done_only ops' ts' else op :: done_only ops' ts'
  | _, _ => []
  end.
(** Every operation, also one that threw, is at a position allowed when it is called. *)
Fixpoint all_ok (s : aspec) (ops : list aop) (ts : list bool) : Prop :=
  match ops, ts with
  | op :: ops', t :: ts' => aop_ok s op /\ all_ok (if t then s else aspec_step s op) ops' ts'
  | _, _ => True
  end.
