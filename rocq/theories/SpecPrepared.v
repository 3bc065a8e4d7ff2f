(** Prepared calls: words of the statements. *)
From Verif Require Import Base ModelKeyed ModelValue ModelObject ModelRpc SpecRpc ModelPrepared.

Definition start : world := mkW [] [] [].

(** All that is done, what is done inside [sendRequest] included. *)
Fixpoint all_of (o : pop) : list pop :=
  o :: match o with
       | DAsync _ send _ | DWait _ send => (fix go l := match l with [] => [] | x :: r => all_of x ++ go r end) send
       | _ => []
       end.
Definition all_ops (l : list pop) : list pop := flat_map all_of l.

(** Identifiers asked for: a call without a context takes two. *)
Definition asks (o : pop) : nat := match o with DCall _ _ _ _ => 1 | DCallDefault _ _ _ => 2 | _ => 0 end.
Definition asked (l : list pop) : nat := list_sum (map asks (all_ops l)).

(** The requests sent for the prepared call [p]; those sent by the client [i]. *)
Definition sent_for (p : nat) (l : list pev) : list pev :=
  filter (fun e => match e with ESent q _ _ _ => Nat.eqb q p | _ => false end) l.
Fixpoint sent_by (i : nat) (l : list pev) : list value :=
  match l with
  | [] => []
  | ESent _ j id _ :: r => if Nat.eqb j i then id :: sent_by i r else sent_by i r
  | _ :: r => sent_by i r
  end.
Definition executed (w : world) (p : nat) : Prop := exists q, nth_error (w_preps w) p = Some q /\ pr_executed q = true.

(** [DClient] stands for the operations of a client other than those which prepare and send. *)
Definition plain (o : pop) : Prop :=
  match o with DClient _ (CPrepare | CPrepareDefault | CSend _) => False | _ => True end.
