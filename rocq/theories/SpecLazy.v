(** What threads may expect of a number they all read. *)
From Verif Require Import Base ModelValue ModelLazy.
Local Open Scope Z_scope.

(** The answer of a call, whatever the others do. *)
Definition right_answer (v : spec_float) (c : call) : answer :=
  match c with CNum => ANum v | CBool => ABool (negb (SFeqb v (S754_zero false))) end.
(** Two threads are about to use the same field, one of them to change it. *)
Definition race (s : state) : Prop :=
  exists i j t u f w w', i <> j /\ nth_error (s_threads s) i = Some t /\ nth_error (s_threads s) j = Some u /\
    next_access t = Some (f, w) /\ next_access u = Some (f, w') /\ (w = true \/ w' = true).
(** All calls were answered. *)
Definition finished (s : state) : Prop := Forall (fun t => t_calls t = []) (s_threads s).
(** What the thread [i] got. *)
Definition answers (s : state) (i : nat) : list answer := match nth_error (s_threads s) i with Some t => t_done t | None => [] end.
