(** What the check of arguments is about. *)
From Verif Require Import Base ModelValue ModelObject ModelValidator SpecValidator.

(** The argument at a position, undefined when there is none, is accepted by the
    rule at that position (no variables are set). *)
Definition fits (V : venv) (l rules : list member) (i : nat) : Prop := accepts V [] (item l i) (snd (item rules i)).
Definition misfits (V : venv) (l rules : list member) (i : nat) : Prop := rejects V [] (item l i) (snd (item rules i)).
(** The arguments fit the rules: no more of them, one rule for each. *)
Definition args_fit (V : venv) (params : value) (rules : list member) : Prop :=
  exists l, params = VArr l /\ length l <= length rules /\ forall i, i < length rules -> fits V l rules i.
(** The first thing wrong with arguments given as an array is at position [i]:
    its rule rejects, or there is no rule. *)
Definition first_wrong (V : venv) (l rules : list member) (i : nat) : Prop :=
  (forall j, j < i -> j < length rules -> fits V l rules j) /\
  (i < length rules /\ misfits V l rules i \/ i = length rules /\ length rules < length l).
