(** Variables, operands, parts and templates of validator rules. *)
From Coq Require Import String Ascii.
From Verif Require Import Base ModelKeyed SpecKeyed ModelValue ModelText SpecText ModelObject ModelArray ModelEq ModelJwt ModelPath ModelRpc
  ModelNumView ModelValidator SpecValidator.
Local Open Scope Z_scope.
Local Open Scope list_scope.

(** Subjects and variables whose objects have their members in order. *)
Definition in_order (vars : list member) (m : member) : Prop :=
  Forall (fun x => all_sorted (snd x)) vars /\ all_sorted (snd m).

(** *** Variables *)
Section Vars.
Variables (V : venv) (vars : list member) (this : member).
(** The variable of a name: [$this] is the subject, otherwise the latest one of
    that name. *)
Inductive var_is : bytes -> member -> Prop :=
| Var_this : var_is (txt "$this") this
| Var_named : forall n v, n <> txt "$this" -> binding n vars = Some v -> var_is n (n, v).
(** Whether there is a variable of that name with a value. *)
Definition known (n : bytes) : Prop := exists x, var_is n x /\ snd x <> VUndef.

(** A member by its name or an item by its position; undefined when it is not
    there.  The position is what [Value::getUInt] gives (C63). *)
Inductive goes_to : value -> value -> member -> Prop :=
| Goes_member : forall d l e k v, binding k l = Some v -> goes_to (VObj d l) (VStr e k) (k, v)
| Goes_no_member : forall d l e k, binding k l = None -> goes_to (VObj d l) (VStr e k) ([], VUndef)
| Goes_no_object : forall v e k, (forall d l, v <> VObj d l) -> goes_to v (VStr e k) ([], VUndef)
| Goes_item : forall v n, goes_to v (VNum n) (nth (Z.to_nat (uint_of V (VNum n))) (members_of v) ([], VUndef)).

(** [[name, step, ...]]: a variable with a value and steps into it; a step may be
    given by a variable itself. *)
Inductive names : value -> member -> Prop :=
| Names : forall k e n rest x y, var_is n x -> snd x <> VUndef -> steps x rest y -> names (VArr ((k, VStr e n) :: rest)) y
with steps : member -> list member -> member -> Prop :=
| Steps_end : forall x, steps x [] x
| Steps_plain : forall x k p y rest z, goes_to (snd x) p y -> steps y rest z -> steps x ((k, p) :: rest) z
| Steps_var : forall x k l p y rest z, names (VArr l) p -> goes_to (snd x) (snd p) y -> steps y rest z -> steps x ((k, VArr l) :: rest) z.
Definition named_value (v : value) : Prop := exists x, names v x.

(** What stands for an operand: the value it names, or itself. *)
Definition operand (q x : member) : Prop := names (snd q) x \/ ~ named_value (snd q) /\ x = q.

(** *** Templates of [emit]: variables are replaced, and items and members without a
    value left out.  What a variable names keeps the key it has there. *)
Definition is_there (x : member) : bool := negb (is_undef (snd x)).
Inductive instance : member -> member -> Prop :=
| Inst_plain : forall k v, (forall l, v <> VArr l) -> (forall d l, v <> VObj d l) -> instance (k, v) (k, v)
| Inst_named : forall k v x, names v x -> instance (k, v) x
| Inst_array : forall k l l', ~ named_value (VArr l) -> Forall2 instance l l' -> instance (k, VArr l) ([], VArr (filter is_there l'))
| Inst_object : forall k d l l', Forall2 instance l l' ->
    instance (k, VObj d l) ([], VObj false (filter is_there (combine (map fst l) (map snd l')))).
End Vars.

(** *** Parts *)
(** Further rules, when there are any: one of them has to accept. *)
Definition rest_accepted (V : venv) (vars : list member) (m : member) (rules : list member) : Prop :=
  rules = [] \/ one_accepts V vars m rules.
Definition rest_rejected (V : venv) (vars : list member) (m : member) (rules : list member) : Prop :=
  rules <> [] /\ Forall (fun y => rejects V vars m (snd y)) rules.
(** No undefined value among them, as in any parsed definition. *)
Definition given (rules : list member) : Prop := Forall (fun y => snd y <> VUndef) rules.

(** Rules whose second item is an operand. *)
Definition operand_words : list bytes := map txt ["minsize"; "maxsize"; "prefix"; "suffix"; "split"; "explode"; "datetime"]%string.

(** A number that gives the position [z] of 32 bits to [split]. *)
Definition position (n : num) (z : Z) : Prop := - 2 ^ 31 <= z < 2 ^ 31 /\ (n = NUInt z /\ 0 <= z \/ n = NInt z).
(** How many items are before a position; a negative one counts from the end. *)
Definition before (len : nat) (z : Z) : nat := if z <? 0 then (len - Z.to_nat (- z))%nat else Z.to_nat z.
