(** Specification vocabulary for keyed members. *)
From Coq Require Import Sorted.
From Verif Require Import Base ModelKeyed.

(** Strict key order. *)
Definition klt (a b : bytes) : Prop := kcmp a b = Lt.

(** The same order in words: after a common prefix, [a] ends or continues with
    the smaller character, as a signed [char]. *)
Definition key_before (a b : bytes) : Prop :=
  exists p, (exists y t, a = p /\ b = p ++ y :: t) \/
            (exists x s y t, a = p ++ x :: s /\ b = p ++ y :: t /\ (schar x < schar y)%Z).

(** Members in strictly increasing key order (hence unique keys). *)
Definition keys_increasing {A} (l : list (bytes * A)) : Prop :=
  StronglySorted klt (map fst l).

(** Members in non-decreasing key order. *)
Definition keys_ordered {A} (l : list (bytes * A)) : Prop :=
  StronglySorted (fun a b => kcmp a b <> Gt) (map fst l).

(** The last binding of a key in a list of members. *)
Fixpoint last_binding {A} (k : bytes) (l : list (bytes * A)) : option A :=
  match l with
  | [] => None
  | (k', v) :: l' =>
    match last_binding k l' with
    | Some v' => Some v'
    | None => if beqb k' k then Some v else None
    end
  end.

(** The (only) binding of a key in a list with unique keys. *)
Fixpoint binding {A} (k : bytes) (l : list (bytes * A)) : option A :=
  match l with
  | [] => None
  | (k', v) :: l' => if beqb k' k then Some v else binding k l'
  end.
