(** What merge, diff and setItems speak about. *)
From Coq Require Import Sorted.
From Verif Require Import Base ModelKeyed SpecKeyed ModelValue ModelObject ModelEq.

(** A member that stays: undefined ones are dropped. *)
Definition kept (v : option value) : option value :=
  match v with Some VUndef => None | _ => v end.

(** Objects, and objects directly nested in them, have increasing keys. *)
Fixpoint deep_sorted (v : value) : Prop :=
  match v with
  | VObj _ l => keys_increasing l /\ fold_right (fun m P => deep_sorted (snd m) /\ P) True l
  | _ => True
  end.
(** ... and no undefined members. *)
Fixpoint deep_plain (v : value) : Prop :=
  match v with
  | VObj _ l => keys_increasing l /\ fold_right (fun m P => (is_undef (snd m) = false /\ deep_plain (snd m)) /\ P) True l
  | _ => True
  end.

(** [eq] returns only what [operator==] can return, however objects are shared. *)
Definition eq_ok (L : libm) (eq : value -> value -> bool) : Prop :=
  forall v w, op_eq L v w (eq v w).

Definition all_defined (l : list member) : Prop := Forall (fun m => is_undef (snd m) = false) l.

(** Keys in order, equal ones allowed. *)
Definition kle (a b : bytes) : Prop := ~ klt b a.
Definition keys_sorted (l : list member) : Prop := StronglySorted (fun a b => kle (fst a) (fst b)) l.
(** Members whose key is not among those of [fields]. *)
Definition not_given (fields : list member) (m : member) : bool := negb (existsb (fun f => beqb (fst f) (fst m)) fields).

Section Script.
Variable eq : value -> value -> bool.

(** [pos] holds an item equal to [v], the first one in the order last, last+1,
    ..., end, 0, 1, ..., last-1. *)
Definition hit (cur : list member) (v : value) (i : nat) : Prop :=
  exists m, nth_error cur i = Some m /\ eq (snd m) v = true.
Definition first_hit (cur : list member) (v : value) (last pos : nat) : Prop :=
  hit cur v pos /\
  ((last <= pos /\ forall j, last <= j < pos -> ~ hit cur v j) \/
   (pos < last /\ forall j, last <= j \/ j < pos -> ~ hit cur v j)).
Definition no_hit (cur : list member) (v : value) : Prop := forall j, ~ hit cur v j.

(** The edit script after the undefined item of an array: pairs of an item to
    find and an item to put before it; undefined removes the found item; an item
    whose place is not found goes to the end. *)
Inductive script : list member -> nat -> list member -> list member -> Prop :=
| Sc_end : forall cur last, script cur last [] cur
| Sc_odd : forall cur last f, script cur last [f] cur
| Sc_insert : forall cur last f i s r pos, first_hit cur (snd f) last pos -> is_undef (snd i) = false ->
    script (firstn pos cur ++ i :: skipn pos cur) (pos + 1) s r -> script cur last (f :: i :: s) r
| Sc_remove : forall cur last f i s r pos, first_hit cur (snd f) last pos -> is_undef (snd i) = true ->
    script (firstn pos cur ++ skipn (S pos) cur) last s r -> script cur last (f :: i :: s) r
| Sc_append : forall cur last f i s r, no_hit cur (snd f) -> last <= length cur -> is_undef (snd i) = false ->
    script (cur ++ [i]) last s r -> script cur last (f :: i :: s) r
| Sc_skip : forall cur last f i s r, no_hit cur (snd f) -> last <= length cur -> is_undef (snd i) = true ->
    script cur last s r -> script cur last (f :: i :: s) r.

Definition same_item (x y : member) : Prop := snd x = snd y \/ eq (snd x) (snd y) = true.

(** Two arrays that the comparison of [diff], item by item with a look at the
    next item on either side (undefined past the end of the second), uses up at
    the same time. *)
Inductive aligned : list member -> list member -> Prop :=
| Al_nil : aligned [] []
| Al_same : forall x l y m, eq (snd x) (snd y) = true -> aligned l m -> aligned (x :: l) (y :: m)
| Al_removed : forall x x' l y m, eq (snd x) (snd y) = false -> eq (snd x') (snd y) = true ->
    aligned (x' :: l) (y :: m) -> aligned (x :: x' :: l) (y :: m)
| Al_added : forall x l y y' m, eq (snd x) (snd y) = false ->
    (forall x' l', l = x' :: l' -> eq (snd x') (snd y) = false) -> eq (snd x) (snd y') = true ->
    aligned (x :: l) (y' :: m) -> aligned (x :: l) (y :: y' :: m)
| Al_changed : forall x l y m, eq (snd x) (snd y) = false ->
    (forall x' l', l = x' :: l' -> eq (snd x') (snd y) = false) ->
    eq (snd x) (hd VUndef (map snd m)) = false ->
    aligned l m -> aligned (x :: l) (y :: m).
End Script.
