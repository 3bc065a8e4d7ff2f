(** Sorting and grouping of builders and putting items before an array:
    /repo/src/imtjson/operations.h. *)
From Verif Require Import Base ModelStd ModelValue ModelObject ModelArray ModelOrdered ModelSearch.

(** array.h 293-313: iteration from [begin] to [end] reads the builder at each index;
    [None] is the exception of [vector::at]. *)
Fixpoint arr_items_loop (a : arr) (i k : nat) : option (list member) :=
  match k with
  | O => Some []
  | S k' =>
    match arr_get a i with
    | Some m => option_map (cons m) (arr_items_loop a (S i) k')
    | None => None
    end
  end.
Definition arr_items (a : arr) : option (list member) := arr_items_loop a 0 (arr_size a).

Section Sort.
Variable cmp : member -> member -> Z.

(** operations.h 441-453, [genSort]: the items are put into an empty builder, whose vector is
    sorted in place; [std::sort] may give any result its contract allows.  The vector is
    reserved first, which changes no item. *)
Definition gen_sort (items : list member) (r : arr) : Prop :=
  let out := fold_left arr_push items arr_new in
  exists l, sort_result (fun a b => cmp a b <? 0)%Z (a_chg out) l /\ r = mkArr (a_base out) (a_off out) l.

(** operations.h 455-458, [Array::sort]; [None] is an exception. *)
Definition arr_sorts (a : arr) (r : option arr) : Prop :=
  match arr_items a with
  | Some l => exists s, gen_sort l s /\ r = Some s
  | None => r = None
  end.

(** operations.h 510-514, [Object::sort]: the builder afterwards and the result.  [size] (only
    for reserving) does not change the builder. *)
Definition obj_sorts (o o' : obj) (r : arr) : Prop :=
  let '(o1, items) := obj_iterate (obj_optimize o) in o' = o1 /\ gen_sort items r.

(** operations.h 460-480, [Array::split]: each part is a builder committed when it is added.
    The part builder is cleared rather than made again, which leaves it as a new one. *)
Definition arr_part (l : list member) : member := ([], arr_commit (fold_left arr_push l arr_new)).
Definition arr_parts (a : arr) : option arr :=
  option_map (fun l => fold_left arr_push (map arr_part (arr_split cmp l)) arr_new) (arr_items a).

(** operations.h 482-491, [Array::group]: [mk] makes a value of the accumulator. *)
Section Group.
Context {T : Type}.
Variable fn : T -> member -> T.
Variable mk : T -> member.
Fixpoint group_parts (init : T) (l : list member) (res : arr) : option arr :=
  match l with
  | [] => Some res
  | m :: l' =>
    match vreduce fn (snd m) init with
    | Some x => group_parts init l' (arr_push res (mk x))
    | None => None
    end
  end.
Definition arr_group (init : T) (a : arr) : option arr :=
  match arr_parts a with
  | Some p => match arr_items p with Some l => group_parts init l arr_new | None => None end
  | None => None
  end.
(** operations.h 410-413, [Value::group]; the result becomes a value. *)
Definition vgroup (init : T) (v : value) : option value := option_map arr_commit (arr_group init (arr_of v)).
End Group.
End Sort.

(** operations.h 516-528, [Value::unshift] of a sequence, also value.cpp 860-862: the new value
    of the variable and the size returned. *)
Definition vunshift_all (v : value) (items : list member) : value * nat :=
  let w := arr_commit (arr_add_set (fold_left arr_push items arr_new) (members_of v)) in (w, vsize w).
