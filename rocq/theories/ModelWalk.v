(** Going through values and making them from sequences: /repo/src/imtjson/value.h
    457-468 ([forEach]), 1188-1226 ([ValueIterator]), 1264-1284 (construction from a
    sequence, [walk]), value.cpp 334-335 ([begin], [end]), 378-437 (construction by
    type).  Arrays that are views of other arrays (value.cpp 196-228) do not check the
    index and are left to [ModelArray]. *)
From Verif Require Import Base ModelKeyed ModelValue ModelText ModelObject ModelArray ModelString.
Local Open Scope Z_scope.

(** *** Iterators: value.h 1188-1226.  [UInt] has 64 bits. *)
Record iter := mkIt { it_v : value; it_i : Z }.
(** value.h 359, arrayValue.cpp 16-20, objectValue.cpp 13-17, abstractValue.h 22. *)
Definition item_at (v : value) (i : Z) : member :=
  if i <? Z.of_nat (vsize v) then vitem v (Z.to_nat i) else ([], VUndef).
(** value.cpp 334-335 *)
Definition it_begin (v : value) : iter := mkIt v 0.
Definition it_end (v : value) : iter := mkIt v (Z.of_nat (vsize v)).
(** 1194-1198; the forms after the operand give the iterator before the change. *)
Definition it_deref (it : iter) : member := item_at (it_v it) (it_i it).
Definition it_next (it : iter) : iter := mkIt (it_v it) (u64 (it_i it + 1)).
Definition it_prev (it : iter) : iter := mkIt (it_v it) (u64 (it_i it - 1)).
Definition it_next_post (it : iter) : iter * iter :=
  let it' := it_next it in (it', mkIt (it_v it') (u64 (it_i it' - 1))).
Definition it_prev_post (it : iter) : iter * iter :=
  let it' := it_prev it in (it', mkIt (it_v it') (u64 (it_i it' + 1))).
(** 1208-1213 *)
Definition it_at_end (it : iter) : bool := Z.of_nat (vsize (it_v it)) <=? it_i it.
Definition it_at_begin (it : iter) : bool := it_i it =? 0.
(** 1200-1206; [copy] tells whether the two values share one object (value.h 847). *)
Definition it_eq (copy : bool) (a b : iter) : bool :=
  (it_at_end b && it_at_end a) || ((it_i a =? it_i b) && copy).
(** 1214-1218; the [int] is converted to [UInt], the difference to [Int]. *)
Definition it_add (it : iter) (p : Z) : iter := mkIt (it_v it) (u64 (it_i it + u64 p)).
Definition it_sub (it : iter) (p : Z) : iter := mkIt (it_v it) (u64 (it_i it - u64 p)).
Definition it_diff (a b : iter) : Z := s64 (u64 (it_i a - it_i b)).

Section Callback.
Context {T : Type}.

(** [for (Value x : v)]: the loop from [begin] to [end] of one value. value.h 598-601. *)
Fixpoint range_loop (fuel : nat) (fn : T -> member -> T) (st : T) (it e : iter) : option T :=
  if negb (it_eq true it e) then
    match fuel with
    | O => None
    | S fuel' => range_loop fuel' fn (fn st (it_deref it)) (it_next it) e
    end
  else Some st.
Definition range_for (fn : T -> member -> T) (st : T) (v : value) : option T :=
  range_loop (vsize v) fn st (it_begin v) (it_end v).

(** value.h 457-468, [forEach]; arrayValue.cpp 22-28, objectValue.cpp 19-25, abstractValue.h
    24, [enumItems]. *)
Fixpoint enum_items (fn : T -> member -> T * bool) (st : T) (l : list member) : T * bool :=
  match l with
  | [] => (st, true)
  | x :: l' => let '(st', b) := fn st x in if b then enum_items fn st' l' else (st', false)
  end.
Definition for_each (fn : T -> member -> T * bool) (st : T) (v : value) : T * bool :=
  enum_items fn st (members_of v).

(** value.h 1275-1283, [walk]; the loop over the items is a range loop. *)
Fixpoint walk_value (fn : T -> member -> T * bool) (st : T) (k : bytes) (v : value) : T :=
  let '(st', enter) := fn st (k, v) in
  if enter then
    match v with
    | VArr l | VObj _ l =>
      (fix each (st : T) (l : list (bytes * value)) : T :=
         match l with [] => st | (k', x) :: l' => each (walk_value fn st k' x) l' end) st' l
    | _ => st'
    end
  else st'.
Definition walk (fn : T -> member -> T * bool) (st : T) (m : member) : T := walk_value fn st (fst m) (snd m).

End Callback.

(** *** Values made from a sequence of values: value.cpp 378-437 *)
Inductive target := TyArray | TyObject | TyString | TyOther.
Definition of_items (E : serenv) (utf8 : bool) (ty : target) (items : list member) (skip_undef : bool) : res value :=
  let skip v := skip_undef && is_undef v in
  match ty with
  | TyArray => Ok (VArr (filter (fun m => negb (skip (snd m))) items))
  | TyObject => Ok (VObj false (build_object skip items))
  (* 414-433; [skipUndef] is not looked at *)
  | TyString =>
    match all_some (map (fun m => to_string E utf8 (snd m)) items) with
    | Some texts => Ok (VStr None (concat texts))
    | None => Err
    end
  (* 434-435 *)
  | TyOther => Err
  end.

(** value.h 1264-1272 *)
Fixpoint map_items {T A} (fn : T -> A -> T * member) (st : T) (buffer : list member) (l : list A) : T * list member :=
  match l with
  | [] => (st, buffer)
  | x :: l' => let '(st', m) := fn st x in map_items fn st' (buffer ++ [m]) l'
  end.
Definition of_sequence {T A} (E : serenv) (utf8 : bool) (ty : target) (fn : T -> A -> T * member) (st : T) (l : list A)
  (skip_undef : bool) : T * res value :=
  let '(st', items) := map_items fn st [] l in (st', of_items E utf8 ty items skip_undef).
