(** Searching, filtering, mapping and reducing containers:
    /repo/src/imtjson/operations.h 337-450, 493-503, 545-581 and value.cpp
    509-525.  A user's function has a state of its own, passed along in the
    order of the calls. *)
From Verif Require Import Base ModelKeyed ModelValue ModelObject ModelArray.
Local Open Scope Z_scope.

(** value.h 945 *)
Definition npos : Z := 2 ^ 64 - 1.

(** value.cpp 509-516, [indexOf]; [eqv] is [operator==] (value.cpp 323-326), [k]
    the number of positions left. *)
Fixpoint index_of_loop (eqv : value -> value -> bool) (v x : value) (i k : nat) : Z :=
  match k with
  | O => npos
  | S k' => if eqv (snd (vitem v i)) x then Z.of_nat i else index_of_loop eqv v x (S i) k'
  end.
Definition index_of (eqv : value -> value -> bool) (v x : value) (start : nat) : Z :=
  index_of_loop eqv v x start (vsize v - start).

(** value.cpp 517-525, [lastIndexOf]. *)
Fixpoint last_index_of_loop (eqv : value -> value -> bool) (v x : value) (i : nat) : Z :=
  match i with
  | O => npos
  | S i' => if eqv (snd (vitem v i')) x then Z.of_nat i' else last_index_of_loop eqv v x i'
  end.
Definition last_index_of (eqv : value -> value -> bool) (v x : value) (start : nat) : Z :=
  last_index_of_loop eqv v x (Nat.min start (vsize v)).

Section Callback.
Context {T : Type}.

(** *** Predicates: item, index, the answer *)
Section Pred.
Variable fn : T -> member -> nat -> T * bool.

(** operations.h 545-550, [findIndex]. *)
Fixpoint find_index_loop (v : value) (st : T) (x k : nat) : T * Z :=
  match k with
  | O => (st, -1)
  | S k' =>
    let '(st', b) := fn st (vitem v x) x in
    if b then (st', Z.of_nat x) else find_index_loop v st' (S x) k'
  end.
Definition find_index (st : T) (v : value) : T * Z := find_index_loop v st 0 (vsize v).

(** 552-557, [rfindIndex]. *)
Fixpoint rfind_index_loop (v : value) (st : T) (x : nat) : T * Z :=
  match x with
  | O => (st, -1)
  | S x' =>
    let '(st', b) := fn st (vitem v x') x' in
    if b then (st', Z.of_nat x') else rfind_index_loop v st' x'
  end.
Definition rfind_index (st : T) (v : value) : T * Z := rfind_index_loop v st (vsize v).

(** 558-569, [find], [rfind]. *)
Definition item_or_undefined (v : value) (f : Z) : member :=
  if f =? -1 then ([], VUndef) else vitem v (Z.to_nat f).
Definition vfind (st : T) (v : value) : T * member :=
  let '(st', f) := find_index st v in (st', item_or_undefined v f).
Definition vrfind (st : T) (v : value) : T * member :=
  let '(st', f) := rfind_index st v in (st', item_or_undefined v f).

(** 571-576: the loop of [filter]. *)
Fixpoint vfilter_loop (v : value) (st : T) (buffer : list member) (x k : nat) : T * list member :=
  match k with
  | O => (st, buffer)
  | S k' =>
    let '(st', b) := fn st (vitem v x) x in
    vfilter_loop v st' (if b then buffer ++ [vitem v x] else buffer) (S x) k'
  end.
(** 570-581, [filter]; the result is made by value.cpp 378-411, which skips
    undefined items. *)
Definition vfilter (st : T) (v : value) : T * value :=
  let '(st', buffer) := vfilter_loop v st [] 0 (vsize v) in
  (st', match v with
        | VObj _ _ => VObj false (build_object is_undef buffer)
        | _ => VArr (filter (fun m => negb (is_undef (snd m))) buffer)
        end).
End Pred.

(** *** Mapping.  The function returns a handle: its key if it is a proxy
    (key.h), and the value. *)
Definition handle := (option bytes * value)%type.
Definition handle_key (h : handle) : bytes := match fst h with Some k => k | None => [] end.

Section Map.
Variable fn : T -> member -> T * handle.

(** array.h 293-310 and operations.h 417-423, [Array::map]: iteration reads
    the builder at each index; [None] is the exception of [vector::at]. *)
Fixpoint arr_map_loop (a : arr) (st : T) (out : arr) (i k : nat) : option (T * arr) :=
  match k with
  | O => Some (st, out)
  | S k' =>
    match arr_get a i with
    | None => None
    | Some m =>
      let '(st', h) := fn st m in
      arr_map_loop a st' (arr_push out (handle_key h, snd h)) (S i) k'
    end
  end.
Definition arr_map (st : T) (a : arr) : option (T * arr) :=
  arr_map_loop a st arr_new 0 (arr_size a).

(** operations.h 493-503, [Object::map], on the items iteration shows. *)
Fixpoint obj_map_loop (l : list member) (st : T) (out : obj) : T * obj :=
  match l with
  | [] => (st, out)
  | m :: l' =>
    let '(st', h) := fn st m in
    let k := match fst h with Some k => k | None => fst m end in
    obj_map_loop l' st' (obj_set out (k, snd h))
  end.
Definition obj_map (st : T) (o : obj) : T * obj :=
  let '(_, items) := obj_iterate o in obj_map_loop items st (obj_new empty_object).

(** Which container the result is put in. *)
Inductive target := ToObject | ToArray | ToSame.
(** operations.h 337-355, [Value::map]; the builder is committed when it becomes
    a [Value]. *)
Definition map_object (st : T) (v : value) : option (T * value) :=
  let '(st', o) := obj_map st (obj_new v) in Some (st', snd (obj_commit o)).
Definition map_array (st : T) (v : value) : option (T * value) :=
  match arr_map st (arr_of v) with
  | Some (st', a) => Some (st', arr_commit a)
  | None => None
  end.
Definition vmap (st : T) (v : value) : option (T * value) :=
  match v with
  | VObj _ _ => map_object st v
  | VArr _ => map_array st v
  | _ => Some (st, VUndef)
  end.
Definition vmap_to (st : T) (v : value) (t : target) : option (T * value) :=
  match t with ToObject => map_object st v | ToArray => map_array st v | ToSame => vmap st v end.
End Map.

(** operations.h 425-438 and 358-361, [reduce]; the accumulated value is all the
    state. *)
Fixpoint reduce_loop (fn : T -> member -> T) (a : arr) (acc : T) (i k : nat) : option T :=
  match k with
  | O => Some acc
  | S k' =>
    match arr_get a i with
    | None => None
    | Some m => reduce_loop fn a (fn acc m) (S i) k'
    end
  end.
Definition vreduce (fn : T -> member -> T) (v : value) (init : T) : option T :=
  reduce_loop fn (arr_of v) init 0 (arr_size (arr_of v)).

(** operations.h 385-408, the free function [merge]; an argument is [None] when
    the placeholder is passed. *)
Section Walk.
Context {A B : Type}.
Variable fn : T -> option A -> option B -> T * Z.
Definition walk_left (l : list A) (st : T) : T := fold_left (fun st x => fst (fn st (Some x) None)) l st.
Definition walk_right (r : list B) (st : T) : T := fold_left (fun st y => fst (fn st None (Some y))) r st.
Fixpoint merge_walk (l : list A) : list B -> T -> T :=
  fix go (r : list B) (st : T) {struct r} : T :=
    match l, r with
    | [], _ => walk_right r st
    | _, [] => walk_left l st
    | x :: l', y :: r' =>
      let '(st', res) := fn st (Some x) (Some y) in
      if res <? 0 then merge_walk l' r st'
      else if 0 <? res then go r' st'
      else merge_walk l' r' st'
    end.
End Walk.
End Callback.
