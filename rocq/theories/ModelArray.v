(** The Array builder and array-valued operations: /repo/src/imtjson/array.cpp,
    array.h, value.cpp. *)
From Verif Require Import Base ModelKeyed ModelValue ModelObject.

(** value.h, [Value::operator[](uintptr_t)]: arrayValue.cpp 16-20,
    objectValue.cpp [itemAtIndex]; undefined past the end and for non-containers. *)
Definition vitem (v : value) (i : nat) : member := nth i (members_of v) ([], VUndef).
(** [Value::size]. value.h 336. *)
Definition vsize (v : value) : nat := length (members_of v).

(** array.h 269-283: base value, [changes.offset] and the vector itself. *)
Record arr := mkArr { a_base : value; a_off : nat; a_chg : list member }.

(** array.cpp 8-17 *)
Definition arr_of (v : value) : arr := mkArr v (vsize v) [].
Definition arr_new : arr := mkArr (VArr []) 0 [].
Definition arr_of_list (l : list member) : arr := mkArr VUndef 0 l.

(** array.cpp 134-143 *)
Definition arr_size (a : arr) : nat := a_off a + length (a_chg a).

(** array.cpp 19-41, [push_back], [add], [addSet]. *)
Definition arr_push (a : arr) (m : member) : arr := mkArr (a_base a) (a_off a) (a_chg a ++ [m]).
Definition arr_add_set (a : arr) (l : list member) : arr := fold_left arr_push l a.

(** array.cpp 177-186, [extendChanges]. *)
Definition arr_extend (a : arr) (pos : nat) : arr :=
  if pos <? a_off a then
    mkArr (a_base a) pos (map (vitem (a_base a)) (seq pos (a_off a - pos)) ++ a_chg a)
  else a.

(** Vector primitives; [None] is undefined behaviour (position past the end).
    Contracts of [std::vector::insert] and [erase] (array.cpp 43-100). *)
Definition vec_insert (l : list member) (i : nat) (x : list member) : option (list member) :=
  if i <=? length l then Some (firstn i l ++ x ++ skipn i l) else None.
Definition vec_erase (l : list member) (b e : nat) : option (list member) :=
  if (b <=? e) && (e <=? length l) then Some (firstn b l ++ skipn e l) else None.
Definition vec_set (l : list member) (i : nat) (x : member) : option (list member) :=
  if i <? length l then Some (firstn i l ++ x :: skipn (S i) l) else None.

(** Model only: the builder with the vector [changes] replaced. *)
Definition with_chg (a : arr) (l : option (list member)) : option arr :=
  option_map (mkArr (a_base a) (a_off a)) l.

(** array.cpp 43-48, [insert]. *)
Definition arr_insert (a : arr) (pos : nat) (m : member) : option arr :=
  let a := arr_extend a pos in with_chg a (vec_insert (a_chg a) (pos - a_off a) [m]).

(** array.cpp 49-65, [insertSet]: the new slots are filled at positions counted
    from [pos + offset] (lines 54, 62) although they were opened at
    [pos - offset].  The fresh slots hold null pointers; leaving one in place is
    reported as [None] at once, its first use would dereference it. *)
Fixpoint fill_slots (l : list (option member)) (i : nat) (x : list member) : option (list (option member)) :=
  match x with
  | [] => Some l
  | m :: x' =>
    if i <? length l then fill_slots (firstn i l ++ Some m :: skipn (S i) l) (S i) x' else None
  end.
Fixpoint all_slots (l : list (option member)) : option (list member) :=
  match l with
  | [] => Some []
  | Some m :: l' => option_map (cons m) (all_slots l')
  | None :: _ => None
  end.
Definition arr_insert_set (a : arr) (pos : nat) (x : list member) : option arr :=
  let a := arr_extend a pos in
  let i := pos - a_off a in
  if i <=? length (a_chg a) then
    let opened := map Some (firstn i (a_chg a)) ++ repeat None (length x) ++ map Some (skipn i (a_chg a)) in
    match fill_slots opened (pos + a_off a) x with
    | Some l => with_chg a (all_slots l)
    | None => None
    end
  else None.

(** array.cpp 76-89 *)
Definition arr_erase_set (a : arr) (pos len : nat) : option arr :=
  let a := arr_extend a pos in
  with_chg a (vec_erase (a_chg a) (pos - a_off a) (pos - a_off a + len)).
Definition arr_erase (a : arr) (pos : nat) : option arr := arr_erase_set a pos 1.

(** array.cpp 90-100 *)
Definition arr_trunc (a : arr) (pos : nat) : option arr :=
  if pos <? a_off a then Some (mkArr (a_base a) pos [])
  else with_chg a (vec_erase (a_chg a) (pos - a_off a) (length (a_chg a))).

(** array.cpp 102-112 *)
Definition arr_clear (a : arr) : arr := mkArr (a_base a) 0 [].
Definition arr_revert (a : arr) : arr := mkArr (a_base a) (vsize (a_base a)) [].

(** array.cpp 114-119 *)
Definition arr_set (a : arr) (pos : nat) (m : member) : option arr :=
  let a := arr_extend a pos in with_chg a (vec_set (a_chg a) (pos - a_off a) m).

(** array.cpp 121-128; [None] is the exception thrown by [vector::at]. *)
Definition arr_get (a : arr) (pos : nat) : option member :=
  if pos <? a_off a then Some (vitem (a_base a) pos) else nth_error (a_chg a) (pos - a_off a).

(** array.cpp 172-176 *)
Definition arr_dirty (a : arr) : bool :=
  negb (a_off a =? vsize (a_base a)) || negb (match a_chg a with [] => true | _ => false end).

(** array.cpp 146-163; the container has room for everything pushed. *)
Definition arr_commit (a : arr) : value :=
  if arr_size a =? 0 then VArr []
  else if negb (arr_dirty a) then a_base a
  else VArr (map (vitem (a_base a)) (seq 0 (a_off a)) ++ filter (fun m => negb (is_undef (snd m))) (a_chg a)).

(** array.h 20-24, [setBaseObject]. *)
Definition arr_set_base (a : arr) (v : value) : arr :=
  match a_chg a with
  | [] => mkArr v (vsize v) []
  | _ => mkArr v (Nat.min (a_off a) (vsize v)) (a_chg a)
  end.

(** array.cpp 269-275, [reverse]: a new builder, so the base is lost. *)
Fixpoint arr_reverse_loop (a : arr) (x : nat) (out : arr) : option arr :=
  match x with
  | O => Some out
  | S x' =>
    match arr_get a x' with
    | Some m => arr_reverse_loop a x' (arr_push out m)
    | None => None
    end
  end.
Definition arr_reverse (a : arr) : option arr := arr_reverse_loop a (arr_size a) arr_new.

(** array.cpp 305-310, [setSize]. *)
Definition arr_set_size (a : arr) (len : nat) (m : member) : option arr :=
  if len <? arr_size a then arr_trunc a len
  else Some (arr_add_set a (repeat m (len - arr_size a))).

(** array.cpp 278-289, [slice(start)].  [Int] is 64 bits and the negation of the
    smallest one is left aside.  The recursive call has a non-negative start. *)
Definition arr_slice_pos (a : arr) (start : nat) : option arr :=
  if arr_size a <=? start then Some (arr_clear a) else arr_erase_set a 0 start.
Definition arr_slice1 (a : arr) (start : Z) : option arr :=
  (let sz := Z.of_nat (arr_size a) in
   if start <? 0 then
     if - start <? sz then arr_slice_pos a (Z.to_nat (sz + start)) else Some a
   else arr_slice_pos a (Z.to_nat start))%Z.

(** array.cpp 292-303, [slice(start, end)]: after the recursive call of line 295
    the code falls through to line 302 and slices by [start] again. *)
Definition arr_slice_end (a : arr) (start : Z) (e : nat) : option arr :=
  match (if e <? arr_size a then arr_trunc a e else Some a) with
  | Some a => arr_slice1 a start
  | None => None
  end.
Definition arr_slice2 (a : arr) (start e : Z) : option arr :=
  (let sz := Z.of_nat (arr_size a) in
   if e <? 0 then
     match (if - e <? sz then arr_slice_end a start (Z.to_nat (sz + e)) else Some (arr_clear a)) with
     | Some a => arr_slice1 a start
     | None => None
     end
   else arr_slice_end a start (Z.to_nat e))%Z.

(** Operations on a builder. The functions of array.cpp 19-121, 269-303. *)
Inductive aop :=
| APush (m : member) | AAddSet (v : value) | AInsert (pos : nat) (m : member)
| AInsertSet (pos : nat) (l : list member)
| AErase (pos : nat) | AEraseSet (pos len : nat) | ATrunc (pos : nat) | AClear | ARevert
| ASet (pos : nat) (m : member) | AReverse | ASetSize (len : nat) (m : member)
| ASlice1 (start : Z).

(** Dispatch to the functions above (array.cpp 19-121, 269-303). *)
Definition arr_step (a : arr) (op : aop) : option arr :=
  match op with
  | APush m => Some (arr_push a m)
  | AAddSet v => Some (arr_add_set a (members_of v))
  | AInsert pos m => arr_insert a pos m
  | AInsertSet pos l => arr_insert_set a pos l
  | AErase pos => arr_erase a pos
  | AEraseSet pos len => arr_erase_set a pos len
  | ATrunc pos => arr_trunc a pos
  | AClear => Some (arr_clear a)
  | ARevert => Some (arr_revert a)
  | ASet pos m => arr_set a pos m
  | AReverse => arr_reverse a
  | ASetSize len m => arr_set_size a len m
  | ASlice1 s => arr_slice1 a s
  end.
(** Model only: calls one after another. *)
Fixpoint arr_run (a : arr) (ops : list aop) : option arr :=
  match ops with
  | [] => Some a
  | op :: ops' => match arr_step a op with Some a' => arr_run a' ops' | None => None end
  end.

(** *** Operations of Value *)
(** value.cpp 829-857, [Value::slice(start, end)]; the one-argument form (829)
    passes the size as [end].  [build_object] is the constructor of value.cpp
    378-411 for objects; it skips undefined items, as it does for arrays. *)
Definition vslice_range (v : value) (s e : nat) : value :=
  let items := map (vitem v) (seq s (e - s)) in
  match v with
  | VObj _ _ => VObj false (build_object is_undef items)
  | _ => VArr (filter (fun m => negb (is_undef (snd m))) items)
  end.
Definition vslice_pos (v : value) (s e : Z) : value :=
  (let sz := Z.of_nat (vsize v) in
   if (e <=? s) || (sz <=? s) then VArr []
   else vslice_range v (Z.to_nat s) (Z.to_nat (if sz <=? e then sz else e)))%Z.
Definition vslice (v : value) (s e : Z) : value :=
  (let sz := Z.of_nat (vsize v) in
   if sz =? 0 then VArr []
   else if s <? 0 then
     if sz <=? - s then v else vslice_pos v (sz + s) sz
   else if e <? 0 then
     if sz <=? - e then VArr [] else vslice_pos v s (sz + e)
   else vslice_pos v s e)%Z.
Definition vslice1 (v : value) (s : Z) : value := vslice v s (Z.of_nat (vsize v)).

(** value.cpp 757-802: [shift], [unshift], [push], [pop] on containers; the new
    value of the variable and the result. *)
Definition vshift (v : value) : value * member := (vslice1 v 1, vitem v 0).
Definition vunshift (v : value) (m : member) : value :=
  arr_commit (arr_add_set (arr_push arr_new m) (members_of v)).
Definition vpush (v : value) (m : member) : value := arr_commit (arr_push (arr_of v) m).
Definition vpop (v : value) : option (value * member) :=
  if vsize v =? 0 then Some (v, ([], VUndef))
  else
    match arr_get (arr_of v) (vsize v - 1), arr_erase (arr_of v) (vsize v - 1) with
    | Some m, Some a => Some (arr_commit a, m)
    | _, _ => None
    end.

(** value.cpp 340-346, [Value::reverse]. *)
Definition vreverse (v : value) : value :=
  arr_commit (arr_add_set arr_new (map (fun i => vitem v (vsize v - 1 - i)) (seq 0 (vsize v)))).

(** *** Views (value.cpp 196-228).  An array value as [splitAt] sees it: the
    items of the array the view refers to, where it starts and its length.  An
    ordinary array is a view of all of itself. *)
Record view := mkView { w_items : list member; w_start : nat; w_len : nat }.
Definition view_of (l : list member) : view := mkView l 0 (length l).
(** value.cpp 213-215: no check against [len]. *)
Definition view_item (w : view) (i : nat) : member := nth (w_start w + i) (w_items w) ([], VUndef).
(** value.cpp 199-208: a view of a view refers to the original array (through a
    key proxy it refers to the view, with the same effect). *)
Definition sub_view (w : view) (start len : nat) : view := mkView (w_items w) (w_start w + start) len.
Definition empty_view : view := view_of [].

(** value.cpp 231-256, [Value::splitAt] on arrays.  [(int)sz] truncates. *)
Definition split_pos (w : view) (pos : Z) : view * view :=
  (if 0 <? pos then
     if pos <? Z.of_nat (w_len w) then
       (sub_view w 0 (Z.to_nat pos), sub_view w (Z.to_nat pos) (w_len w - Z.to_nat pos))
     else (w, empty_view)
   else (empty_view, w))%Z.
Definition split_at (w : view) (pos : Z) : view * view :=
  (if pos <? 0 then
     let p := s32 (Z.of_nat (w_len w)) + pos in
     if 0 <? p then split_pos w p else (empty_view, w)
   else split_pos w pos)%Z.
