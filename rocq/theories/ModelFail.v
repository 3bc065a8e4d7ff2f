(** Builders when memory runs out: /repo/src/imtjson/object.cpp, array.cpp.
    An operation is run as in ModelObject and ModelArray, and the states it is in when it
    asks for memory are listed; when one of these requests fails [std::bad_alloc] leaves
    the operation and the builder stays as it was at that moment.  [Value::allocator]
    (value.h 1147-1155) may be the user's own. *)
From Verif Require Import Base ModelKeyed ModelValue ModelObject ModelArray.

(** Which request fails: [Some n] the n-th one, counted from 0; [None] none. *)
Definition failing {A} (points : list A) (n : option nat) : option A :=
  match n with Some i => nth_error points i | None => None end.

(** ** Object *)
(** object.cpp 177-195, [optimize]: the changes are sorted in place (181) before memory is
    asked for (183, 189; [applyDiffImpl] asks once, 326).  [std::stable_sort] does without
    its buffer when there is no memory. *)
Definition optimize_points (o : obj) : list obj :=
  match o_unordered o with
  | None => []
  | Some (cap, u) =>
    if Nat.eqb (length u) 0 then [] else [mkObj (o_base o) (o_snap o) (o_ordered o) (Some (cap, obj_sort u))]
  end.

(** 94-109, [set_internal]: the first layer (99), a larger one (104), [optimize] (105). *)
Definition set_points (o : obj) : list obj :=
  let o1 := mkObj (o_base o) VUndef (o_ordered o) (o_unordered o) in
  match o_unordered o with
  | None => [o1]
  | Some (cap, u) => if length u <? cap then [] else o1 :: optimize_points o1
  end.
(** 225-231, [merge]. *)
Fixpoint merge_points (o : obj) (l : list member) : list obj :=
  match l with
  | [] => []
  | m :: l' => set_points o ++ merge_points (obj_set o m) l'
  end.
(** 198-205, [commit]: [optimize], then [applyDiff] when there are changes. *)
Definition commit_points (o : obj) : list obj :=
  optimize_points o ++
  match o_ordered (obj_optimize o) with Some _ => [obj_optimize o] | None => [] end.
(** 140-160, [operator[]]. *)
Definition read_points (o : obj) : list obj :=
  match o_unordered o, o_ordered o with
  | Some (_, u), Some (_, l) => if (16 <? length u) && (Nat.div (length l) 2 <? length u) then optimize_points o else []
  | _, _ => []
  end.

(** The states at the requests of an operation on a pair of builders (ModelObject).
    [set(name, value)] makes a value with the name first (123; nothing is asked for when the
    value carries the name already, which is a history with the requests counted
    otherwise).  Copying asks for the layer of the copy last (72, 80): a copy under
    construction is then no more, but a builder assigned to has been given its contents. *)
Definition obj_points (p : obj * obj) (op : oop) : list (obj * obj) :=
  let '(x, y) := p in
  match op with
  | OSet _ _ | OUnset _ => map (fun x' => (x', y)) (x :: set_points x)
  | OMerge v => map (fun x' => (x', y)) (merge_points x (members_of v))
  | OOptimize | OCommitDiff => map (fun x' => (x', y)) (optimize_points x)
  | ORead _ => map (fun x' => (x', y)) (read_points x)
  | OCommit => map (fun x' => (x', y)) (commit_points x)
  | OIterate => if is_undef (o_snap x) then map (fun x' => (x', y)) (commit_points x) else []
  | OClear | ORevert | OSetBase _ | OMove | OSwap => []
  | OAssign =>
    map (fun y' => (mkObj (o_base y) (o_snap x) None None, y')) (optimize_points y) ++
    match o_ordered (obj_optimize y) with
    | Some _ => [(mkObj (o_base y) (o_snap x) (o_ordered (obj_optimize y)) None, obj_optimize y)]
    | None => []
    end
  | OCopy => map (fun x' => (x', y)) (commit_points x)
  end.

(** One operation: the builders afterwards and whether it threw. *)
Definition obj_try (p : obj * obj) (op : oop) (n : option nat) : option ((obj * obj) * bool) :=
  match obj_step p op with
  | None => None
  | Some p' => Some (match failing (obj_points p op) n with Some x => (x, true) | None => (p', false) end)
  end.
Fixpoint obj_tries (p : obj * obj) (ops : list (oop * option nat)) : option ((obj * obj) * list bool) :=
  match ops with
  | [] => Some (p, [])
  | (op, n) :: ops' =>
    match obj_try p op n with
    | None => None
    | Some (p1, t) => match obj_tries p1 ops' with None => None | Some (p2, ts) => Some (p2, t :: ts) end
    end
  end.

(** ** Array *)
(** array.cpp 177-186, [extendChanges]: room is made first. *)
Definition extend_points (a : arr) (pos : nat) : list arr := if pos <? a_off a then [a] else [].
(** 278-289, [slice(start)]. *)
Definition slice1_points (a : arr) (start : Z) : list arr :=
  (let sz := Z.of_nat (arr_size a) in
   if start <? 0 then if - start <? sz then extend_points a 0 else []
   else if sz <=? start then [] else extend_points a 0)%Z.
(** [push_back] (18-27), [addSet] (28-41, all the room at once), [insert] (43-48), [insertSet]
    (49-65), [erase], [eraseSet] (76-89), [set] (114-119), [reverse] (269-275, a new builder
    item by item), [setSize] (305-310, all the room at once).  A vector that has room asks
    for none, which is a history with the requests counted otherwise. *)
Definition arr_points (a : arr) (op : aop) : list arr :=
  match op with
  | APush _ | AAddSet _ | ASetSize _ _ => [a]
  | AInsert pos _ | AInsertSet pos _ => extend_points a pos ++ [arr_extend a pos]
  | AErase pos | AEraseSet pos _ | ASet pos _ => extend_points a pos
  | ATrunc _ | AClear | ARevert => []
  | AReverse => repeat a (arr_size a)
  | ASlice1 start => slice1_points a start
  end.
Definition arr_try (a : arr) (op : aop) (n : option nat) : option (arr * bool) :=
  match arr_step a op with
  | None => None
  | Some a' => Some (match failing (arr_points a op) n with Some x => (x, true) | None => (a', false) end)
  end.
Fixpoint arr_tries (a : arr) (ops : list (aop * option nat)) : option (arr * list bool) :=
  match ops with
  | [] => Some (a, [])
  | (op, n) :: ops' =>
    match arr_try a op n with
    | None => None
    | Some (a1, t) => match arr_tries a1 ops' with None => None | Some (a2, ts) => Some (a2, t :: ts) end
    end
  end.

(** 234-239, [x = other], with 254-258: the array is taken over before the vector is copied,
    the offset after it. *)
Definition arr_assign_try (x other : arr) (n : option nat) : arr * bool :=
  match failing [mkArr (a_base other) (a_off x) (a_chg x)] n with
  | Some x => (x, true)
  | None => (other, false)
  end.
(** 292-303, [slice(start, end)] with [end] not negative: cut at the end first. *)
Definition arr_slice_try (a : arr) (start : Z) (e : nat) (n : option nat) : option (arr * bool) :=
  match (if e <? arr_size a then arr_trunc a e else Some a) with
  | None => None
  | Some a1 =>
    match arr_slice1 a1 start with
    | None => None
    | Some a' => Some (match failing (slice1_points a1 start) n with Some x => (x, true) | None => (a', false) end)
    end
  end.
