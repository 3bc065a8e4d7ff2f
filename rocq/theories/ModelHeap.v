(** Object builders and values as the memory holds them: containers live in a
    heap, values and builders refer to them, copies of a builder and committed
    diffs share them.  /repo/src/imtjson/object.cpp, object.h, objectValue.cpp,
    container.h, value.cpp.
    Simplifications: nothing is ever freed (the reference counts of refcnt.h,
    a submodule absent from /repo, are assumed to keep every referenced
    container alive); a value held in a variable does not carry a key. *)
From Verif Require Import Base ModelKeyed ModelValue ModelObject.

(** A handle: a value that holds no shared container ([HV]: scalars and
    anything made by code outside this file, never changed by it), or the
    address of a container. value.h 1159: the pointer [v]. *)
Inductive hval :=
| HV (v : value)
| HR (a : nat).
Notation hmember := (bytes * hval)%type.

(** objectValue.h 11-45, arrayValue.h: a container.  [c_obj] is [None] for an
    array and the [isDiff] flag for an object. *)
Record cell := mkCell {
  c_obj : option bool;
  c_cap : nat;
  c_items : list hmember
}.
Definition heap := list cell.

(** container.h 143-160 (operator new): a new container at a new address. *)
Definition h_alloc (h : heap) (c : cell) : heap * nat := (h ++ [c], length h).

(** A container changed in place. Model only. *)
Fixpoint h_write (h : heap) (a : nat) (c : cell) : heap :=
  match h, a with
  | [], _ => []
  | _ :: h', O => c :: h'
  | x :: h', S a' => x :: h_write h' a' c
  end.

(** The type and items of a value as its interface shows them (value.h:
    [type], [size], [operator[]], iteration).  The outer [None] is a dangling
    address; a value without items has the type [None]. *)
Definition lift_items (l : list member) : list hmember := map (fun m => (fst m, HV (snd m))) l.
Definition h_view (h : heap) (x : hval) : option (option (option bool) * list hmember) :=
  match x with
  | HV (VObj d l) => Some (Some (Some d), lift_items l)
  | HV (VArr l) => Some (Some None, lift_items l)
  | HV _ => Some (None, [])
  | HR a => match nth_error h a with Some c => Some (Some (c_obj c), c_items c) | None => None end
  end.

(** value.h, [Value::defined] negated: containers are defined. value.h 611. *)
Definition hv_undef (x : hval) : bool := match x with HV v => is_undef v | HR _ => false end.

(** object.cpp 323-383, [applyDiffImpl] with [defaultMerge], on handles: the
    new container [acc] of capacity [cap] takes over handles. *)
Section HApply.
Variables (cd : bool) (cap : nat).
Definition hpush (acc : list hmember) (x : hmember) : list hmember := snd (cpush cap acc x).
Definition hpush_new (acc : list hmember) (y : hmember) : list hmember :=
  if negb (hv_undef (snd y)) then hpush acc y else if cd then hpush acc y else acc.
Fixpoint happly_loop (b : list hmember) : list hmember -> list hmember -> list hmember :=
  fix inner (acc d : list hmember) {struct d} : list hmember :=
    match b, d with
    | [], _ => fold_left hpush_new d acc
    | _, [] => fold_left hpush b acc
    | x :: b', y :: d' =>
      match kcmp (fst x) (fst y) with
      | Lt => happly_loop b' (hpush acc x) d
      | Gt => inner (hpush_new acc y) d'
      | Eq =>
        let acc' := if negb (hv_undef (snd y)) then hpush acc (fst x, snd y)
                    else if cd then hpush acc y else acc in
        happly_loop b' acc' d'
      end
    end.
End HApply.

(** 325-327 and 382: the container made by [applyDiffImpl]. *)
Definition happly_cell (d : bool) (b l : list hmember) : cell :=
  mkCell (Some d) (length b + length l) (happly_loop d (length b + length l) b [] l).

(** object.cpp 306-311, [Object::applyDiff]. *)
Definition h_apply_diff (h : heap) (base diff : hval) : option (heap * hval) :=
  match h_view h diff with
  | None => None
  | Some (Some (Some _), dl) =>
    match h_view h base with
    | None => None
    | Some (Some (Some bd), bl) =>
      let '(h', a) := h_alloc h (happly_cell bd bl dl) in Some (h', HR a)
    | Some _ =>
      let '(h', a) := h_alloc h (happly_cell false [] dl) in Some (h', HR a)
    end
  | Some _ => Some (h, base)
  end.

(** object.h 322-335: a builder.  [h_base] is [None] after the builder was
    moved from (a null handle); [h_ord] and [h_unord] are addresses. *)
Record hobj := mkHObj {
  h_base : option hval;
  h_snap : hval;
  h_ord : option nat;
  h_unord : option nat
}.

(** object.cpp 50-52 *)
Definition h_new (v : hval) : hobj := mkHObj (Some v) (HV VUndef) None None.

(** object.cpp 177-195, [optimize]: sorts the unordered container in place,
    makes a new ordered one, clears the unordered one in place. *)
Definition h_optimize (h : heap) (o : hobj) : option (heap * hobj) :=
  match h_unord o with
  | None => Some (h, o)
  | Some u =>
    match nth_error h u with
    | None => None
    | Some c =>
      if Nat.eqb (length (c_items c)) 0 then Some (h, o)
      else
        let items := obj_sort (c_items c) in
        let h1 := h_write h u (mkCell (c_obj c) (c_cap c) items) in
        let made :=
          match h_ord o with
          | None =>
            Some (mkCell (Some true) (length items)
                    (fold_left (fun acc x => snd (cpush (length items) acc x)) items []))
          | Some a =>
            match nth_error h1 a with
            | Some ca =>
              match c_obj ca with
              | Some d => Some (happly_cell d (c_items ca) items)
              | None => None
              end
            | None => None
            end
          end in
        match made with
        | None => None
        | Some new =>
          let '(h2, a) := h_alloc h1 new in
          Some (h_write h2 u (mkCell (c_obj c) (c_cap c) []),
                mkHObj (h_base o) (h_snap o) (Some a) (h_unord o))
        end
    end
  end.

(** object.cpp 94-109, [set_internal]. *)
Definition h_set (h : heap) (o : hobj) (m : hmember) : option (heap * hobj) :=
  let '(h0, u) :=
    match h_unord o with
    | None => h_alloc h (mkCell (Some false) 8 [])
    | Some u => (h, u)
    end in
  match nth_error h0 u with
  | None => None
  | Some c =>
    let '(ok, items) := cpush (c_cap c) (c_items c) m in
    if ok then
      Some (h_write h0 u (mkCell (c_obj c) (c_cap c) items),
            mkHObj (h_base o) (HV VUndef) (h_ord o) (Some u))
    else
      let cap2 := length (c_items c) * 2 in
      let '(h1, n) := h_alloc h0 (mkCell (Some false) cap2 []) in
      match h_optimize h1 (mkHObj (h_base o) (HV VUndef) (h_ord o) (Some u)) with
      | None => None
      | Some (h2, o2) =>
        match nth_error h2 n with
        | None => None
        | Some c2 =>
          Some (h_write h2 n (mkCell (c_obj c2) (c_cap c2) (snd (cpush (c_cap c2) (c_items c2) m))),
                mkHObj (h_base o2) (HV VUndef) (h_ord o2) (Some n))
        end
      end
  end.

(** object.cpp 225-231, [merge]. *)
Fixpoint h_set_all (h : heap) (o : hobj) (l : list hmember) : option (heap * hobj) :=
  match l with
  | [] => Some (h, o)
  | m :: l' => match h_set h o m with Some (h', o') => h_set_all h' o' l' | None => None end
  end.

(** object.cpp 148-151 *)
Fixpoint h_scan_back (rev_items : list hmember) (name : bytes) : option hmember :=
  match rev_items with
  | [] => None
  | m :: l => if beqb (fst m) name then Some m else h_scan_back l name
  end.

(** value.h, [Value::operator[](StrViewA)]. value.h 365. *)
Definition h_member (h : heap) (x : hval) (name : bytes) : option hval :=
  match h_view h x with
  | None => None
  | Some (Some (Some _), l) =>
    Some (match find_member l name with Some m => snd m | None => HV VUndef end)
  | Some _ => Some (HV VUndef)
  end.

(** object.cpp 140-160, [operator[]]; [None] is undefined behaviour: a missing
    layer (144) or a builder that was moved from (159). *)
Definition h_base_member (h : heap) (o : hobj) (name : bytes) : option hval :=
  match h_base o with Some b => h_member h b name | None => None end.
Definition h_read (h : heap) (o : hobj) (name : bytes) : option (heap * hobj * hval) :=
  match h_unord o with
  | None => option_map (fun v => (h, o, v)) (h_base_member h o name)
  | Some u =>
    match nth_error h u with
    | None => None
    | Some c =>
      let usz := length (c_items c) in
      let test :=
        if 16 <? usz then
          match h_ord o with
          | None => None
          | Some a => option_map (fun ca => Nat.div (length (c_items ca)) 2 <? usz) (nth_error h a)
          end
        else Some false in
      match test with
      | None => None
      | Some opt =>
        match (if opt then h_optimize h o else Some (h, o)) with
        | None => None
        | Some (h1, o1) =>
          match (if opt then None else h_scan_back (rev (c_items c)) name) with
          | Some m => Some (h1, o1, snd m)
          | None =>
            match h_ord o1 with
            | Some a =>
              match nth_error h1 a with
              | None => None
              | Some ca =>
                match find_member (c_items ca) name with
                | Some m => Some (h1, o1, snd m)
                | None => option_map (fun v => (h1, o1, v)) (h_base_member h1 o1 name)
                end
              end
            | None => option_map (fun v => (h1, o1, v)) (h_base_member h1 o1 name)
            end
          end
        end
      end
    end
  end.

(** object.cpp 300-304 and 395-398: the diff handed out is the ordered
    container itself. *)
Definition h_commit_diff (h : heap) (o : hobj) : option (heap * hobj * hval) :=
  match h_optimize h o with
  | None => None
  | Some (h1, o1) =>
    Some (h1, o1, match h_ord o1 with Some a => HR a | None => HV empty_object end)
  end.

(** object.cpp 198-205, [commit]. *)
Definition h_commit (h : heap) (o : hobj) : option (heap * hobj * hval) :=
  match h_optimize h o with
  | None => None
  | Some (h1, o1) =>
    match h_ord o1 with
    | None => option_map (fun b => (h1, o1, b)) (h_base o1)
    | Some _ =>
      match h_commit_diff h1 o1, h_base o1 with
      | Some (h2, o2, d), Some b =>
        option_map (fun r => (fst r, o2, snd r)) (h_apply_diff h2 b d)
      | _, _ => None
      end
    end
  end.

(** object.cpp 234-237, 216-220 and object.h 206 *)
Definition h_revert (o : hobj) : hobj := mkHObj (h_base o) (h_snap o) None None.
Definition h_clear (o : hobj) : hobj :=
  h_revert (mkHObj (Some (HV empty_object)) (h_snap o) (h_ord o) (h_unord o)).
Definition h_set_base (o : hobj) (v : hval) : hobj :=
  mkHObj (Some v) (h_snap o) (h_ord o) (h_unord o).

(** object.cpp 239-246: the value an iteration runs over. *)
Definition h_iterate (h : heap) (o : hobj) : option (heap * hobj * hval) :=
  if hv_undef (h_snap o) then
    match h_commit h o with
    | None => None
    | Some (h1, o1, v) => Some (h1, mkHObj (h_base o1) v (h_ord o1) (h_unord o1), v)
    end
  else Some (h, o, h_snap o).

(** object.cpp 70-73 and 79-80: the layers of a copy.  The ordered container is
    shared with the source, the unordered one is new. *)
Definition h_layers (h : heap) (ord : option nat) : option (heap * option nat) :=
  match ord with
  | None => Some (h, None)
  | Some a =>
    match nth_error h a with
    | None => None
    | Some c =>
      let '(h', n) := h_alloc h (mkCell (Some false) (length (c_items c)) []) in Some (h', Some n)
    end
  end.

(** object.cpp 70-73, the copy constructor: (heap, source afterwards, copy). *)
Definition h_copy (h : heap) (o : hobj) : option (heap * hobj * hobj) :=
  match h_optimize h o with
  | None => None
  | Some (h1, o1) =>
    match h_layers h1 (h_ord o1) with
    | None => None
    | Some (h2, u) => Some (h2, o1, mkHObj (h_base o) (HV VUndef) (h_ord o1) u)
    end
  end.

(** object.cpp 75-82, copy assignment [x = o] of different builders: (heap,
    x afterwards, o afterwards). *)
Definition h_assign (h : heap) (x o : hobj) : option (heap * hobj * hobj) :=
  match h_optimize h o with
  | None => None
  | Some (h1, o1) =>
    match h_layers h1 (h_ord o1) with
    | None => None
    | Some (h2, u) => Some (h2, mkHObj (h_base o) (h_snap x) (h_ord o1) u, o1)
    end
  end.

(** object.cpp 84-91 and 400-405: moving leaves null pointers in the source
    (RefCntPtr of the absent submodule); its snapshot stays. *)
Definition h_moved (o : hobj) : hobj := mkHObj None (h_snap o) None None.
Definition h_move (x o : hobj) : hobj := mkHObj (h_base o) (h_snap x) (h_ord o) (h_unord o).

(** object.cpp 411-421: the base made by the initializer-list constructor. *)
Definition h_list_cell (l : list hmember) : cell :=
  mkCell (Some false) (length l) (obj_sort (filter (fun m => negb (hv_undef (snd m))) l)).

(** A program: any number of builders and of variables holding values. Model only. *)
Record hstate := mkHState {
  hs_heap : heap;
  hs_objs : list hobj;
  hs_vals : list hval
}.
Definition hs_init : hstate := mkHState [] [] [].

(** Operations.  [b] and [c] number builders, [i] and [j] variables; results go
    to a new variable or a new builder at the end. *)
Inductive hop :=
| HLit (v : value)                        (* a value from elsewhere *)
| HArr (is : list nat)                    (* Value({...}): value.cpp 54-59 *)
| HNew (i : nat)                          (* Object(Value) *)
| HList (l : list (bytes * nat))          (* Object({...}) *)
| HSet (b : nat) (k : bytes) (i : nat)
| HUnset (b : nat) (k : bytes)
| HMerge (b i : nat)
| HOptimize (b : nat)
| HRead (b : nat) (k : bytes)
| HCommit (b : nat)
| HCommitDiff (b : nat)
| HIterate (b : nat)
| HClear (b : nat)
| HRevert (b : nat)
| HSetBase (b i : nat)
| HCopy (b : nat)                         (* Object(const Object &) *)
| HAssign (b c : nat)                     (* b = c *)
| HMoveNew (c : nat)                      (* Object(Object &&) *)
| HMove (b c : nat)                       (* b = std::move(c) *)
| HMember (i : nat) (k : bytes)           (* Value::operator[] *)
| HItem (i n : nat)
| HApplyDiff (i j : nat).

Fixpoint h_put {A} (l : list A) (i : nat) (x : A) : list A :=
  match l, i with
  | [], _ => []
  | _ :: l', O => x :: l'
  | y :: l', S i' => y :: h_put l' i' x
  end.

Fixpoint h_pick {A B} (vals : list A) (l : list (B * nat)) : option (list (B * A)) :=
  match l with
  | [] => Some []
  | (k, i) :: l' =>
    match nth_error vals i, h_pick vals l' with
    | Some v, Some r => Some ((k, v) :: r)
    | _, _ => None
    end
  end.

(** Work on one builder. Model only. *)
Definition on_obj (s : hstate) (b : nat) (f : hobj -> option hstate) : option hstate :=
  match nth_error (hs_objs s) b with Some o => f o | None => None end.
Definition on_val (s : hstate) (i : nat) (f : hval -> option hstate) : option hstate :=
  match nth_error (hs_vals s) i with Some v => f v | None => None end.
Definition put_obj (s : hstate) (b : nat) (r : option (heap * hobj)) : option hstate :=
  option_map (fun r => mkHState (fst r) (h_put (hs_objs s) b (snd r)) (hs_vals s)) r.
Definition put_val (s : hstate) (b : nat) (r : option (heap * hobj * hval)) : option hstate :=
  option_map (fun r => mkHState (fst (fst r)) (h_put (hs_objs s) b (snd (fst r)))
    (hs_vals s ++ [snd r])) r.

(** One operation; [None] is undefined behaviour or a missing variable.
    Dispatch to the functions above. *)
Definition h_step (s : hstate) (op : hop) : option hstate :=
  let '(mkHState h objs vals) := s in
  match op with
  | HLit v => Some (mkHState h objs (vals ++ [HV v]))
  | HArr is =>
    option_map (fun l => let '(h', a) := h_alloc h (mkCell None (length l) l) in
      mkHState h' objs (vals ++ [HR a])) (h_pick vals (map (fun i => ([], i)) is))
  | HNew i => on_val s i (fun v => Some (mkHState h (objs ++ [h_new v]) vals))
  | HList l =>
    option_map (fun l => let '(h', a) := h_alloc h (h_list_cell l) in
      mkHState h' (objs ++ [h_new (HR a)]) vals) (h_pick vals l)
  | HSet b k i => on_val s i (fun v => on_obj s b (fun o => put_obj s b (h_set h o (k, v))))
  | HUnset b k => on_obj s b (fun o => put_obj s b (h_set h o (k, HV VUndef)))
  | HMerge b i =>
    on_val s i (fun v => on_obj s b (fun o =>
      match h_view h v with Some (_, l) => put_obj s b (h_set_all h o l) | None => None end))
  | HOptimize b => on_obj s b (fun o => put_obj s b (h_optimize h o))
  | HRead b k => on_obj s b (fun o => put_val s b (h_read h o k))
  | HCommit b => on_obj s b (fun o => put_val s b (h_commit h o))
  | HCommitDiff b => on_obj s b (fun o => put_val s b (h_commit_diff h o))
  | HIterate b => on_obj s b (fun o => put_val s b (h_iterate h o))
  | HClear b => on_obj s b (fun o => put_obj s b (Some (h, h_clear o)))
  | HRevert b => on_obj s b (fun o => put_obj s b (Some (h, h_revert o)))
  | HSetBase b i => on_val s i (fun v => on_obj s b (fun o => put_obj s b (Some (h, h_set_base o v))))
  | HCopy b =>
    on_obj s b (fun o =>
      match h_copy h o with
      | Some (h', o', n) => Some (mkHState h' (h_put objs b o' ++ [n]) vals)
      | None => None
      end)
  | HAssign b c =>
    if Nat.eqb b c then on_obj s b (fun _ => Some s)
    else on_obj s b (fun x => on_obj s c (fun o =>
      match h_assign h x o with
      | Some (h', x', o') => Some (mkHState h' (h_put (h_put objs b x') c o') vals)
      | None => None
      end))
  | HMoveNew c =>
    on_obj s c (fun o =>
      Some (mkHState h (h_put objs c (h_moved o) ++ [h_move (h_new (HV VUndef)) o]) vals))
  | HMove b c =>
    if Nat.eqb b c then on_obj s b (fun _ => Some s)
    else on_obj s b (fun x => on_obj s c (fun o =>
      Some (mkHState h (h_put (h_put objs b (h_move x o)) c (h_moved o)) vals)))
  | HMember i k =>
    on_val s i (fun v => option_map (fun r => mkHState h objs (vals ++ [r])) (h_member h v k))
  | HItem i n =>
    on_val s i (fun v =>
      option_map (fun r => mkHState h objs
        (vals ++ [match nth_error (snd r) n with Some m => snd m | None => HV VUndef end])) (h_view h v))
  | HApplyDiff i j =>
    on_val s i (fun v => on_val s j (fun w =>
      option_map (fun r => mkHState (fst r) objs (vals ++ [snd r])) (h_apply_diff h v w)))
  end.

(** Model only: operations one after another. *)
Fixpoint h_run (s : hstate) (ops : list hop) : option hstate :=
  match ops with
  | [] => Some s
  | op :: ops' => match h_step s op with Some s' => h_run s' ops' | None => None end
  end.
