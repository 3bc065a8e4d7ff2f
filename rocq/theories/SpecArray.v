(** What an Array builder means: the list it was made from and the current list. *)
From Verif Require Import Base ModelKeyed SpecKeyed ModelValue ModelObject ModelArray.

Record aspec := mkASpec { as_base : list member; as_cur : list member }.

Definition defined_only (l : list member) : list member := filter (fun m => negb (is_undef (snd m))) l.

(** List operations on the current list.  [reverse] starts a new builder, so a
    later [revert] gives the empty list. *)
Definition aspec_step (s : aspec) (op : aop) : aspec :=
  let l := as_cur s in
  match op with
  | APush m => mkASpec (as_base s) (l ++ [m])
  | AAddSet v => mkASpec (as_base s) (l ++ members_of v)
  | AInsert pos m => mkASpec (as_base s) (firstn pos l ++ [m] ++ skipn pos l)
  | AInsertSet pos x => mkASpec (as_base s) (firstn pos l ++ x ++ skipn pos l)
  | AErase pos => mkASpec (as_base s) (firstn pos l ++ skipn (pos + 1) l)
  | AEraseSet pos len => mkASpec (as_base s) (firstn pos l ++ skipn (pos + len) l)
  | ATrunc pos => mkASpec (as_base s) (firstn pos l)
  | AClear => mkASpec (as_base s) []
  | ARevert => mkASpec (as_base s) (as_base s)
  | ASet pos m => mkASpec (as_base s) (firstn pos l ++ [m] ++ skipn (pos + 1) l)
  | AReverse => mkASpec [] (rev l)
  | ASetSize n m => mkASpec (as_base s) (firstn n l ++ repeat m (n - length l))
  | ASlice1 start =>
    mkASpec (as_base s)
      (if (start <? 0)%Z then skipn (length l - Z.to_nat (- start)) l else skipn (Z.to_nat start) l)
  end.
Definition aspec_run (s : aspec) (ops : list aop) : aspec := fold_left aspec_step ops s.

(** Positions the interface allows.  [insertSet] is included only at position 0
    or in a builder that was not made from an array (see the refuted theorem). *)
Definition aop_ok (s : aspec) (op : aop) : Prop :=
  let n := length (as_cur s) in
  match op with
  | AInsert pos _ => pos <= n
  | AInsertSet pos l => pos <= n /\ (pos = 0 \/ as_base s = [])
  | AErase pos => pos < n
  | AEraseSet pos len => pos + len <= n
  | ATrunc pos => pos <= n
  | ASet pos _ => pos < n
  | _ => True
  end.
Fixpoint aops_ok (s : aspec) (ops : list aop) : Prop :=
  match ops with
  | [] => True
  | op :: ops' => aop_ok s op /\ aops_ok (aspec_step s op) ops'
  end.

(** Ways of creating a builder: from an array value, empty, from a list. *)
Inductive acreate := CBase (l : list member) | CEmpty | CList (l : list member).
Definition arr_create (c : acreate) : arr :=
  match c with CBase l => arr_of (VArr l) | CEmpty => arr_new | CList l => arr_of_list l end.
Definition aspec_create (c : acreate) : aspec :=
  match c with CBase l => mkASpec l l | CEmpty => mkASpec [] [] | CList l => mkASpec [] l end.

(** Elements [s..e) of a list; positions below zero count from the end. *)
Definition norm_pos (n : nat) (p : Z) : nat :=
  if (p <? 0)%Z then n - Z.to_nat (- p) else Nat.min n (Z.to_nat p).
Definition range {A} (l : list A) (s e : nat) : list A := firstn (e - s) (skipn s l).

(** The items a view shows. *)
Definition view_items (w : view) : list member := map (view_item w) (seq 0 (w_len w)).
(** A view made by [splitAt] stays inside the array it refers to. *)
Definition view_ok (w : view) : Prop := w_start w + w_len w <= length (w_items w).

(** The current list of a builder. *)
Definition content (a : arr) : list member := firstn (a_off a) (members_of (a_base a)) ++ a_chg a.

(** What remains from [start] on. *)
Definition last_or_skip (l : list member) (start : Z) : list member := range l (norm_pos (length l) start) (length l).

(** Result of slicing a value to the items [r]: the same kind of container, but
    always an array when nothing is left. *)
Definition slice_result (v : value) (r : list member) : value :=
  match r with [] => VArr [] | _ => match v with VObj d _ => VObj d r | _ => VArr r end end.

(** A negative start makes [Value::slice] ignore the end. *)
Definition slice_end (n : nat) (s e : Z) : nat := if (s <? 0)%Z then n else norm_pos n e.

(** Arrays without undefined items; sorted objects without undefined members. *)
Definition slice_ok (v : value) : Prop :=
  (forall m, In m (members_of v) -> is_undef (snd m) = false) /\
  match v with VArr _ => True | VObj d l => d = false /\ keys_increasing l | _ => False end.
