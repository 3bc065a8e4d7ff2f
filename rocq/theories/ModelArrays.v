(** Several array builders, copied, assigned and moved: /repo/src/imtjson/array.cpp 194-266,
    array.h 20-24, 269-283.  Line numbers without a file are array.cpp.
    A moved-from [RefCntPtr] (submodule shared/refcnt.h, absent from /repo) is taken to be
    null, as in ModelHeap, and a moved-from vector to be empty, as libstdc++ leaves it. *)
From Verif Require Import Base ModelKeyed ModelValue ModelObject ModelArray.

(** array.h 269-283: [base] ([None] is a null handle), [changes.offset], [changes]. *)
Record barr := mkBarr { b_base : option value; b_off : nat; b_chg : list member }.

(** The builder as ModelArray has it; the base of a moved-from one is not looked at.
    array.h 270-283: the fields. *)
Definition as_arr (b : barr) : arr :=
  mkArr (match b_base b with Some v => v | None => VUndef end) (b_off b) (b_chg b).
Definition of_arr (a : arr) : barr := mkBarr (Some (a_base a)) (a_off a) (a_chg a).
Definition no_base (b : barr) : bool := match b_base b with None => true | Some _ => false end.

(** Whether a function uses [base]: [extendChanges] (177-186) when the position is before
    the changes, which [insert], [insertSet], [erase], [eraseSet], [set] call (43-89,
    114-119) and [slice] through [eraseSet(0, ...)] (278-289); [revert] (107-112);
    [operator[]] (121-128) in [reverse] (269-275). *)
Definition uses_base (b : barr) (op : aop) : bool :=
  match op with
  | AInsert pos _ | AInsertSet pos _ | AErase pos | AEraseSet pos _ | ASet pos _ => pos <? b_off b
  | ARevert => true
  | AReverse => 0 <? b_off b
  | ASlice1 s =>
    let sz := Z.of_nat (b_off b + length (b_chg b)) in
    (0 <? b_off b) && (if (s <? 0)%Z then (- s <? sz)%Z else (s <? sz)%Z)
  | APush _ | AAddSet _ | ATrunc _ | AClear | ASetSize _ _ => false
  end.

(** One operation of ModelArray; [None] is undefined behaviour.  [reverse] ends with the
    base of its new builder (274). *)
Definition b_op (b : barr) (op : aop) : option barr :=
  if no_base b && uses_base b op then None
  else
    option_map (fun a =>
      match op with
      | AReverse => of_arr a
      | _ => if no_base b then mkBarr None (a_off a) (a_chg a) else of_arr a
      end) (arr_step (as_arr b) op).

(** 121-128, [operator[]]; the inner [None] is the exception of [vector::at]. *)
Definition b_get (b : barr) (pos : nat) : option (option member) :=
  if no_base b && (pos <? b_off b) then None else Some (arr_get (as_arr b) pos).
(** 134-143 *)
Definition b_size (b : barr) : nat := arr_size (as_arr b).
(** 146-163, [commit]: [dirty] (172-176) asks the base for its size. *)
Definition b_commit (b : barr) : option value :=
  if b_size b =? 0 then Some (VArr [])
  else if no_base b then None
  else Some (arr_commit (as_arr b)).
(** array.h 20-24, [setBaseObject]. *)
Definition b_set_base (b : barr) (v : value) : barr := of_arr (arr_set_base (as_arr b) v).

(** 229-231, 255-258: what a move leaves in the source.  The offset stays (258, 265). *)
Definition b_moved (b : barr) : barr := mkBarr None (b_off b) [].

(** A program: any number of builders, and what was read from them. Model only. *)
Inductive ares := AItem (x : option member) | ACount (n : nat) | AValue (v : value).
Record bstate := mkBS { bs_arrs : list barr; bs_out : list ares }.
Definition bs_init : bstate := mkBS [] [].

(** [b] and [c] number builders; a new builder goes to the end. array.cpp, lines beside each. *)
Inductive bop :=
| BValue (v : value)          (* Array(Value), 8-10 *)
| BEmpty                      (* Array(), 11-13 *)
| BList (l : list member)     (* Array({...}), 14-17 *)
| BOp (b : nat) (op : aop)
| BSetBase (b : nat) (v : value)
| BCopy (b : nat)             (* 226-228, 250-253 *)
| BAssign (b c : nat)         (* 233-238, 260-264 *)
| BMoveNew (c : nat)          (* 230-231, 255-258 *)
| BMove (b c : nat)           (* 240-245, 262-266 *)
| BGet (b pos : nat)
| BSize (b : nat)
| BCommit (b : nat).

(** Model only: the item at a position replaced. *)
Fixpoint b_put {A} (l : list A) (i : nat) (x : A) : list A :=
  match l, i with
  | [], _ => []
  | _ :: l', O => x :: l'
  | y :: l', S i' => y :: b_put l' i' x
  end.
(** Model only: work on the builder [b]. *)
Definition on_arr (s : bstate) (b : nat) (f : barr -> option bstate) : option bstate :=
  match nth_error (bs_arrs s) b with Some x => f x | None => None end.

(** One step; [None] is undefined behaviour or a builder which does not exist.
    Dispatch to the functions above. *)
Definition b_step (s : bstate) (op : bop) : option bstate :=
  let '(mkBS arrs out) := s in
  match op with
  | BValue v => Some (mkBS (arrs ++ [of_arr (arr_of v)]) out)
  | BEmpty => Some (mkBS (arrs ++ [of_arr arr_new]) out)
  | BList l => Some (mkBS (arrs ++ [of_arr (arr_of_list l)]) out)
  | BOp b op => on_arr s b (fun x => option_map (fun y => mkBS (b_put arrs b y) out) (b_op x op))
  | BSetBase b v => on_arr s b (fun x => Some (mkBS (b_put arrs b (b_set_base x v)) out))
  | BCopy b => on_arr s b (fun x => Some (mkBS (arrs ++ [x]) out))
  | BAssign b c => on_arr s b (fun _ => on_arr s c (fun x => Some (mkBS (b_put arrs b x) out)))
  | BMoveNew c => on_arr s c (fun x => Some (mkBS (b_put arrs c (b_moved x) ++ [x]) out))
  | BMove b c =>
    on_arr s b (fun _ => on_arr s c (fun x =>
      if Nat.eqb b c then Some s else Some (mkBS (b_put (b_put arrs b x) c (b_moved x)) out)))
  | BGet b pos => on_arr s b (fun x => option_map (fun r => mkBS arrs (out ++ [AItem r])) (b_get x pos))
  | BSize b => on_arr s b (fun x => Some (mkBS arrs (out ++ [ACount (b_size x)])))
  | BCommit b => on_arr s b (fun x => option_map (fun v => mkBS arrs (out ++ [AValue v])) (b_commit x))
  end.
Fixpoint b_run (s : bstate) (ops : list bop) : option bstate :=
  match ops with
  | [] => Some s
  | op :: ops' => match b_step s op with Some s' => b_run s' ops' | None => None end
  end.
