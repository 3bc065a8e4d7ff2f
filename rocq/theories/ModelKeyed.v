(** Keyed members and the immutable object container:
    /repo/src/imtjson/objectValue.cpp, value.cpp (object constructor).
    Members are pairs (key, value) over an arbitrary value type. *)
From Verif Require Import Base.
Local Open Scope Z_scope.

(** Order of single [char]s used by [StringView::compare] (shared/stringview.h,
    a submodule that is absent from /repo; contract recorded in DESIGN.md).
    [char] is signed, so bytes 128..255 sort below 0..127.  On byte values this
    is [schar]; outside them it is extended to a bijection of Z so that the
    order is total without side conditions. *)
Definition char_rank (c : Z) : Z :=
  if (128 <=? c) && (c <? 256) then c - 256
  else if (-128 <=? c) && (c <? 0) then c + 256
  else c.

(** [StringView<char>::compare]: lexicographic, a proper prefix is smaller
    (shared/stringview.h, absent; contract in DESIGN.md). *)
Fixpoint kcmp (a b : bytes) : comparison :=
  match a, b with
  | [], [] => Eq
  | [], _ :: _ => Lt
  | _ :: _, [] => Gt
  | x :: a', y :: b' =>
    match Z.compare (char_rank x) (char_rank y) with
    | Eq => kcmp a' b'
    | c => c
    end
  end.

Section Keyed.
Variable A : Type.
(** Model only: a key and a value. *)
Notation member := (bytes * A)%type.

(** One step of a stable sort: place [x], which stood before all of [l]
    (objectValue.cpp 54, by the contract of [std::stable_sort]). *)
Fixpoint sort_insert (x : member) (l : list member) : list member :=
  match l with
  | [] => [x]
  | y :: l' =>
    match kcmp (fst y) (fst x) with
    | Lt => y :: sort_insert x l'
    | _ => x :: l
    end
  end.

(** objectValue.cpp 54-56: [std::stable_sort] by member name.  The result of a
    stable sort is unique, so it is modelled by insertion. *)
Definition stable_sort (l : list member) : list member :=
  fold_right sort_insert [] l.

(** objectValue.cpp 57-67: the in-place dedupe loop.  [out] is the written
    prefix [0,wrpos) in reverse, [last] is [lastKey]. *)
Fixpoint dedupe_loop (out : list member) (last : bytes) (l : list member) : list member :=
  match l with
  | [] => rev out
  | v :: l' =>
    let out1 := if beqb (fst v) last && negb (Nat.eqb (length out) 0)
                then tl out else out in
    dedupe_loop (v :: out1) (fst v) l'
  end.

(** objectValue.cpp 53-71, [ObjectValue::sort]. *)
Definition obj_sort (l : list member) : list member :=
  dedupe_loop [] [] (stable_sort l).

(** objectValue.cpp 32-50, [ObjectValue::findSorted]; [None] is nullptr.
    [operator[](unsigned int)] truncates positions to 32 bits (container.h 95),
    which is not modelled: containers have fewer than 2^32 members.  The first
    argument bounds the number of iterations; [findSorted] supplies enough. *)
Fixpoint find_loop (fuel : nat) (items : list member) (name : bytes) (l r : nat)
  : res (option member) :=
  match fuel with
  | O => Fuel
  | S fuel' =>
    if Nat.ltb l r then
      let m := Nat.div (l + r) 2 in
      match nth_error items m with
      | None => Err
      | Some it =>
        match kcmp name (fst it) with
        | Gt => find_loop fuel' items name (S m) r
        | Lt => find_loop fuel' items name l m
        | Eq => Ok (Some it)
        end
      end
    else Ok None
  end.

(** The search over the whole container. *)
Definition findSorted (items : list member) (name : bytes) : res (option member) :=
  find_loop (S (length items)) items name 0 (length items).

(** Same, with the error outcomes (shown impossible) mapped to "not found". *)
Definition find_member (items : list member) (name : bytes) : option member :=
  match findSorted items name with Ok r => r | _ => None end.

(** value.cpp 390-411, object case of [Value(ValueType, StringView<Value>,
    bool skipUndef)]: [acc] is the container under construction in reverse;
    [pop_back] on an empty container is not executed (value.cpp 402). *)
Fixpoint build_loop (skip : A -> bool) (acc : list member) (last : bytes) (ordered : bool)
  (l : list member) : list member * bool :=
  match l with
  | [] => (rev acc, ordered)
  | v :: l' =>
    if skip (snd v) then build_loop skip acc last ordered l'
    else
      let k := fst v in
      match kcmp last k with
      | Gt => build_loop skip (v :: acc) k false l'
      | Eq => build_loop skip (v :: tl acc) k ordered l'
      | Lt => build_loop skip (v :: acc) k ordered l'
      end
  end.

(** The constructor itself. *)
Definition build_object (skip : A -> bool) (l : list member) : list member :=
  let '(items, ordered) := build_loop skip [] [] true l in
  if ordered then items else obj_sort items.

End Keyed.
Arguments sort_insert {A}.
Arguments stable_sort {A}.
Arguments dedupe_loop {A}.
Arguments obj_sort {A}.
Arguments find_loop {A}.
Arguments findSorted {A}.
Arguments find_member {A}.
Arguments build_loop {A}.
Arguments build_object {A}.
