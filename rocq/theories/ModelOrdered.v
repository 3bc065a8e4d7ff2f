(** Ordered containers: /repo/src/imtjson/operations.h 25-333, 461-491.
    A container is the list of its items; [cmp] is the user's [sortFn], taken to
    be a function of its arguments. *)
From Verif Require Import Base ModelKeyed ModelValue ModelObject ModelArray.
Local Open Scope Z_scope.

(** value.h 1194, value.cpp [Value::operator[]]: past the end the iterator
    yields the undefined value. *)
Definition item_at (l : list member) (i : nat) : member := nth i l ([], VUndef).

(** container.h 122-142, [Container::push_back]: a full container refuses. *)
Definition push_cap (cap : nat) (av : list member) (m : member) : list member :=
  if (length av <? cap)%nat then av ++ [m] else av.

(** 54-58, [Side]. *)
Definition diff_left : Z := 1.
Definition diff_right : Z := 2.
Definition side_common : Z := 4.
Definition has_side (side s : Z) : bool := negb (Z.land side s =? 0).

Section Ordered.
Variable cmp : member -> member -> Z.

(** 196-205, [SortFn::sort]: [std::stable_sort]; the result of a stable sort is
    determined by its contract, so insertion sort stands for it. *)
Fixpoint stable_insert (x : member) (l : list member) : list member :=
  match l with
  | [] => [x]
  | y :: l' => if cmp y x <? 0 then y :: stable_insert x l' else x :: y :: l'
  end.
Definition ord_sort (l : list member) : list member := fold_right stable_insert [] l.

(** 208-223, [SortFn::find]: position of an equal item or the size. *)
Fixpoint find_loop (fuel : nat) (l : list member) (needle : member) (lo hi : nat) : res nat :=
  match fuel with
  | O => Fuel
  | S f =>
    if (lo <? hi)%nat then
      let m := ((lo + hi) / 2)%nat in
      let c := cmp needle (item_at l m) in
      if c <? 0 then find_loop f l needle lo m
      else if 0 <? c then find_loop f l needle (m + 1) hi
      else Ok m
    else Ok (length l)
  end.
Definition ord_find (l : list member) (needle : member) : res nat :=
  find_loop (S (length l)) l needle 0 (length l).

(** 89-93, [Ordered::find]. *)
Definition ord_find_value (l : list member) (needle : member) : res member :=
  do i <- ord_find l needle;
  Ok (if (length l <=? i)%nat then ([], VUndef) else item_at l i).

(** 99-103: step back while the items are equal. *)
Fixpoint lower_loop (l : list member) (needle : member) (i : nat) : nat :=
  match i with
  | O => O
  | S k => if cmp (item_at l k) needle =? 0 then lower_loop l needle k else S k
  end.
(** 96-104, [lowerBound]. *)
Definition ord_lower (l : list member) (needle : member) : res nat :=
  do i <- ord_find l needle;
  Ok (if (length l <=? i)%nat then i else lower_loop l needle i).

(** 108-111: step forward while the items are equal; [k] is what is left to the
    end. *)
Fixpoint upper_loop (l : list member) (needle : member) (k i : nat) : nat :=
  match k with
  | O => i
  | S k' => if cmp (item_at l (S i)) needle =? 0 then upper_loop l needle k' (S i) else S i
  end.
(** 106-114, [upperBound]. *)
Definition ord_upper (l : list member) (needle : member) : res nat :=
  do i <- ord_find l needle;
  Ok (upper_loop l needle (length l - i) i).

(** 117-133, [equalRange].  Line 119 has no effect: the range made there is
    dropped. *)
Definition ord_range (l : list member) (needle : member) : res (nat * nat) :=
  do i <- ord_find l needle;
  let i1 := lower_loop l needle i in
  Ok (i1, upper_loop l needle (length l - i1) i1).

(** 226-240, [SortFn::uniq]. *)
Fixpoint uniq_loop (cap : nat) (prev : member) (l av : list member) : list member :=
  match l with
  | [] => push_cap cap av prev
  | v :: l' =>
    if cmp prev v =? 0 then uniq_loop cap prev l' av
    else uniq_loop cap v l' (push_cap cap av prev)
  end.
Definition ord_uniq (l : list member) : list member :=
  match l with
  | [] => []
  | p :: l' => uniq_loop (length l) p l' []
  end.

(** 261-292: both containers while neither is exhausted; what is left of them
    and the output. *)
Definition comm_loop (side : Z) (fn : member -> member -> member) (cap : nat) :
  list member -> list member -> list member -> list member * list member * list member :=
  fix go1 (l1 : list member) : list member -> list member -> list member * list member * list member :=
    match l1 with
    | [] => fun l2 av => ([], l2, av)
    | a1 :: t1 =>
      fix go2 (l2 av : list member) {struct l2} : list member * list member * list member :=
        match l2 with
        | [] => (a1 :: t1, [], av)
        | a2 :: t2 =>
          let r := cmp a1 a2 in
          if r <? 0 then go1 t1 (a2 :: t2) (if has_side side diff_left then push_cap cap av a1 else av)
          else if 0 <? r then go2 t2 (if has_side side diff_right then push_cap cap av a2 else av)
          else go1 t1 t2 (if has_side side side_common then push_cap cap av (fn a1 a2) else av)
        end
    end.
(** 250-258: room for the result. *)
Definition est_size (side : Z) (n1 n2 : nat) : nat :=
  if (side =? Z.lor diff_left side_common) || (side =? diff_left) then n1
  else if (side =? Z.lor diff_right side_common) || (side =? diff_right) then n2
  else if side =? side_common then Nat.max n1 n2
  else n1 + n2.
(** 244-308, [SortFn::comm]. *)
Definition ord_comm (side : Z) (fn : member -> member -> member) (l1 l2 : list member) : list member :=
  let cap := est_size side (length l1) (length l2) in
  let '(r1, r2, av) := comm_loop side fn cap l1 l2 [] in
  let av1 := if has_side side diff_left then fold_left (push_cap cap) r1 av else av in
  if has_side side diff_right then fold_left (push_cap cap) r2 av1 else av1.

(** 51, 169-188. *)
Definition default_conflict (a b : member) : member := b.
Definition ord_merge_with (fn : member -> member -> member) := ord_comm (Z.lor (Z.lor side_common diff_left) diff_right) fn.
Definition ord_merge := ord_merge_with default_conflict.
Definition ord_complement := ord_comm diff_left default_conflict.
Definition ord_intersection_with (fn : member -> member -> member) := ord_comm side_common fn.
Definition ord_intersection := ord_intersection_with default_conflict.
Definition ord_symdiff := ord_comm (Z.lor diff_left diff_right) default_conflict.

(** 312-333, [SortFn::group]: the ranges handed to the reduce function. *)
Fixpoint group_loop (prev : member) (run l : list member) : list (list member) :=
  match l with
  | [] => [run]
  | v :: l' =>
    if cmp prev v =? 0 then group_loop prev (run ++ [v]) l'
    else run :: group_loop v [v] l'
  end.
Definition ord_runs (l : list member) : list (list member) :=
  match l with
  | [] => []
  | p :: l' => group_loop p [p] l'
  end.

(** 461-480, [Array::split]; the initial [prevValue] is undefined, and so is an
    undefined item. *)
Definition is_defined (m : member) : bool := match snd m with VUndef => false | _ => true end.
Fixpoint split_loop (prev : member) (cur l : list member) : list (list member) :=
  match l with
  | [] => [cur]
  | v :: l' =>
    if negb (is_defined prev) then split_loop v (cur ++ [v]) l'
    else if cmp prev v =? 0 then split_loop prev (cur ++ [v]) l'
    else cur :: split_loop v [v] l'
  end.
Definition arr_split (l : list member) : list (list member) := split_loop ([], VUndef) [] l.
End Ordered.
