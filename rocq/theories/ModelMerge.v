(** [Value::merge], [Value::diff] and [Value::setItems]:
    /repo/src/imtjson/value.cpp 527-724, 882-927. *)
From Verif Require Import Base ModelKeyed ModelValue ModelObject ModelArray ModelDiff ModelEq ModelBin ModelStd ModelEnum.

(** [StrViewA::operator==] aside, every comparison of values below is
    [operator==] (323-331): [eq] gives its result. *)
Section Merge.
Variable L : libm.
Variable eq : value -> value -> bool.

(** *** merge *)
(** 527-546, [findInArray]: one of its loops, [n] rounds from position [i].
    [Err] is the exception of [Array::operator[]] past the end. *)
Fixpoint find_item (p : arr) (v : value) (i n : nat) : res (option nat) :=
  match n with
  | O => Ok None
  | S n' =>
    match arr_get p i with
    | None => Err
    | Some m => if eq (snd m) v then Ok (Some i) else find_item p v (S i) n'
    end
  end.
Definition find_in_array (p : arr) (v : value) (start : nat) : res (option nat) :=
  do o <- find_item p v start (arr_size p - start);
  match o with
  | Some i => Ok (Some i)
  | None => find_item p v 0 start
  end.

(** Model only: undefined behaviour as an outcome. *)
Definition or_err (o : option arr) : res arr := match o with Some a => Ok a | None => Err end.

(** 567-587: pairs of an item to find and what to insert before it (undefined
    removes it). *)
Fixpoint merge_script (p : arr) (last : nat) (s : list member) : res arr :=
  match s with
  | f :: i :: s' =>
    do o <- find_in_array p (snd f) last;
    match o with
    | Some pos =>
      if negb (is_undef (snd i)) then
        do p' <- or_err (arr_insert p pos i); merge_script p' (pos + 1) s'
      else
        do p' <- or_err (arr_erase p pos); merge_script p' last s'
    | None => merge_script (if negb (is_undef (snd i)) then arr_push p i else p) last s'
    end
  | _ => Ok p
  end.
(** 558-591. *)
Fixpoint merge_items (p : arr) (other : list member) : res arr :=
  match other with
  | [] => Ok p
  | x :: s => if negb (is_undef (snd x)) then merge_items (arr_push p x) s else merge_script p 0 s
  end.

Section MergeLoop.
Variable item : member -> member -> member.
(** 597-618: the members passed to [set], in order; [item] for a key present on
    both sides. *)
Fixpoint merge_loop (b : list member) : list member -> list member :=
  fix inner (d : list member) : list member :=
    match b, d with
    | [], _ => d
    | _, [] => b
    | x :: b', y :: d' =>
      match kcmp (fst x) (fst y) with
      | Lt => x :: merge_loop b' d
      | Gt => y :: inner d'
      | Eq => item x y :: merge_loop b' d'
      end
    end.
End MergeLoop.
(** A new builder filled by [set] calls and committed (596, 619). *)
Definition sets_as_object (changes : list member) : value :=
  snd (obj_commit (fold_left obj_set changes (obj_new empty_object))).
(** 593-620; only called for two objects. *)
Fixpoint merge_objects (v w : value) {struct v} : value :=
  match v, w with
  | VObj _ l, VObj _ m =>
    sets_as_object (merge_loop
      (fun x y => match snd x, snd y with
                  | VObj _ _, VObj _ _ => (fst x, merge_objects (snd x) (snd y))
                  | _, _ => y
                  end) l m)
  | _, _ => w
  end.

(** 548-625.  [Err] is an exception. *)
Definition vmerge (v w : value) : res value :=
  match v, w with
  | VUndef, VUndef | VNull, VNull => Ok w
  | VBool a, VBool b => Ok (VBool (xorb a b))
  | VNum a, VNum b => Ok (value_of_double (f_add (get_number L a) (get_number L b)))
  | VStr _ s, VStr _ t => Ok (VStr None (s ++ t))
  | VArr _, VArr m => do p <- merge_items (arr_of v) m; Ok (arr_commit p)
  | VObj _ _, VObj _ _ => Ok (merge_objects v w)
  | _, _ => Ok VUndef
  end.

(** *** diff *)
Definition undef_item : member := ([], VUndef).

(** 651-673: what is left of both arrays and the [diff] vector.  [other[o+1]]
    past the end is undefined. *)
Fixpoint adiff_loop (l : list member) : list member -> list member -> list member * list member * list member :=
  fix inner (m diff : list member) {struct m} : list member * list member * list member :=
    match l, m with
    | x :: l', y :: m' =>
      if eq (snd x) (snd y) then adiff_loop l' m' diff
      else if match l' with x' :: _ => eq (snd x') (snd y) | [] => false end
      then adiff_loop l' m (diff ++ [x; undef_item])
      else if eq (snd x) (snd (hd undef_item m')) then inner m' (diff ++ [x; y])
      else adiff_loop l' m' (diff ++ [x; y; x; undef_item])
    | _, _ => (l, m, diff)
    end.

(** 674-677: [rest] are the items from [o] on; [o] never changes.  The first
    argument bounds the rounds. *)
Fixpoint tail_append (fuel : nat) (rest append : list member) : res (list member) :=
  match fuel with
  | O => Fuel
  | S f =>
    match rest with
    | [] => Ok append
    | y :: _ => tail_append f rest (append ++ [y])
    end
  end.
(** 678-682; [t] never changes. *)
Fixpoint tail_remove (fuel : nat) (rest diff : list member) : res (list member) :=
  match fuel with
  | O => Fuel
  | S f =>
    match rest with
    | [] => Ok diff
    | x :: _ => tail_remove f rest (diff ++ [x; undef_item])
    end
  end.
(** 645-690.  The loop of 674-677 advances [t] instead of [o], so the one of
    678-682 starts from [t] only when it ended at once. *)
Definition adiff (fuel : nat) (l m : list member) : res value :=
  let '(r1, r2, diff) := adiff_loop l m [] in
  do append <- tail_append fuel r2 [];
  do diff' <- tail_remove fuel r1 diff;
  Ok (VArr (append ++ match diff' with [] => [] | _ => undef_item :: diff' end)).

(** 691-719; only called for two objects.  [diff_loop] and [sets_as_diff] are
    those of ModelDiff (the loops of 695-717 and of object.cpp 264-295 agree). *)
Fixpoint odiff (v w : value) {struct v} : value :=
  match v, w with
  | VObj _ l, VObj _ m =>
    sets_as_diff (diff_loop
      (fun x y => match snd x, snd y with
                  | VObj _ _, VObj _ _ =>
                    let d := odiff (snd x) (snd y) in
                    if vsize d =? 0 then [] else [(fst x, d)]
                  | _, _ => if eq (snd x) (snd y) then [] else [y]
                  end) l m)
  | _, _ => w
  end.

(** 634-644. *)
Definition sdiff (v : value) (s t : bytes) : value :=
  if length s <? length t then v
  else if beqb (skipn (length s - length t) s) t then VStr None (firstn (length s - length t) s)
  else v.

(** 627-724. *)
Definition vdiff (fuel : nat) (v w : value) : res value :=
  match v, w with
  | VUndef, VUndef | VNull, VNull => Ok w
  | VBool a, VBool b => Ok (VBool (xorb a b))
  | VNum a, VNum b => Ok (value_of_double (SFsub fprec femax (get_number L a) (get_number L b)))
  | VStr _ s, VStr _ t => Ok (sdiff v s t)
  | VArr l, VArr m => adiff fuel l m
  | VObj _ _, VObj _ _ => Ok (odiff v w)
  | _, _ => Ok VUndef
  end.
End Merge.

(** *** setItems *)
(** 898-901, 904-907, 919-922. *)
Definition keep_item (y : member) : list member := if is_undef (snd y) then [] else [y].
(** 891-924. *)
Fixpoint set_loop (b : list member) : list member -> list member :=
  fix inner (d : list member) : list member :=
    match b, d with
    | [], _ => flat_map keep_item d
    | _, [] => b
    | x :: b', y :: d' =>
      match kcmp (fst x) (fst y) with
      | Lt => x :: set_loop b' d
      | Gt => keep_item y ++ inner d'
      | Eq => keep_item y ++ set_loop b' d'
      end
    end.
(** 885: the comparison of [std::sort]. *)
Definition item_key_less (a b : member) : bool := bytes_less (fst a) (fst b).
(** 882-927: [r] is a value that [setItems(fields)] can leave in [v]; the new
    container is not marked as a diff (objectValue.h 33). *)
Definition set_items (v : value) (fields : list member) (r : value) : Prop :=
  exists buffer, sort_result item_key_less fields buffer /\ r = VObj false (set_loop (members_of v) buffer).
