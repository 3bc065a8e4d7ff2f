(** Paths: /repo/src/imtjson/path.h, path.cpp and [Value::replace] in value.cpp. *)
From Verif Require Import Base ModelKeyed ModelValue ModelObject ModelArray.
Local Open Scope Z_scope.

(** path.h 169-174: one component, [keyName] and [index].  A path is the list of
    its components starting at the leaf; the parent is the tail and [Path::root]
    is the empty list (its identity is an address in the code). *)
Record pelem := mkElem { pe_key : bytes; pe_index : Z }.
Notation path := (list pelem).

(** path.h 42, 49.  An index is built with an empty key name. *)
Definition no_index : Z := 2 ^ 64 - 1.
Definition pkey (k : bytes) : pelem := mkElem k no_index.
Definition pindex (i : Z) : pelem := mkElem [] i.
(** path.h 68, 70 *)
Definition is_index (e : pelem) : bool := negb (pe_index e =? no_index).

(** path.cpp 147-165, [Path::compare]; the sign of the result. *)
Fixpoint path_compare (p q : path) : comparison :=
  match p, q with
  | [], [] => Eq
  | [], _ => Lt
  | _, [] => Gt
  | x :: p', y :: q' =>
    if is_index x then
      if is_index y then
        if pe_index x <? pe_index y then Lt
        else if pe_index y <? pe_index x then Gt
        else path_compare p' q'
      else Lt
    else if negb (is_index y) then
      match kcmp (pe_key x) (pe_key y) with
      | Eq => path_compare p' q'
      | c => c
      end
    else Gt
  end.

(** path.cpp 124-138, [toValue], [toArray]. *)
Fixpoint path_items (p : path) : list member :=
  match p with
  | [] => []
  | x :: p' =>
    path_items p' ++ [([], if is_index x then VNum (NUInt (pe_index x)) else VStr None (pe_key x))]
  end.
Definition path_to_value (p : path) : value := arr_commit (arr_add_set arr_new (path_items p)).

(** path.cpp 177-192, [fromValue]; [uint_of] is [getUInt] of a number. *)
Fixpoint path_from_items (uint_of : num -> Z) (parent : path) (l : list member) : option path :=
  match l with
  | [] => Some parent
  | (_, VStr _ s) :: l' => path_from_items uint_of (pkey s :: parent) l'
  | (_, VNum n) :: l' => path_from_items uint_of (pindex (uint_of n) :: parent) l'
  | _ :: _ => None
  end.
Definition path_from_value (uint_of : num -> Z) (v : value) : option path :=
  path_from_items uint_of [] (members_of v).

(** path.cpp 27-38, [Value::operator[](Path)]. *)
Fixpoint get_path (v : value) (p : path) : value :=
  match p with
  | [] => v
  | x :: p' =>
    let sub := get_path v p' in
    if is_index x then snd (vitem sub (Z.to_nat (pe_index x))) else value_member sub (pe_key x)
  end.

(** value.cpp 440-473, [setToPathRev]; here the head of the path is the
    component next to the root.  Values carry the key of their handle; [None] is
    undefined behaviour or an exception. *)
Definition set_index_builder (old : value) : arr :=
  match old with VArr _ => arr_set_base arr_new old | _ => arr_new end.
Definition set_key_builder (old : value) : obj :=
  match old with VObj _ _ => obj_set_base (obj_new empty_object) old | _ => obj_new empty_object end.
Fixpoint set_rev (p : path) (old : value) (new : member) : option member :=
  match p with
  | [] =>
    match snd new with
    | VObj true _ => Some ([], apply_diff old (snd new))
    | _ => Some new
    end
  | x :: p' =>
    if is_index x then
      let a := set_index_builder old in
      if Z.of_nat (arr_size a) <=? pe_index x then
        match set_rev p' VUndef new with
        | Some m => Some ([], arr_commit (arr_push a m))
        | None => None
        end
      else
        match arr_get a (Z.to_nat (pe_index x)) with
        | None => None
        | Some cur =>
          match set_rev p' (snd cur) new with
          | None => None
          | Some m =>
            match arr_set a (Z.to_nat (pe_index x)) m with
            | Some a' => Some ([], arr_commit a')
            | None => None
            end
          end
        end
    else
      let o := set_key_builder old in
      match obj_read o (pe_key x) with
      | None => None
      | Some (o1, cur) =>
        match set_rev p' cur new with
        | None => None
        | Some m => Some ([], snd (obj_commit (obj_set o1 (pe_key x, snd m))))
        end
      end
  end.

(** value.cpp 475-483, [reversePath]. *)
Fixpoint reverse_path (p acc : path) : path :=
  match p with [] => acc | x :: p' => reverse_path p' (x :: acc) end.

(** value.cpp 485-489, [Value::replace]. *)
Definition replace_path (v : value) (p : path) (new : member) : option member :=
  set_rev (reverse_path p []) v new.
