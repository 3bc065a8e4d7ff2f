(** Creating and applying object diffs: /repo/src/imtjson/object.cpp. *)
From Verif Require Import Base ModelKeyed ModelValue ModelObject.

(** Nesting depth, used only to bound [recursive_merge]. Model only. *)
Fixpoint vdepth (v : value) : nat :=
  match v with
  | VArr l => S (fold_right (fun m a => Nat.max (vdepth (snd m)) a) 0 l)
  | VObj _ l => S (fold_right (fun m a => Nat.max (vdepth (snd m)) a) 0 l)
  | _ => 0
  end.

(** object.cpp 20-25, [recursiveMerge], calling 313-321.  The first argument
    bounds the recursion (running out gives undefined; [recursive_merge]
    supplies enough, theorem in PropDiff). *)
Fixpoint rmerge (fuel : nat) (b d : value) : value :=
  match b, d with
  | VObj bd bl, VObj _ dl =>
    match fuel with
    | O => VUndef
    | S f => VObj bd (apply_impl (rmerge f) bd bl dl)
    end
  | _, _ => d
  end.
Definition recursive_merge (b d : value) : value := rmerge (S (vdepth d)) b d.

Section DiffLoop.
Variable item : member -> member -> list member.
(** object.cpp 264-295, the loop of [createDiff]: the members passed to [set],
    in order.  [item] is what is set for a key present on both sides. *)
Fixpoint diff_loop (b : list member) : list member -> list member :=
  fix inner (d : list member) : list member :=
    match b, d with
    | [], _ => d
    | _, [] => map (fun x => (fst x, VUndef)) b
    | x :: b', y :: d' =>
      match kcmp (fst x) (fst y) with
      | Lt => (fst x, VUndef) :: diff_loop b' d
      | Gt => y :: inner d'
      | Eq => item x y ++ diff_loop b' d'
      end
    end.
End DiffLoop.

(** Committing a builder filled by [set] calls as a diff (object.cpp 300). *)
Definition sets_as_diff (changes : list member) : value :=
  snd (obj_commit_diff (fold_left obj_set changes (obj_new empty_object))).

(** object.cpp 251-298, [createDiff(oldObject, newObject, recursive)]: the
    members set, or [None] when it returns false.  [ne] is [operator!=].  On
    line 276 the nested diff carries no key, so it is set under the empty key. *)
Fixpoint create_diff (ne : value -> value -> bool) (recursive : nat) (old new : value)
  : option (list member) :=
  match old, new with
  | VObj _ ol, VObj _ nl =>
    let item (x y : member) : list member :=
      let plain := if ne (snd y) (snd x) then [y] else [] in
      match recursive with
      | O => plain
      | S r =>
        match create_diff ne r (snd x) (snd y) with
        | Some c => [([], sets_as_diff c)]
        | None => plain
        end
      end in
    Some (diff_loop item ol nl)
  | _, _ => None
  end.

(** [Object d; d.createDiff(old, new, recursive); d.commitAsDiff()]. object.cpp 251-304. *)
Definition diff_of (ne : value -> value -> bool) (recursive : nat) (old new : value) : value :=
  match create_diff ne recursive old new with
  | Some c => sets_as_diff c
  | None => sets_as_diff []
  end.
