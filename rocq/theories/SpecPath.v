(** Vocabulary of the path properties. *)
From Verif Require Import Base ModelKeyed SpecKeyed ModelValue ModelObject ModelArray ModelPath.
Local Open Scope Z_scope.

(** A component as the constructors make it. *)
Definition elem_ok (e : pelem) : Prop :=
  pe_index e = (2 ^ 64 - 1) \/ (pe_key e = [] /\ 0 <= pe_index e < (2 ^ 64 - 1)).
Definition path_ok (p : path) : Prop := Forall elem_ok p.

(** JSON documents: sorted objects that are not diffs, no undefined values
    inside, array items without keys. *)
Inductive doc : value -> Prop :=
| D_null : doc VNull
| D_bool : forall b, doc (VBool b)
| D_num : forall n, doc (VNum n)
| D_str : forall e s, doc (VStr e s)
| D_arr : forall l, Forall (fun m => fst m = [] /\ doc (snd m)) l -> doc (VArr l)
| D_obj : forall l, keys_increasing l -> Forall (fun m => doc (snd m)) l -> doc (VObj false l).

(** The path, read from the root, can be replaced in [v]: no index is applied to
    an object and every index is at most the number of items there. *)
Fixpoint fits (v : value) (p : path) : Prop :=
  match p with
  | [] => True
  | x :: p' =>
    if is_index x then
      match v with
      | VObj _ _ => False
      | VArr l => pe_index x <= Z.of_nat (length l)
      | _ => pe_index x = 0
      end /\ fits (snd (vitem v (Z.to_nat (pe_index x)))) p'
    else fits (value_member v (pe_key x)) p'
  end.

(** Two components of the same kind that differ. *)
Definition differ (x y : pelem) : Prop :=
  is_index x = is_index y /\ (if is_index x then pe_index x <> pe_index y else pe_key x <> pe_key y).

(** Paths, read from the root, that part ways at a component of the same kind. *)
Definition diverge (p q : path) : Prop :=
  exists c x y p' q', p = c ++ x :: p' /\ q = c ++ y :: q' /\ differ x y.
