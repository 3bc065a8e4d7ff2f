(** C31, C32: diffs of objects. *)
From Verif Require Import Base ModelKeyed SpecKeyed ModelValue ModelObject ModelEq SpecEq ProofEq ModelDiff SpecDiff ProofDiff PropEq.
Local Open Scope Z_scope.

(** Applying the diff from [a] to [b] on [a] gives [b]: the same keys, and every
    member either that of [b] or one that compares equal to it. *)
Theorem C31_apply_diff : forall L ne la lb, ne_ok L ne -> plain_object la -> plain_object lb ->
  exists lr, apply_diff (VObj false la) (diff_of ne 0 (VObj false la) (VObj false lb)) = VObj false lr /\
    keys_increasing lr /\
    Forall2 (fun x y => fst x = fst y /\ (snd x = snd y \/ op_eq L (snd y) (snd x) true)) lr lb.
Proof. exact diff_apply. Qed.
Print Assumptions C31_apply_diff.

(** So the result equals [b]. *)
Theorem C31_apply_diff_equal : forall L ne la lb, ne_ok L ne -> plain_object la -> plain_object lb ->
  proper L (VObj false la) -> proper L (VObj false lb) ->
  veq L (apply_diff (VObj false la) (diff_of ne 0 (VObj false la) (VObj false lb))) (VObj false lb) = true.
Proof. exact diff_apply_equal. Qed.
Print Assumptions C31_apply_diff_equal.

(** The diff of an object with itself is empty. *)
Theorem C31_self_empty : forall L ne la, ne_ok L ne -> proper L (VObj false la) -> plain_object la ->
  create_diff ne 0 (VObj false la) (VObj false la) = Some [] /\
  diff_of ne 0 (VObj false la) (VObj false la) = empty_object.
Proof. exact diff_self. Qed.
Print Assumptions C31_self_empty.

Definition eqne (v w : value) : bool := negb (veq eqL w v).
Definition da : list member := [([97], VNum (NUInt 1)); ([98], VNull); ([100], VObj false [([120], VNum (NUInt 1))])].
Definition db : list member := [([97], VNum (NUInt 2)); ([99], VBool true); ([100], VObj false [([120], VNum (NUInt 2))])].

Example C31_case : ne_ok eqL eqne /\ plain_object da /\ plain_object db /\
  proper eqL (VObj false da) /\ proper eqL (VObj false db) /\
  diff_of eqne 0 (VObj false da) (VObj false db) =
    VObj true [([97], VNum (NUInt 2)); ([98], VUndef); ([99], VBool true); ([100], VObj false [([120], VNum (NUInt 2))])] /\
  apply_diff (VObj false da) (diff_of eqne 0 (VObj false da) (VObj false db)) = VObj false db.
Proof.
  repeat match goal with |- _ /\ _ => split end; try reflexivity; try (unfold da, db; prove_proper).
  - intros v w. right. unfold eqne. rewrite Bool.negb_involutive. apply run_total.
  - unfold plain_object, da, keys_increasing. split; [repeat constructor|].
    intros k v [H|[H|[H|[]]]]; inversion H; reflexivity.
  - unfold plain_object, db, keys_increasing. split; [repeat constructor|].
    intros k v [H|[H|[H|[]]]]; inversion H; reflexivity.
Qed.

(** With a recursion limit above zero the law fails: the nested diff is stored
    without its key.  Both ways of applying are affected. *)
Theorem C32_recursive_diff_refuted : exists la lb, plain_object la /\ plain_object lb /\
  veq eqL (apply_diff (VObj false la) (diff_of eqne 1 (VObj false la) (VObj false lb))) (VObj false lb) = false /\
  veq eqL (apply_diff_with recursive_merge (VObj false la) (diff_of eqne 1 (VObj false la) (VObj false lb)))
    (VObj false lb) = false.
Proof.
  exists da, db. destruct C31_case as (_ & Ha & Hb & _). repeat split; try apply Ha; try apply Hb; vm_compute; reflexivity.
Qed.
Print Assumptions C32_recursive_diff_refuted.

(** In general, a key that holds an object on both sides keeps its old value,
    whatever the merge function. *)
Theorem C32_nested_change_lost : forall ne r la lb k oa ob da db mf, k <> [] ->
  plain_object la -> plain_object lb -> binding k la = Some (VObj da oa) -> binding k lb = Some (VObj db ob) ->
  exists lr, apply_diff_with mf (VObj false la) (diff_of ne (S r) (VObj false la) (VObj false lb)) = VObj false lr /\
    binding k lr = Some (VObj da oa).
Proof. exact recursive_diff_keeps_old. Qed.
Print Assumptions C32_nested_change_lost.

(** The nested diff appears under the empty key instead, so among objects without
    that key the result is never equal to [b], even if the two nested objects are
    the same. *)
Theorem C32_empty_key_added : forall ne r la lb k oa ob da db mf,
  plain_object la -> plain_object lb -> binding [] la = None -> binding [] lb = None ->
  binding k la = Some (VObj da oa) -> binding k lb = Some (VObj db ob) ->
  exists lr d l, apply_diff_with mf (VObj false la) (diff_of ne (S r) (VObj false la) (VObj false lb)) = VObj false lr /\
    binding [] lr = Some (VObj d l) /\ forall L, veq L (VObj false lr) (VObj false lb) = false.
Proof. exact recursive_diff_adds_key. Qed.
Print Assumptions C32_empty_key_added.

(** When no key holds an object on both sides the limit makes no difference, so
    the law of C31 holds. *)
Theorem C32_flat : forall ne r la lb,
  (forall k d1 l1 d2 l2, In (k, VObj d1 l1) la -> In (k, VObj d2 l2) lb -> False) ->
  diff_of ne r (VObj false la) (VObj false lb) = diff_of ne 0 (VObj false la) (VObj false lb).
Proof. exact recursive_diff_flat. Qed.
Print Assumptions C32_flat.

(** [recursiveMerge] itself merges nested diffs member by member. *)
Theorem C32_recursive_merge : forall bl dl, keys_increasing bl -> keys_increasing dl ->
  exists lr, recursive_merge (VObj false bl) (VObj true dl) = VObj false lr /\ keys_increasing lr /\
  forall k, binding k lr =
    match binding k dl with
    | None => binding k bl
    | Some VUndef => None
    | Some v => Some (match binding k bl with Some o => recursive_merge o v | None => v end)
    end.
Proof. exact recursive_merge_members. Qed.
Print Assumptions C32_recursive_merge.

(** and replaces anything that is not an object on both sides. *)
Theorem C32_recursive_merge_leaf : forall b d, (match b, d with VObj _ _, VObj _ _ => False | _, _ => True end) ->
  recursive_merge b d = d.
Proof. exact recursive_merge_other. Qed.
Print Assumptions C32_recursive_merge_leaf.

Example C32_case :
  diff_of eqne 1 (VObj false da) (VObj false db) =
    VObj true [([], VObj true [([120], VNum (NUInt 2))]); ([97], VNum (NUInt 2)); ([98], VUndef); ([99], VBool true)] /\
  recursive_merge (VObj false da) (VObj true [([100], VObj true [([120], VUndef); ([121], VNull)])]) =
    VObj false [([97], VNum (NUInt 1)); ([98], VNull); ([100], VObj false [([121], VNull)])].
Proof. split; vm_compute; reflexivity. Qed.

Example C32_same_case :
  apply_diff (VObj false da) (diff_of eqne 1 (VObj false da) (VObj false da)) = VObj false (([], VObj false []) :: da).
Proof. vm_compute. reflexivity. Qed.
