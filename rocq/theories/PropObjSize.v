(** C103: the count given by an object builder. *)
From Verif Require Import Base ModelKeyed SpecKeyed ModelValue ModelObject SpecObject ModelArray ModelObjSize SpecObjSize ProofObjSize.

(** Never less than the number of members a commit would have, never more than the members of
    the base and one for each change made since. *)
Theorem C103_bounds : forall b1 b2 ops, base_ok b1 -> base_ok b2 -> Forall op_ok ops ->
  exists x y, obj_run (obj_new b1, obj_new b2) ops = Some (x, y) /\
    let s := fst (spec_run (mkSpec b1 [], mkSpec b2 []) ops) in
    length (members_of (snd (obj_commit x))) <= obj_size x <= vsize (s_base s) + length (s_changes s).
Proof. exact size_bounds. Qed.
Print Assumptions C103_bounds.

(** Exact as long as only new keys were set, each once; in particular when nothing was. *)
Theorem C103_exact : forall b1 b2 ops, base_ok b1 -> base_ok b2 -> Forall op_ok ops ->
  let s := fst (spec_run (mkSpec b1 [], mkSpec b2 []) ops) in
  (s_changes s <> [] -> exists d l, s_base s = VObj d l) -> only_new s ->
  exists x y, obj_run (obj_new b1, obj_new b2) ops = Some (x, y) /\
    obj_size x = length (members_of (snd (obj_commit x))).
Proof. exact size_exact. Qed.
Print Assumptions C103_exact.

Definition ka : bytes := [97%Z].
Definition kb : bytes := [98%Z].
Definition kc : bytes := [99%Z].
Definition ex_base : value := VObj false [(ka, VBool true); (kb, VNull)].
Lemma ex_base_ok : base_ok ex_base.
Proof. split; [repeat constructor|]. intros _ k v [H|[H|[]]]; injection H as <- <-; reflexivity. Qed.

(** In general it is not exact, it depends on when the builder reorganised its layers and
    reading can change it: setting a key twice and removing another counts five; after
    [optimize] the same builder counts four; a commit has one member. *)
Theorem C103_inexact_refuted : exists b ops ops' x y x' y',
  base_ok b /\ Forall op_ok ops /\ Forall op_ok ops' /\
  obj_run (obj_new b, obj_new b) ops = Some (x, y) /\ obj_run (obj_new b, obj_new b) ops' = Some (x', y') /\
  spec_run (mkSpec b [], mkSpec b []) ops = spec_run (mkSpec b [], mkSpec b []) ops' /\
  obj_size x = 5 /\ obj_size x' = 4 /\ length (members_of (snd (obj_commit x))) = 1.
Proof.
  exists ex_base, [OSet ka VNull; OSet ka (VBool false); OUnset kb], [OSet ka VNull; OSet ka (VBool false); OUnset kb; OOptimize].
  let r := eval vm_compute in (obj_run (obj_new ex_base, obj_new ex_base) [OSet ka VNull; OSet ka (VBool false); OUnset kb]) in
  match r with Some (?x, ?y) => exists x, y end.
  let r := eval vm_compute in (obj_run (obj_new ex_base, obj_new ex_base) [OSet ka VNull; OSet ka (VBool false); OUnset kb; OOptimize]) in
  match r with Some (?x, ?y) => exists x, y end.
  split; [exact ex_base_ok|]. split; [repeat constructor|]. split; [repeat constructor|].
  repeat (split; [vm_compute; reflexivity|]). vm_compute; reflexivity.
Qed.
Print Assumptions C103_inexact_refuted.

Example C103_case : exists x y,
  obj_run (obj_new ex_base, obj_new ex_base) [OSet kc VNull; OSet (kc ++ ka) VNull] = Some (x, y) /\
  only_new (fst (spec_run (mkSpec ex_base [], mkSpec ex_base []) [OSet kc VNull; OSet (kc ++ ka) VNull])) /\
  obj_size x = 4 /\ length (members_of (snd (obj_commit x))) = 4.
Proof.
  do 2 eexists. split; [vm_compute; reflexivity|]. split; [|split; vm_compute; reflexivity].
  split.
  - cbn. constructor; [intros [H|[]]; discriminate H|]. constructor; [intros []|constructor].
  - intros k v [H|[H|[]]]; injection H as <- <-; (split; [reflexivity|]); intros [H|[H|[]]]; discriminate H.
Qed.
