(** Where the rejections of a validator point to. *)
From Coq Require Import String.
From Verif Require Import Base ModelKeyed ModelValue ModelObject ModelArray ModelPath ModelRpc ModelValidator.
Local Open Scope Z_scope.
Local Open Scope list_scope.

(** The words whose rules are applied to something else than the subject itself. *)
Definition other_subject : list bytes :=
  map txt ["key"; "tostring"; "tonumber"; "prefix"; "suffix"; "split"; "explode"; "usevar"]%string.

(** A rule without them, inside arrays and objects too (templates of [emit] are
    looked at like rules). *)
Inductive direct : value -> Prop :=
| Dir_leaf : forall v, (forall l, v <> VArr l) -> (forall d l, v <> VObj d l) -> direct v
| Dir_array : forall l, Forall (fun m => direct (snd m)) l ->
    (forall k e w rest, l = (k, VStr e w) :: rest -> ~ In w other_subject) -> direct (VArr l)
| Dir_object : forall d l, Forall (fun m => direct (snd m)) l -> direct (VObj d l).

(** Every array inside has fewer than 2^32 items: positions are cut to 32 bits. *)
Inductive short : value -> Prop :=
| Sh_leaf : forall v, (forall l, v <> VArr l) -> (forall d l, v <> VObj d l) -> short v
| Sh_array : forall l, Forall (fun m => short (snd m)) l -> Z.of_nat (List.length l) < 2 ^ 32 -> short (VArr l)
| Sh_object : forall d l, Forall (fun m => short (snd m)) l -> short (VObj d l).

(** A path, read from the root, leads into the value: every step but the last
    names a member or an item that is there, the last one a member or an item
    that could be there. *)
Inductive points : value -> list pelem -> Prop :=
| Pt_here : forall v, points v []
| Pt_key : forall d l k, points (VObj d l) [pkey k]
| Pt_item : forall l i, 0 <= i < 2 ^ 32 -> points (VArr l) [pindex i]
| Pt_into_key : forall d l k w q, In (k, w) l -> points w q -> points (VObj d l) (pkey k :: q)
| Pt_into_item : forall l i m q, nth_error l i = Some m -> Z.of_nat i < 2 ^ 32 -> points (snd m) q ->
    points (VArr l) (pindex (Z.of_nat i) :: q).
