(** Which keys a binary serializer looks at. *)
From Verif Require Import Base ModelValue ModelObject ModelBin ModelKeyView SpecBin.
Local Open Scope Z_scope.

(** The keys of a value in the order they are written, each with its block. *)
Definition placed (m : member) (bs : list nat) : list (bytes * nat) := combine (fst m :: keys_in (snd m)) bs.
(** The blocks hold the keys. *)
Definition lies (text : nat -> bytes) (op : kop) : Prop :=
  match op with
  | KSend m bs => length bs = S (length (keys_in (snd m))) /\ Forall (fun p => fst p <> [] -> text (snd p) = fst p) (placed m bs)
  | _ => True
  end.
(** The same program without blocks. *)
Fixpoint plain_ops (text : nat -> bytes) (ops : list kop) : list bin_op :=
  match ops with
  | [] => []
  | KSend m _ :: ops' => BSend m :: plain_ops text ops'
  | KPreload b :: ops' => BPreload (text b) :: plain_ops text ops'
  | KClear :: ops' => BClear :: plain_ops text ops'
  | KFree _ :: ops' => plain_ops text ops'
  end.

(** The keys a value makes the serializer look up: all but empty ones, if keys are
    compressed at all. *)
Definition looked_up (F : bflags) (m : member) (bs : list nat) : list (bytes * nat) :=
  if bf_keys F then filter (fun p => negb (beqb (fst p) [])) (placed m bs) else [].

(** The first block in which each key was met since the keys were cleared. *)
Definition hold (held : list (bytes * nat)) (p : bytes * nat) : list (bytes * nat) :=
  if existsb (fun q => beqb (fst q) (fst p)) held then held else p :: held.
(** [same k' k]: looking up [k] makes the serializer look at the block of [k']. *)
Fixpoint may_look_up (same : bytes -> bytes -> Prop) (gone : list nat) (held l : list (bytes * nat)) : Prop :=
  match l with
  | [] => True
  | p :: l' =>
    ~ In (snd p) gone /\ (forall k' b', In (k', b') held -> same k' (fst p) -> ~ In b' gone) /\
    may_look_up same gone (hold held p) l'
  end.
(** No lookup meets a key whose first block is released. *)
Fixpoint no_dangling (same : bytes -> bytes -> Prop) (text : nat -> bytes) (F : bflags) (gone : list nat) (held : list (bytes * nat)) (ops : list kop) : Prop :=
  match ops with
  | [] => True
  | KSend m bs :: ops' =>
    (forall p, In p (placed m bs) -> fst p <> [] -> ~ In (snd p) gone) /\
    may_look_up same gone held (looked_up F m bs) /\
    no_dangling same text F gone (fold_left hold (looked_up F m bs) held) ops'
  | KPreload b :: ops' =>
    may_look_up same gone held [(text b, b)] /\ no_dangling same text F gone (hold held (text b, b)) ops'
  | KClear :: ops' => no_dangling same text F gone [] ops'
  | KFree b :: ops' => no_dangling same text F (b :: gone) held ops'
  end.

(** The rule for programs: no key is released after it was sent or preloaded, until
    the keys are cleared; nothing released is sent. *)
Fixpoint kept (gone used : list nat) (ops : list kop) : Prop :=
  match ops with
  | [] => True
  | KSend m bs :: ops' => (forall b, In b bs -> ~ In b gone) /\ kept gone (bs ++ used) ops'
  | KPreload b :: ops' => ~ In b gone /\ kept gone (b :: used) ops'
  | KClear :: ops' => kept gone [] ops'
  | KFree b :: ops' => ~ In b used /\ kept (b :: gone) used ops'
  end.

(** Keys met by a program. *)
Fixpoint met (text : nat -> bytes) (ops : list kop) : list bytes :=
  match ops with
  | [] => []
  | KSend m bs :: ops' => map fst (placed m bs) ++ met text ops'
  | KPreload b :: ops' => text b :: met text ops'
  | _ :: ops' => met text ops'
  end.

(** The first blocks after a program. *)
Fixpoint held_after (text : nat -> bytes) (F : bflags) (held : list (bytes * nat)) (ops : list kop) : list (bytes * nat) :=
  match ops with
  | [] => held
  | KSend m bs :: ops' => held_after text F (fold_left hold (looked_up F m bs) held) ops'
  | KPreload b :: ops' => held_after text F (hold held (text b, b)) ops'
  | KClear :: ops' => held_after text F [] ops'
  | KFree _ :: ops' => held_after text F held ops'
  end.
(** Nothing released is sent, and nothing is preloaded. *)
Fixpoint sends_alive (gone : list nat) (ops : list kop) : Prop :=
  match ops with
  | [] => True
  | KSend m bs :: ops' => (forall p, In p (placed m bs) -> fst p <> [] -> ~ In (snd p) gone) /\ sends_alive gone ops'
  | KPreload b :: ops' => False
  | KClear :: ops' => sends_alive gone ops'
  | KFree b :: ops' => sends_alive (b :: gone) ops'
  end.
