(** What it means that the object at an address is a path. *)
From Coq Require Import ZArith List Bool Lia.
From Verif Require Import Base ModelPath ModelPathMem.
Import ListNotations.
Local Open Scope list_scope.
Local Open Scope Z_scope.

(** The characters [k] are at [a]. *)
Definition text_at (m : memory) (a : Z) (k : bytes) : Prop :=
  forall i c, nth_error k i = Some c -> m (a + Z.of_nat i) = Some (CByte c).

(** An object of [size] bytes which starts with these fields is at [a]. *)
Definition object_at (m : memory) (a size ka kl ix pa : Z) : Prop :=
  m a = Some (CNode ka kl ix pa) /\ forall i, 0 < i < size -> m (a + i) = Some (CPart a).

(** The [Path] at [a] has the components [p], leaf first.  [szP] is [sizeof(Path)]. *)
Inductive denotes (szP root : Z) (m : memory) : Z -> path -> Prop :=
| den_root : denotes szP root m root []
| den_step : forall a ka k ix pa p, a <> root ->
    object_at m a szP ka (Z.of_nat (length k)) ix pa -> text_at m ka k ->
    denotes szP root m pa p -> denotes szP root m a (mkElem k ix :: p).

(** A component as the constructors make it (path.h 42, 49): an index has no name. *)
Definition elem_ok (e : pelem) : Prop := pe_index e = (2 ^ 64 - 1) \/ pe_key e = [].

(** Space for the names of a path, each with a zero behind it. *)
Fixpoint names_size (p : path) : Z :=
  match p with
  | [] => 0
  | e :: p' => (if pe_index e =? (2 ^ 64 - 1) then Z.of_nat (length (pe_key e)) + 1 else 0) + names_size p'
  end.

(** The size of the block of a copy; nothing for the root. *)
Definition copy_size (szR szP : Z) (p : path) : Z :=
  szR + szP * (Z.of_nat (length p) - 1) + names_size p + 8.

Definition in_block (start size x : Z) : Prop := start <= x < start + size.

(** The block is not in use. *)
Definition unused (m : memory) (start size : Z) : Prop := forall x, in_block start size x -> m x = None.

(** Every name of the path at [a] has a zero behind it, as a C string. *)
Inductive names_closed (root : Z) (m : memory) : Z -> Prop :=
| nc_root : names_closed root m root
| nc_step : forall a ka kl ix pa, m a = Some (CNode ka kl ix pa) ->
    (ix = (2 ^ 64 - 1) -> m (ka + kl) = Some (CByte 0)) -> names_closed root m pa -> names_closed root m a.
