(** Paths in memory and [Path::copy]: /repo/src/imtjson/path.cpp 16-24, 43-108, path.h.
    [ModelPath] takes a path as the list of its components; here the components are objects
    at addresses which refer to each other. *)
From Coq Require Import ZArith List Bool Lia.
From Verif Require Import Base ModelPath.
Import ListNotations.
Local Open Scope list_scope.
Local Open Scope Z_scope.

(** What is at an address: nothing written yet, a character, the first byte of a [Path]
    (path.h 169-174: address and length of [keyName], [index], address of [parent]) or a
    later byte of the object which starts at [a]. *)
Inductive cell := CRaw | CByte (c : Z) | CNode (kaddr klen index parent : Z) | CPart (a : Z).
(** [None]: not allocated. Model only. *)
Notation memory := (Z -> option cell).

(** How the code ends: a result, an access to memory which is not there or does not hold what
    is read, [std::bad_alloc], the model's own fuel is exhausted. Model only. *)
Inductive pres (A : Type) := POk (a : A) | PBad | PNoMem | PFuel.
Arguments POk {A}. Arguments PBad {A}. Arguments PNoMem {A}. Arguments PFuel {A}.
Definition pbind {A B} (x : pres A) (f : A -> pres B) : pres B :=
  match x with POk a => f a | PBad => PBad | PNoMem => PNoMem | PFuel => PFuel end.
Notation "'pm' x <- e ; f" := (pbind e (fun x => f)) (at level 200, x pattern, e at level 100, f at level 200).

(** Model only: one cell of memory changed. *)
Definition put (m : memory) (a : Z) (c : cell) : memory := fun x => if x =? a then Some c else m x.
(** A store; undefined where nothing is allocated. *)
Definition write (m : memory) (a : Z) (c : cell) : pres memory :=
  match m a with Some _ => POk (put m a c) | None => PBad end.
(** A load of a [char]; undefined where there is none. *)
Definition read_byte (m : memory) (a : Z) : pres Z :=
  match m a with Some (CByte c) => POk c | _ => PBad end.

(** The [n] bytes from [x] on are the rest of the object at [a]. Model only. *)
Fixpoint has_parts (m : memory) (a x : Z) (n : nat) : bool :=
  match n with
  | O => true
  | S n' => match m x with Some (CPart b) => (a =? b) && has_parts m a (x + 1) n' | _ => false end
  end.
Fixpoint write_parts (m : memory) (a x : Z) (n : nat) : pres memory :=
  match n with
  | O => POk m
  | S n' => pm m1 <- write m x (CPart a); write_parts m1 a (x + 1) n'
  end.

(** path.cpp 89, [std::copy], one character after another. *)
Fixpoint copy_bytes (m : memory) (src dst : Z) (n : nat) : pres memory :=
  match n with
  | O => POk m
  | S n' => pm c <- read_byte m src; pm m1 <- write m dst (CByte c); copy_bytes m1 (src + 1) (dst + 1) n'
  end.

Section Copy.
(** [szR] and [szP] are [sizeof(PathRef)] and [sizeof(Path)], [root] is the address of
    [Path::root], [place] the allocator: the address it gives for a size. *)
Variables (szR szP root : Z) (place : Z -> option Z).

(** The fields of the [Path] at [a]. path.h 170-174. *)
Definition read_node (m : memory) (a : Z) : pres (Z * Z * Z * Z) :=
  match m a with
  | Some (CNode ka kl ix pa) => if has_parts m a (a + 1) (Z.to_nat (szP - 1)) then POk (ka, kl, ix, pa) else PBad
  | _ => PBad
  end.
(** The constructors path.h 42, 49, 187, 188 through placement new (120-122): an object of
    [sz] bytes. *)
Definition write_node (m : memory) (a sz ka kl ix pa : Z) : pres memory :=
  pm m1 <- write m a (CNode ka kl ix pa); write_parts m1 a (a + 1) (Z.to_nat (sz - 1)).

(** path.cpp 47-62: the sizes, [reqSize] and [len].  [this] is where the loop started. *)
Fixpoint copy_sizes (fuel : nat) (m : memory) (this p req len : Z) : pres (Z * Z) :=
  match fuel with
  | O => PFuel
  | S f =>
    if p =? root then POk (req, len)
    else
      pm (ka, kl, ix, pa) <- read_node m p;
      let sz := if p =? this then szR else szP in
      let req1 := u64 (req + sz) in
      let req2 := if ix =? no_index then u64 (req1 + (kl + 1)) else req1 in
      copy_sizes f m this pa req2 (u64 (len + sz))
  end.

(** path.cpp 78-108, [copyRecurse]; [sz] is [sizeof(T)].  The last lines of each branch read
    the fields of the source again. *)
Fixpoint copy_recurse (fuel : nat) (m : memory) (a trg sz strbuf : Z) : pres (memory * Z) :=
  match fuel with
  | O => PFuel
  | S f =>
    if a =? root then POk (m, root)
    else
      pm (ka, kl, ix, pa) <- read_node m a;
      if ix =? no_index then
        pm m1 <- copy_bytes m ka strbuf (Z.to_nat kl);
        pm m2 <- write m1 (strbuf + kl) (CByte 0);
        pm (m3, out) <- copy_recurse f m2 pa (trg + sz) szP (strbuf + kl + 1);
        pm (ka', kl', ix', pa') <- read_node m3 a;
        pm m4 <- write_node m3 trg sz strbuf kl' no_index out;
        POk (m4, trg)
      else
        pm (m3, out) <- copy_recurse f m pa (trg + sz) szP strbuf;
        pm (ka', kl', ix', pa') <- read_node m3 a;
        pm m4 <- write_node m3 trg sz 0 0 ix' out;
        POk (m4, trg)
  end.

(** allocator.h 17: [size] bytes from [at] on become usable. *)
Definition allocated (m : memory) (at_ size : Z) : memory :=
  fun x => if (at_ <=? x) && (x <? at_ + size) then Some CRaw else m x.

(** path.cpp 43-75, [Path::copy]; [sizeof(UInt)] is 8. *)
Definition path_copy (fuel : nat) (m : memory) (a : Z) : pres (memory * Z) :=
  if a =? root then POk (m, root)
  else
    pm (req, len) <- copy_sizes fuel m a a 0 0;
    let size := u64 (req + 8) in
    match place size with
    | None => PNoMem
    | Some start => copy_recurse fuel (allocated m start size) a start szR (start + len)
    end.
End Copy.
