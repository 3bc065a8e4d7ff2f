(** The dictionary of the binary serializer as it is kept: views of keys which
    belong to the values.  /repo/src/imtjson/binjson.h 80-112, binjson.tcc 75-111,
    450-474, 494-510. *)
From Verif Require Import Base ModelValue ModelObject ModelBin.
Local Open Scope Z_scope.

(** A key lies in a block of memory (key.h 46-59: in the proxy of its value, or in
    a string): [text b] is what the block [b] holds as long as it is not released.
    A block once released does not come back under the same number.  [gone] are
    the blocks released so far; reading one of them is undefined behaviour,
    [None] below. *)

(** binjson.tcc 464-474, [HashStr], with a 64-bit [size_t]. *)
Definition key_hash (k : bytes) : Z := fold_left (fun acc b => Z.lxor acc b * 16777619 mod 2 ^ 64) k 2166136261.

(** binjson.h 96-103, [KeyMap]: the view, its hash and the number.
    [std::unordered_map] of libstdc++ keeps the hash of every key, since [HashStr]
    may throw, and looks at the text of a key only if the hash is the same.  The
    order within a bucket is that of insertion, the latest first. *)
Record kentry := mkKE { ke_block : nat; ke_hash : Z; ke_id : Z }.
Record kstate := mkKS { ks_map : list kentry; ks_next : Z }.
Definition ks_init : kstate := mkKS [] 256.

Section Views.
Variable text : nat -> bytes.

(** [keyMap[key]], the search. binjson.tcc 452. *)
Fixpoint find_key (gone : list nat) (l : list kentry) (k : bytes) : option (option kentry) :=
  match l with
  | [] => Some None
  | e :: l' =>
    if ke_hash e =? key_hash k then
      if existsb (Nat.eqb (ke_block e)) gone then None
      else if beqb (text (ke_block e)) k then Some (Some e)
      else find_key gone l' k
    else find_key gone l' k
  end.
(** The number of the entry found; the view in it stays the first one. binjson.tcc 452. *)
Definition renumber (b : nat) (n : Z) (l : list kentry) : list kentry :=
  map (fun e => if (ke_block e =? b)%nat then mkKE b (ke_hash e) n else e) l.

(** 450-462, [tryCompressKey] with a view of the block [b]. *)
Definition try_compress_view (gone : list nat) (st : kstate) (b : nat) : option (option Z * kstate) :=
  if existsb (Nat.eqb b) gone then None
  else
    match find_key gone (ks_map st) (text b) with
    | None => None
    | Some found =>
      let e := match found with Some e => e | None => mkKE b (key_hash (text b)) 0 end in
      let l := match found with Some _ => ks_map st | None => e :: ks_map st end in
      let dist := u32 (ks_next st - ke_id e - 1) in
      if dist <? 128 then Some (Some dist, mkKS l (ks_next st))
      else Some (None, mkKS (renumber (ke_block e) (ks_next st) l) (u32 (ks_next st + 1)))
    end.

(** 76-87 *)
Definition write_key_view (gone : list nat) (F : bflags) (k : bytes) (b : nat) (st : kstate) : option (bytes * kstate) :=
  match k with
  | [] => Some ([], st)
  | _ =>
    if bf_keys F then
      match try_compress_view gone st b with
      | Some (Some c, st') => Some ([Z.lor 0x80 c], st')
      | Some (None, st') => Some (write_string_bin F k op_key, st')
      | None => None
      end
    else if existsb (Nat.eqb b) gone then None else Some (write_string_bin F k op_key, st)
  end.

(** 75-111, [serialize] and [serializeContainer]; [bs] are the blocks of the keys in
    the order in which they are met, one for every item (for an item without key
    it means nothing); what is left of them is returned. *)
Fixpoint write_item_view (gone : list nat) (L : libm) (F : bflags) (k : bytes) (v : value) (st : kstate) (bs : list nat) {struct v}
  : option (bytes * kstate * list nat) :=
  match write_key_view gone F k (hd O bs) st with
  | None => None
  | Some (kb, st1) =>
    let items := (fix items (l : list member) (st : kstate) (bs : list nat) {struct l} : option (bytes * kstate * list nat) :=
       match l with
       | [] => Some ([], st, bs)
       | x :: l' =>
         match write_item_view gone L F (fst x) (snd x) st bs with
         | None => None
         | Some (o, st', bs') =>
           match items l' st' bs' with
           | None => None
           | Some (o', st'', bs'') => Some (o ++ o', st'', bs'')
           end
         end
       end) in
    match v with
    | VArr l =>
      match items l st1 (tl bs) with
      | Some (o, st2, bs') => Some (kb ++ write_integer F (Z.of_nat (length l)) op_array ++ o, st2, bs')
      | None => None
      end
    | VObj _ l =>
      match items l st1 (tl bs) with
      | Some (o, st2, bs') => Some (kb ++ write_integer F (Z.of_nat (length l)) op_object ++ o, st2, bs')
      | None => None
      end
    | VUndef => Some (kb ++ [op_undefined], st1, tl bs)
    | VNull => Some (kb ++ [op_null], st1, tl bs)
    | VBool b => Some (kb ++ [if b then op_true else op_false], st1, tl bs)
    | VNum n => Some (kb ++ write_number L F n, st1, tl bs)
    | VStr (Some _) s => Some (kb ++ write_string_bin F s op_binstring, st1, tl bs)
    | VStr None s => Some (kb ++ write_string_bin F s op_string, st1, tl bs)
    end
  end.

(** What a program does with one serializer: [serialize] of a value whose keys are in
    the blocks [bs], [preloadKey] with a view of the block [b] (494-497), [clearKeys]
    (505-509), and the release of a block. *)
Inductive kop := KSend (m : member) (bs : list nat) | KPreload (b : nat) | KClear | KFree (b : nat).

(** All that is written. *)
Fixpoint write_views (L : libm) (F : bflags) (gone : list nat) (st : kstate) (ops : list kop) : option bytes :=
  match ops with
  | [] => Some []
  | KSend m bs :: ops' =>
    match write_item_view gone L F (fst m) (snd m) st bs with
    | None => None
    | Some (o, st', _) => match write_views L F gone st' ops' with Some o' => Some (o ++ o') | None => None end
    end
  | KPreload b :: ops' =>
    match try_compress_view gone st b with
    | None => None
    | Some (_, st') => write_views L F gone st' ops'
    end
  | KClear :: ops' => write_views L F gone ks_init ops'
  | KFree b :: ops' => write_views L F (b :: gone) st ops'
  end.
End Views.
