(** Blocks of memory for texts and containers, and the code which fills them:
    /repo/src/imtjson/stringValue.cpp, stringValue.h, key.cpp, container.h, string.cpp,
    base64.cpp, binary.cpp, value.cpp, binjson.tcc.  The other models take the texts these
    functions write as lists; here every byte is stored in a block of fixed size. *)
From Coq Require Import ZArith List Bool Lia.
From Verif Require Import Base ModelUtf8 ModelValue ModelEnc ModelBin.
Import ListNotations.
Local Open Scope list_scope.
Local Open Scope Z_scope.

(** How a piece of code ends: a result, [std::bad_alloc], another exception, [abort], or an
    access outside of the block (of a source: outside of the view), a byte read which nobody
    wrote. Model only. *)
Inductive mres (A : Type) := MOk (a : A) | MNoMem | MThrow | MAbort | MBad.
Arguments MOk {A}. Arguments MNoMem {A}. Arguments MThrow {A}. Arguments MAbort {A}. Arguments MBad {A}.
Definition mbind {A B} (x : mres A) (f : A -> mres B) : mres B :=
  match x with MOk a => f a | MNoMem => MNoMem | MThrow => MThrow | MAbort => MAbort | MBad => MBad end.
Notation "'mem' x <- e ; f" := (mbind e (fun x => f)) (at level 200, x pattern, e at level 100, f at level 200).

(** A block: its size, its bytes ([None]: never written). What allocator.h 17 returns. *)
Record block := mkB { b_size : Z; b_at : Z -> option Z }.

(** Where the characters start in an object, and the padding behind the array of 100 (256,
    key.h 59) characters at its end: [sizeof] is [l_hdr + 100 + l_tail]. *)
Record layout := mkL { l_hdr : Z; l_tail : Z }.

(** allocator.h 14-16, value.cpp 359-376: the allocator gives a block of the size asked for
    or throws.  [limit] is the largest size it gives. *)
Definition alloc (limit size : Z) : mres block :=
  if size <=? limit then MOk (mkB size (fun _ => None)) else MNoMem.

(** Model only: one byte written, read. *)
Definition inside (b : block) (i : Z) : bool := (0 <=? i) && (i <? b_size b).
Definition store (b : block) (i c : Z) : mres block :=
  if inside b i then MOk (mkB (b_size b) (fun j => if j =? i then Some c else b_at b j)) else MBad.
Definition load (b : block) (i : Z) : mres Z :=
  if inside b i then match b_at b i with Some c => MOk c | None => MBad end else MBad.
(** Bytes one after another: [memcpy], [std::copy]. Contracts of the C library. *)
Fixpoint store_all (b : block) (i : Z) (l : bytes) : mres block :=
  match l with
  | [] => MOk b
  | c :: l' => mem b1 <- store b i c; store_all b1 (i + 1) l'
  end.
Fixpoint load_all (b : block) (i : Z) (n : nat) : mres bytes :=
  match n with
  | O => MOk []
  | S m => mem c <- load b i; mem l <- load_all b (i + 1) m; MOk (c :: l)
  end.
(** [memcpy] of [len] characters at [off] of a view. Contract of the C library. *)
Definition copy_from (b : block) (i : Z) (view : bytes) (off len : Z) : mres block :=
  if (0 <=? off) && (off + len <=? Z.of_nat (length view))
  then store_all b i (firstn (Z.to_nat len) (skipn (Z.to_nat off) view))
  else MBad.

(** *** [StringValue]: stringValue.h 15-56, stringValue.cpp 17-30, 72-76 *)
(** [sz], [encoding], the block. stringValue.h 38-40. *)
Record strobj := mkStr { so_sz : Z; so_enc : option enc; so_blk : block }.

(* "imtjson" *)
Definition magic : bytes := [105; 109; 116; 106; 115; 111; 110].

Section Strings.
Variables (limit : Z) (L : layout).

(** stringValue.cpp 72-76 and 19-23; [size_t] has 64 bits. *)
Definition string_alloc (n : Z) : mres block :=
  let objsz := u64 (l_hdr L + l_tail L) in
  let needsz := u64 (objsz + Z.max (u64 (n + 1)) (Z.of_nat (length magic))) in
  mem b <- alloc limit needsz;
  store_all b (l_hdr L) magic.
(** The fields before the characters; their content is in [strobj]. *)
Definition construct (b : block) : mres block := if l_hdr L <=? b_size b then MOk b else MBad.

(** stringValue.cpp 25-30 *)
Definition string_of_view (e : option enc) (s : bytes) : mres strobj :=
  let n := Z.of_nat (length s) in
  mem b <- string_alloc n;
  mem b <- construct b;
  mem m <- load_all b (l_hdr L) (length magic);
  if beqb m magic then
    mem b <- store_all b (l_hdr L) s;
    mem b <- store b (l_hdr L + n) 0;
    MOk (mkStr n e b)
  else MThrow.

(** stringValue.h 46-56; [fn] is given the place of the characters. *)
Definition string_of_fn (e : option enc) (n : Z) (fn : Z -> block -> mres (block * Z)) : mres strobj :=
  mem b <- string_alloc n;
  mem b <- construct b;
  mem b <- store b (l_hdr L + n) 0;
  mem (b, w) <- fn (l_hdr L) b;
  if n <? w then MAbort
  else
    mem g <- load b (l_hdr L + n);
    if negb (g =? 0) then MAbort
    else
      mem b <- store b (l_hdr L + w) 0;
      MOk (mkStr w e b).

(** stringValue.cpp 32-34, [getString]. *)
Definition string_text (s : strobj) : mres bytes := load_all (so_blk s) (l_hdr L) (Z.to_nat (so_sz s)).

(** *** Keys: key.cpp 17-26.  [key] has 256 characters, as many as are taken off. *)
Definition key_create (s : bytes) : mres strobj :=
  let n := Z.of_nat (length s) in
  let needsz := u64 (u64 (l_hdr L + l_tail L) + n + 1) in
  mem b <- alloc limit needsz;
  mem b <- construct b;
  mem b <- store_all b (l_hdr L) s;
  mem b <- store b (l_hdr L + n) 0;
  MOk (mkStr n None b).

(** *** Precise numbers: stringValue.cpp 229-271; the view of [getString] ends at the first
    zero. *)
Definition precise_create (s : bytes) : mres block :=
  let n := Z.of_nat (length s) in
  let needsz := u64 (u64 (l_hdr L + l_tail L) + n + 1) in
  mem b <- alloc limit needsz;
  mem b <- construct b;
  mem b <- store_all b (l_hdr L) s;
  store b (l_hdr L + n) 0.
Fixpoint c_string (fuel : nat) (b : block) (i : Z) : mres bytes :=
  match fuel with
  | O => MBad
  | S f => mem c <- load b i; if c =? 0 then MOk [] else mem l <- c_string f b (i + 1); MOk (c :: l)
  end.
(** As many characters as the block has bytes. *)
Definition precise_text (b : block) : mres bytes := c_string (S (Z.to_nat (b_size b))) b (l_hdr L).

(** *** The functions which fill texts *)
(** string.cpp 69-82, a list of texts; value.cpp 414-433 has the same loop. *)
Fixpoint put_list (l : list bytes) (i : Z) (b : block) : mres block :=
  match l with
  | [] => MOk b
  | x :: l' => mem b <- store_all b i x; put_list l' (i + Z.of_nat (length x)) b
  end.
Fixpoint total (l : list bytes) : Z :=
  match l with [] => 0 | x :: l' => Z.of_nat (length x) + total l' end.
Definition mem_list (l : list bytes) : mres strobj :=
  let cnt := u64 (total l) in
  string_of_fn None cnt (fun base b => mem b <- put_list l base b; MOk (b, cnt)).

(** string.cpp 127-146, [insert] of a text which is not empty. *)
Definition mem_insert (a : bytes) (pos : Z) (what : bytes) : mres strobj :=
  let n := Z.of_nat (length a) in
  let k := Z.of_nat (length what) in
  let pos := if n <? pos then n else pos in
  let sz := u64 (n + k) in
  string_of_fn None sz (fun base b =>
    mem b <- copy_from b base a 0 pos;
    mem b <- copy_from b (base + pos) what 0 k;
    mem b <- copy_from b (base + pos + k) a pos (n - pos);
    MOk (b, sz)).

(** string.cpp 148-162, [replace]. *)
Definition mem_replace (a : bytes) (pos size : Z) (what : bytes) : mres strobj :=
  let n := Z.of_nat (length a) in
  let k := Z.of_nat (length what) in
  let pos := if n <? pos then n else pos in
  let size := if n <? u64 (pos + size) then n - pos else size in
  let needsz := u64 (n + k - size) in
  string_of_fn None needsz (fun base b =>
    mem b <- copy_from b base a 0 pos;
    mem b <- copy_from b (base + pos) what 0 k;
    mem b <- copy_from b (base + pos + k) a (u64 (pos + size)) (u64 (n - pos - size));
    MOk (b, needsz)).

(** value.cpp 804-827, [join]; [tmp] are the texts of the items. *)
Fixpoint put_join (sep : bytes) (first : bool) (tmp : list bytes) (i : Z) (b : block) : mres (block * Z) :=
  match tmp with
  | [] => MOk (b, i)
  | v :: tmp' =>
    mem (b, i) <- (if first then MOk (b, i) else mem b <- store_all b i sep; MOk (b, i + Z.of_nat (length sep)));
    mem b <- store_all b i v;
    put_join sep false tmp' (i + Z.of_nat (length v)) b
  end.
Definition mem_join (sep : bytes) (tmp : list bytes) : mres strobj :=
  let needsz := u64 (total tmp + (Z.of_nat (length tmp) - 1) * Z.of_nat (length sep)) in
  string_of_fn None needsz (fun base b => mem (b, i) <- put_join sep true tmp base b; MOk (b, i - base)).

(** base64.cpp 28-50, [decoderCore], of the characters [str]. *)
Fixpoint put_b64 (url : bool) (str : bytes) (rd wr : Z) (base : Z) (b : block) : mres block :=
  match str with
  | [] => MOk b
  | z :: str' =>
    let v := b64_table url z in
    if Z.land rd 3 =? 0 then
      mem b <- store b (base + wr) (to_byte (Z.shiftl v 2));
      put_b64 url str' (rd + 1) wr base b
    else if Z.land rd 3 =? 1 then
      mem x <- load b (base + wr);
      mem b <- store b (base + wr) (Z.lor x (Z.shiftr v 4));
      mem b <- store b (base + wr + 1) (to_byte (Z.shiftl v 4));
      put_b64 url str' (rd + 1) (wr + 1) base b
    else if Z.land rd 3 =? 2 then
      mem x <- load b (base + wr);
      mem b <- store b (base + wr) (Z.lor x (Z.shiftr v 2));
      mem b <- store b (base + wr + 1) (to_byte (Z.shiftl v 6));
      put_b64 url str' (rd + 1) (wr + 1) base b
    else
      mem x <- load b (base + wr);
      mem b <- store b (base + wr) (Z.lor x v);
      put_b64 url str' (rd + 1) (wr + 1) base b
  end.
(** base64.cpp 52-70; a text of other length than a multiple of 4 gives the shared empty
    text (54), here [None]. *)
Definition mem_b64 (str : bytes) : mres (option strobj) :=
  let len := length str in
  if negb (Nat.modulo len 4 =? 0)%nat || (len =? 0)%nat then MOk None
  else
    let finlen := Nat.div (len * 3) 4 in
    let '(finlen, len) := if nth (len - 1) str 0 =? 61 then (finlen - 1, len - 1)%nat else (finlen, len) in
    let '(finlen, len) := if nth (len - 1) str 0 =? 61 then (finlen - 1, len - 1)%nat else (finlen, len) in
    mem s <- string_of_fn (Some EncBase64) (Z.of_nat len) (fun base b =>
      mem b <- put_b64 false (firstn len str) 0 0 base b; MOk (b, Z.of_nat finlen));
    MOk (Some s).
(** base64.cpp 124-133; the length times 3 does not wrap round for a text in memory. *)
Definition mem_b64url (str : bytes) : mres strobj :=
  let len := length str in
  string_of_fn (Some EncBase64) (Z.of_nat len) (fun base b =>
    mem b <- put_b64 true str 0 0 base b; MOk (b, Z.of_nat (Nat.div (len * 3) 4))).

(** binary.cpp 74-88; also whether the end was reached inside an escape. *)
Fixpoint put_url (str : bytes) (i : Z) (b : block) : mres (block * bool) :=
  match str with
  | [] => MOk (b, false)
  | c :: str' =>
    if c =? 37 then
      match str' with
      | h1 :: h2 :: str'' =>
        mem b <- store b i (to_byte (Z.lor (Z.shiftl (unhexchar h1) 4) (Z.land (unhexchar h2) 0xF)));
        put_url str'' (i + 1) b
      | _ => MOk (b, true)
      end
    else mem b <- store b i (if c =? 43 then 32 else c); put_url str' (i + 1) b
  end.
(** binary.cpp 66-92 *)
Definition mem_url (str : bytes) : mres strobj :=
  let trglen := Z.of_nat (url_count str 0) in
  string_of_fn (Some EncUrl) trglen (fun base b =>
    mem (b, cut) <- put_url str base b; MOk (b, if cut then u64 (trglen - 1) else trglen)).

(** binary.cpp 120-130 and 144-153: the counting pass, the writing pass. *)
Definition mem_utf8_decode (str : bytes) : mres strobj :=
  let '(st1, o1) := utf8_to_wide u_init str in
  let '(_, o2) := utf8_to_wide st1 str in
  let needsz := Z.of_nat (length o1) in
  string_of_fn (Some EncUtf8) needsz (fun base b => mem b <- store_all b base (map to_byte o2); MOk (b, needsz)).
Definition mem_utf8_encode (data : bytes) : mres strobj :=
  let needsz := Z.of_nat (length (wide_to_utf8 data)) in
  string_of_fn None needsz (fun base b => mem b <- store_all b base (wide_to_utf8 data); MOk (b, needsz)).

(** binjson.tcc 284-300: [n] bytes from the source; a loop of [size_t] steps. *)
Fixpoint put_read (n : nat) (i : Z) (b : block) (p : pstate) : mres (block * pstate) :=
  match n with
  | O => MOk (b, p)
  | S m => let '(x, p1) := read1 p in mem b <- store b i x; put_read m (i + 1) b p1
  end.
(** binjson.tcc 278-283: what the encoder writes, as far as there is space. *)
Fixpoint put_capped (text : bytes) (i stop : Z) (b : block) : mres block :=
  match text with
  | [] => MOk b
  | c :: text' =>
    if i <? stop then mem b <- store b i c; put_capped text' (i + 1) stop b
    else put_capped text' i stop b
  end.
(** binjson.tcc 261-303, [parseString] after the size [n]; [None] is the shared empty text.
    The reading inside of the fill function changes the source: it is threaded through by
    taking the function apart.  [J] as in [parse_string_bin]. *)
Definition string_of_reader (e : option enc) (n : Z) (fn : Z -> block -> mres (block * pstate)) : mres (strobj * pstate) :=
  mem b <- string_alloc n;
  mem b <- construct b;
  mem b <- store b (l_hdr L + n) 0;
  mem (b, p) <- fn (l_hdr L) b;
  mem g <- load b (l_hdr L + n);
  if negb (g =? 0) then MAbort
  else mem b <- store b (l_hdr L + n) 0; MOk (mkStr n e b, p).
Definition mem_bin_string (J : nat -> bytes) (e : option enc) (n : Z) (p : pstate) : mres (option strobj * pstate) :=
  if n =? 0 then MOk (None, p)
  else
    mem (s, p) <-
      match e with
      | Some _ => string_of_reader e n (fun base b => put_read (Z.to_nat n) base b p)
      | None =>
        let '(x, p1) := read1 p in
        if Z.land x 0xC0 =? 0x80 then
          string_of_reader e n (fun base b =>
            mem b <- store b base (b64_char true (Z.land x 0x3F));
            let cnt := Z.to_nat (((n - 1) * 3 + 3) / 4) in
            let '(buf, p2) := read_n cnt p1 in
            let text := concat (b64_encode_core true false (buf ++ J (Z.to_nat n - cnt)%nat)) in
            mem b <- put_capped text (base + 1) (base + n) b;
            MOk (b, p2))
        else
          string_of_reader e n (fun base b => mem b <- store b base x; put_read (Z.to_nat n - 1) (base + 1) b p1)
      end;
    MOk (Some s, p).
End Strings.

(** *** Containers: container.h 58-75, 118-140, 173-200.  [s] is the size of the object, [w]
    that of an item; [k_items] are the items constructed behind the object. *)
Record cont := mkC { k_size : Z; k_cap : Z; k_items : list (bytes * value) }.
Definition cont_create (limit s w cap : Z) : mres cont :=
  let needsz := u64 (s + u64 (cap * w)) in
  mem b <- alloc limit needsz;
  if s <=? b_size b then MOk (mkC needsz cap []) else MBad.
Definition cont_push (s w : Z) (c : cont) (m : bytes * value) : mres (cont * bool) :=
  let cur := Z.of_nat (length (k_items c)) in
  if cur <? k_cap c then
    if s + cur * w + w <=? k_size c then MOk (mkC (k_size c) (k_cap c) (k_items c ++ [m]), true) else MBad
  else MOk (c, false).
Fixpoint cont_push_all (s w : Z) (c : cont) (l : list (bytes * value)) : mres (cont * list bool) :=
  match l with
  | [] => MOk (c, [])
  | m :: l' =>
    mem (c, x) <- cont_push s w c m;
    mem (c, xs) <- cont_push_all s w c l';
    MOk (c, x :: xs)
  end.
