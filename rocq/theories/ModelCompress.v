(** The compressor and the decompressor of texts: /repo/src/imtjson/compress.h
    (cited as h) and compress.tcc (cited as tcc). *)
From Verif Require Import Base.
Local Open Scope Z_scope.
Local Open Scope list_scope.

(** How a step ends: a result, an exception, or undefined behaviour (an index out
    of range, a number never stored); [CFuel] when a loop uses up its bound. Model only. *)
Inductive cres (A : Type) := COk (a : A) | CThrow | CBad | CFuel.
Arguments COk {A}. Arguments CThrow {A}. Arguments CBad {A}. Arguments CFuel {A}.
Definition cbind {A B} (r : cres A) (f : A -> cres B) : cres B :=
  match r with COk a => f a | CThrow => CThrow | CBad => CBad | CFuel => CFuel end.

(** h 12-14; 32 bits unsigned *)
Definition initial_code : Z := 2 ^ 32 - 1.
Definition code_shift : Z := 26.
Definition first_code : Z := 102.

Section Mask.
(** h 21, [extCodeMask]: 0x80 in the code, one of the values listed in h 17. *)
Variable ext : Z.
(** h 22-26 *)
Definition flush_code : Z := Z.lxor ext 255 * 256 + 255 + ext.
Definition optimize_code : Z := flush_code - 1.
Definition max_code : Z := flush_code - 2.
Definition max_code_opt : Z := max_code - 16.

(** *** Compressor *)
(** h 40-49; [newCode] is not stored by the constructor; copying it unread, formally undefined
    too, is let pass, deciding on it is [CBad]. *)
Record seq_info := mkSI { si_next : Z; si_new : option Z; si_used : bool }.
Definition seq_key := (Z * Z)%type.
Definition key_eqb (a b : seq_key) : bool := (fst a =? fst b) && (snd a =? snd b).
(** h 53: the map, in order of insertion; [find], [insert] (nothing when the key
    is there) and the change of a value that was found. *)
Definition seq_db := list (seq_key * seq_info).
Fixpoint db_find (k : seq_key) (db : seq_db) : option seq_info :=
  match db with
  | [] => None
  | (k', i) :: db' => if key_eqb k k' then Some i else db_find k db'
  end.
Definition db_insert (k : seq_key) (i : seq_info) (db : seq_db) : seq_db :=
  match db_find k db with Some _ => db | None => db ++ [(k, i)] end.
Fixpoint db_set (k : seq_key) (i : seq_info) (db : seq_db) : seq_db :=
  match db with
  | [] => []
  | (k', i') :: db' => if key_eqb k k' then (k', i) :: db' else (k', i') :: db_set k i db'
  end.

(** h 79-95 *)
Record cstate := mkCS {
  cs_db : seq_db; cs_next : Z; cs_last : Z; cs_last_new : option Z; cs_utf8 : Z;
  cs_ndb : seq_db; cs_nnext : Z }.
(** tcc 10-12 *)
Definition c_init : cstate := mkCS [] first_code initial_code None 0 [] first_code.
(** tcc 23-29: the optimizer and [utf8len] stay. *)
Definition c_reset (s : cstate) : cstate :=
  mkCS [] first_code initial_code (cs_last_new s) (cs_utf8 s) (cs_ndb s) (cs_nnext s).

(** tcc 120-135, [write] *)
Definition write_code (code : Z) : bytes :=
  if code <? ext then [to_byte code]
  else let c := code - ext in [to_byte (Z.lor (to_byte (Z.shiftr c 8)) ext); to_byte c].

(** h 106-118, [Optimizer::addCode]: the new info of the pair, the new dictionary
    and its next code. *)
Definition add_code (seq_new : option Z) (c : Z) (i : seq_info) (ndb : seq_db) (nnext : Z) : cres (seq_info * seq_db * Z) :=
  if nnext <? max_code_opt then
    match seq_new with
    | Some n => COk (mkSI (si_next i) (Some nnext) true, db_insert (n, c) (mkSI nnext None false) ndb, u32 (nnext + 1))
    | None => CBad
    end
  else COk (i, ndb, nnext).

(** tcc 70-118, [compress]: the new state and what is written. *)
Definition compress_sym (c : Z) (s : cstate) : cres (cstate * bytes) :=
  if first_code <=? c then CThrow
  else if cs_last s =? initial_code then
    COk (mkCS (cs_db s) (cs_next s) c (Some c) (cs_utf8 s) (cs_ndb s) (cs_nnext s), [])
  else
    match db_find (cs_last s, c) (cs_db s) with
    | None =>
      COk (mkCS (db_insert (cs_last s, c) (mkSI (cs_next s) None false) (cs_db s)) (u32 (cs_next s + 1)) c (Some c) (cs_utf8 s)
             (cs_ndb s) (cs_nnext s),
           write_code (cs_last s))
    | Some i =>
      if max_code <=? si_next i then
        COk (mkCS (cs_ndb s) (cs_nnext s) c (Some c) (cs_utf8 s) [] first_code,
             write_code (cs_last s) ++ write_code optimize_code)
      else if si_used i then
        COk (mkCS (cs_db s) (cs_next s) (si_next i) (si_new i) (cs_utf8 s) (cs_ndb s) (cs_nnext s), [])
      else
        cbind (add_code (cs_last_new s) c i (cs_ndb s) (cs_nnext s)) (fun '(i', ndb, nnext) =>
          COk (mkCS (db_set (cs_last s, c) i' (cs_db s)) (cs_next s) (si_next i') (si_new i') (cs_utf8 s) ndb nnext, []))
    end.
Definition with_utf8 (n : Z) (s : cstate) : cstate :=
  mkCS (cs_db s) (cs_next s) (cs_last s) (cs_last_new s) n (cs_ndb s) (cs_nnext s).
(** tcc 39-41 and the like: two symbols, then [utf8len]. *)
Definition compress_two (a b n : Z) (s : cstate) : cres (cstate * bytes) :=
  cbind (compress_sym a s) (fun '(s1, o1) =>
    cbind (compress_sym b s1) (fun '(s2, o2) => COk (with_utf8 n s2, o1 ++ o2))).
(** tcc 31-68; [c] is a byte. *)
Definition compress_char (c : Z) (s : cstate) : cres (cstate * bytes) :=
  if negb (cs_utf8 s =? 0) then compress_sym (Z.land c 127) (with_utf8 (cs_utf8 s - 1) s)
  else if negb (Z.land c 128 =? 0) then
    if Z.land c 224 =? 192 then compress_two 1 (Z.land c 63) 1 s
    else if Z.land c 240 =? 224 then compress_two 2 (Z.land c 31) 2 s
    else if Z.land c 248 =? 240 then compress_two 3 (Z.land c 15) 3 s
    else if Z.land c 252 =? 248 then compress_two 4 (Z.land c 15) 4 s
    else CThrow
  else if c <? 32 then CThrow
  else compress_sym (c - code_shift) s.
Fixpoint compress_text (text : bytes) (s : cstate) : cres (cstate * bytes) :=
  match text with
  | [] => COk (s, [])
  | c :: text' =>
    cbind (compress_char c s) (fun '(s1, o1) => cbind (compress_text text' s1) (fun '(s2, o2) => COk (s2, o1 ++ o2)))
  end.
(** tcc 14-20, the destructor *)
Definition compress_end (s : cstate) : bytes :=
  if cs_last s =? initial_code then [] else write_code (cs_last s) ++ write_code flush_code.
(** A compressor from its construction to its destruction. tcc 10-68. *)
Definition compress_all (text : bytes) : cres bytes :=
  cbind (compress_text text c_init) (fun '(s, o) => COk (o ++ compress_end s)).

(** *** Decompressor *)
(** h 158-170; [newCode] is not stored by the constructor. *)
Record dec_info := mkDI { di_prev : Z; di_new : option Z; di_out : Z; di_used : bool }.
Definition dec_db := list dec_info.
(** h 173-217 *)
Record dstate := mkDS {
  ds_db : dec_db; ds_ready : list Z; ds_first : Z; ds_prev : Z; ds_ndb : dec_db; ds_utf8 : Z }.
(** tcc 173-176; [firstChar] is not initialised, which is of no effect unless
    [prevCode] is used uninitialised as well. *)
Definition d_init : dstate := mkDS [] [] 0 initial_code [] 0.

(** [input()] at the end of the stream gives -1. *)
Definition next_byte (inp : bytes) : Z * bytes := match inp with [] => (255, []) | b :: r => (b, r) end.
(** tcc 336-345, [read] *)
Definition read_code (inp : bytes) : Z * bytes :=
  let '(b, r) := next_byte inp in
  if negb (Z.land b ext =? ext) then (b, r)
  else let '(b2, r2) := next_byte r in (u32 (Z.lor (Z.land b (255 - ext) * 256) b2 + ext), r2).

(** Model only: the table [seqdb] is indexed by codes from [firstCode] on. *)
Definition code_at (p : Z) : nat := Z.to_nat (p - first_code).
Fixpoint set_at {A} (i : nat) (x : A) (l : list A) : list A :=
  match l, i with
  | [], _ => []
  | _ :: l', O => x :: l'
  | y :: l', S i' => y :: set_at i' x l'
  end.
Definition next_of (db : dec_db) : Z := u32 (Z.of_nat (length db) + first_code).
(** h 191-198, [Optimizer::addCode] *)
Definition d_add_code (i : dec_info) (prev : option Z) (ndb : dec_db) : cres (dec_info * dec_db) :=
  if next_of ndb <? max_code_opt then
    match prev with
    | Some n => COk (mkDI (di_prev i) (Some (next_of ndb)) (di_out i) true, ndb ++ [mkDI n None (di_out i) false])
    | None => CBad
    end
  else COk (i, ndb).
(** tcc 286-297, [translatePrevCode] *)
Fixpoint translate (fuel : nat) (p : Z) (db ndb : dec_db) : cres (option Z * dec_db * dec_db) :=
  if p <? first_code then COk (Some p, db, ndb)
  else
    match fuel with
    | O => CFuel
    | S f =>
      match nth_error db (code_at p) with
      | None => CBad
      | Some i =>
        if di_used i then COk (di_new i, db, ndb)
        else
          cbind (translate f (di_prev i) db ndb) (fun '(prev, db1, ndb1) =>
            match nth_error db1 (code_at p) with
            | None => CBad
            | Some i1 =>
              cbind (d_add_code i1 prev ndb1) (fun '(i2, ndb2) => COk (di_new i2, set_at (code_at p) i2 db1, ndb2))
            end)
      end
    end.
(** tcc 255-267: the walk; also gives the code it ends with. *)
Fixpoint expand (fuel : nat) (p : Z) (db ndb : dec_db) (ready : list Z) : cres (Z * dec_db * dec_db * list Z) :=
  if p <? first_code then COk (p, db, ndb, ready)
  else
    match fuel with
    | O => CFuel
    | S f =>
      match nth_error db (code_at p) with
      | None => CBad
      | Some i =>
        if di_used i then expand f (di_prev i) db ndb (di_out i :: ready)
        else
          cbind (translate (S (length db)) (di_prev i) db ndb) (fun '(pt, db1, ndb1) =>
            cbind (d_add_code i pt ndb1) (fun '(i2, ndb2) =>
              expand f (di_prev i) (set_at (code_at p) i2 db1) ndb2 (di_out i :: ready)))
      end
    end.
(** tcc 197-284, [decompress]: the symbol, [None] for -1.  The bound [fuel] is on
    the codes that ask for an optimisation, one after the other. *)
Fixpoint decompress_sym (fuel : nat) (s : dstate) (inp : bytes) : cres (option Z * dstate * bytes) :=
  match ds_ready s with
  | c :: r => COk (Some c, mkDS (ds_db s) r (ds_first s) (ds_prev s) (ds_ndb s) (ds_utf8 s), inp)
  | [] =>
    let '(cc, inp1) := read_code inp in
    if cc =? flush_code then COk (None, mkDS [] [] (ds_first s) initial_code (ds_ndb s) (ds_utf8 s), inp1)
    else if cc =? optimize_code then
      match fuel with
      | O => CFuel
      | S f => decompress_sym f (mkDS (ds_ndb s) [] (ds_first s) initial_code [] (ds_utf8 s)) inp1
      end
    else
      let next := next_of (ds_db s) in
      if next <? cc then CThrow
      else
        let used := cc =? next in
        cbind (expand (S (length (ds_db s))) (if used then ds_prev s else cc) (ds_db s) (ds_ndb s) (if used then [ds_first s] else []))
          (fun '(p, db1, ndb1, ready) =>
            if ds_prev s =? initial_code then COk (Some p, mkDS db1 ready p cc ndb1 (ds_utf8 s), inp1)
            else
              let db2 := db1 ++ [mkDI (ds_prev s) None p false] in
              if used then
                cbind (translate (S (length db2)) next db2 ndb1) (fun '(_, db3, ndb3) =>
                  COk (Some p, mkDS db3 ready p cc ndb3 (ds_utf8 s), inp1))
              else COk (Some p, mkDS db2 ready p cc ndb1 (ds_utf8 s), inp1))
  end.
Definition with_utf8' (n : Z) (s : dstate) : dstate :=
  mkDS (ds_db s) (ds_ready s) (ds_first s) (ds_prev s) (ds_ndb s) n.
(** -1 as a [char] is the byte 255. *)
Definition sym_byte (c : option Z) : Z := match c with Some c => c | None => 255 end.
(** A call of [decompress] with enough bound. tcc 198-284. *)
Definition decompress_one (s : dstate) (inp : bytes) : cres (option Z * dstate * bytes) := decompress_sym (S (length inp)) s inp.
(** tcc 178-196: a byte; -1 is 255. *)
Definition decompress_char (s : dstate) (inp : bytes) : cres (Z * dstate * bytes) :=
  cbind (decompress_one s inp) (fun '(c, s1, inp1) =>
    if negb (ds_utf8 s1 =? 0) then COk (Z.lor (sym_byte c) 128, with_utf8' (ds_utf8 s1 - 1) s1, inp1)
    else
      let lead n mask :=
        cbind (decompress_one (with_utf8' n s1) inp1) (fun '(c2, s2, inp2) => COk (Z.lor (sym_byte c2) mask, s2, inp2)) in
      match c with
      | None => COk (255, s1, inp1)
      | Some c =>
        if c =? 1 then lead 1 192
        else if c =? 2 then lead 2 224
        else if c =? 3 then lead 3 240
        else if c =? 4 then lead 4 248
        else COk (to_byte (c + code_shift), s1, inp1)
      end).
(** [n] calls of a decompressor. tcc 179-196. *)
Fixpoint decompress_calls (n : nat) (s : dstate) (inp : bytes) : cres (bytes * dstate * bytes) :=
  match n with
  | O => COk ([], s, inp)
  | S n' =>
    cbind (decompress_char s inp) (fun '(c, s1, inp1) =>
      cbind (decompress_calls n' s1 inp1) (fun '(l, s2, inp2) => COk (c :: l, s2, inp2)))
  end.
End Mask.
