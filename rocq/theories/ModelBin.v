(** Binary serialisation: /repo/src/imtjson/binjson.tcc, binjson.h. *)
From Verif Require Import Base ModelKeyed ModelValue ModelObject ModelEq ModelEnc.
Local Open Scope Z_scope.

(** Object representation of an integer on a little-endian machine, as copied by
    [writePOD] and [readPOD] (413-425, 341-347). *)
Fixpoint le_bytes (n : nat) (v : Z) : bytes :=
  match n with
  | O => []
  | S k => v mod 256 :: le_bytes k (v / 256)
  end.
Fixpoint le_value (s : bytes) : Z :=
  match s with
  | [] => 0
  | b :: s' => b + 256 * le_value s'
  end.

(** Object representation of a [double] (IEEE 754 binary64) as a 64-bit number,
    and back.  NaN payloads are not modelled: every NaN is written as the quiet
    one. *)
Definition sign_bit (s : bool) : Z := if s then 2 ^ 63 else 0.
Definition dbl_bits (f : spec_float) : Z :=
  match f with
  | S754_zero s => sign_bit s
  | S754_infinity s => sign_bit s + 2047 * 2 ^ 52
  | S754_nan => 2047 * 2 ^ 52 + 2 ^ 51
  | S754_finite s m e =>
    sign_bit s + (if Z.pos m <? 2 ^ 52 then Z.pos m else (e + 1075) * 2 ^ 52 + (Z.pos m - 2 ^ 52))
  end.
Definition bits_dbl (b : Z) : spec_float :=
  let s := 2 ^ 63 <=? b in
  let ex := b / 2 ^ 52 mod 2048 in
  let m := b mod 2 ^ 52 in
  if ex =? 0 then
    match m with Z.pos p => S754_finite s p (-1074) | _ => S754_zero s end
  else if ex =? 2047 then
    if m =? 0 then S754_infinity s else S754_nan
  else
    match m + 2 ^ 52 with Z.pos p => S754_finite s p (ex - 1075) | _ => S754_nan end.
(** The same for a [float] (binary32), already converted to double. *)
Definition bits_flt (b : Z) : spec_float :=
  let s := 2 ^ 31 <=? b in
  let ex := b / 2 ^ 23 mod 256 in
  let m := b mod 2 ^ 23 in
  let num m e := binary_normalize fprec femax (if s then - m else m) e s in
  if ex =? 0 then num m (-149)
  else if ex =? 255 then
    if m =? 0 then S754_infinity s else S754_nan
  else num (m + 2 ^ 23) (ex - 150).

(** 22-65: the opcodes used below. *)
Definition op_null : Z := 1.
Definition op_undefined : Z := 2.
Definition op_true : Z := 3.
Definition op_false : Z := 4.
Definition op_float : Z := 5.
Definition op_double : Z := 6.
Definition op_size8 : Z := 0xA.
Definition op_size16 : Z := 0xB.
Definition op_size32 : Z := 0xC.
Definition op_size64 : Z := 0xD.
Definition op_diff : Z := 0x0F.
Definition op_binstring : Z := 0x10.
Definition op_posint : Z := 0x20.
Definition op_negint : Z := 0x30.
Definition op_string : Z := 0x40.
Definition op_object : Z := 0x50.
Definition op_array : Z := 0x60.
Definition op_key : Z := 0x70.

(** ivalue.h: [compressKeys], [maintain32BitComp], [compressTokenStrings]. *)
Record bflags := mkBF { bf_keys : bool; bf_32 : bool; bf_tokens : bool }.

(** 152-175, [serializeInteger]. *)
Definition write_integer (F : bflags) (n : Z) (type : Z) : bytes :=
  if n <? 10 then [Z.lor type n]
  else if n <=? 0xFF then Z.lor type op_size8 :: le_bytes 1 n
  else if n <=? 0xFFFF then Z.lor type op_size16 :: le_bytes 2 n
  else if n <=? 0xFFFFFFFF then Z.lor type op_size32 :: le_bytes 4 n
  else if bf_32 F then op_double :: le_bytes 8 (dbl_bits (f_of_Z n))
  else Z.lor type op_size64 :: le_bytes 8 n.
(** 177-180, [serialize64bit]. *)
Definition write_64bit (n : Z) (type : Z) : bytes := Z.lor type op_size64 :: le_bytes 8 n.

(** 113-120, [canCompressString].  [isalnum] of a byte above 127, undefined where plain
    characters are signed, is taken as false. *)
Definition can_compress (s : bytes) : bool :=
  (4 <? length s)%nat && forallb (fun c => is_alnum c || (c =? 95) || (c =? 45)) s.

(** 122-149, [serializeString].  The buffer of line 135 has exactly the size of
    what [decoderCore] writes. *)
Definition write_string_bin (F : bflags) (s : bytes) (type : Z) : bytes :=
  write_integer F (Z.of_nat (length s)) type ++
  match s with
  | [] => []
  | c :: s' =>
    if type =? op_binstring then s
    else if bf_tokens F && can_compress s then
      Z.lor (b64_table true c) 0x80 :: b64_decoder_core true s'
    else Z.lor c (Z.shiftr (Z.land c 0x80) 1) :: s'
  end.

(** 183-209, [serializeNumber].  The negation of the smallest [Int] is undefined
    and left aside. *)
Definition write_number (L : libm) (F : bflags) (n : num) : bytes :=
  match n with
  | NInt n => if n <? 0 then write_integer F (- n) op_negint else write_integer F n op_posint
  | NUInt n => write_integer F n op_posint
  | NPrec _ (PkInt n) => if n <? 0 then write_64bit (- n) op_negint else write_64bit n op_posint
  | NPrec _ (PkUInt n) => write_64bit n op_posint
  | NDbl _ | NPrec _ PkDbl => op_double :: le_bytes 8 (dbl_bits (get_number L n))
  end.

(** binjson.h 101-111: the dictionary and [nextKeyId] of the serializer. *)
Record wstate := mkWS { ws_map : list (bytes * Z); ws_next : Z }.
Definition ws_init : wstate := mkWS [] 256.
(** [keyMap[key]]: a missing entry is created with value 0. *)
Fixpoint key_id (l : list (bytes * Z)) (k : bytes) : Z :=
  match l with
  | [] => 0
  | x :: l' => if beqb (fst x) k then snd x else key_id l' k
  end.
(** 450-462, [tryCompressKey]; [None] is -1. *)
Definition try_compress_key (st : wstate) (k : bytes) : option Z * wstate :=
  let dist := u32 (ws_next st - key_id (ws_map st) k - 1) in
  if dist <? 128 then (Some dist, st)
  else (None, mkWS ((k, ws_next st) :: ws_map st) (u32 (ws_next st + 1))).
(** 494-497, [preloadKey] of the serializer. *)
Definition preload_writer (st : wstate) (k : bytes) : bool * wstate :=
  let '(c, st') := try_compress_key st k in (match c with None => true | Some _ => false end, st').

(** 76-87: the key of an item. *)
Definition write_key (F : bflags) (k : bytes) (st : wstate) : bytes * wstate :=
  match k with
  | [] => ([], st)
  | _ =>
    if bf_keys F then
      match try_compress_key st k with
      | (Some c, st') => ([Z.lor 0x80 c], st')
      | (None, st') => (write_string_bin F k op_key, st')
      end
    else (write_string_bin F k op_key, st)
  end.

(** 75-111, [serialize], [serializeContainer]: item [v] with key [k].  The diff
    flag of an object is not written. *)
Fixpoint write_item (L : libm) (F : bflags) (k : bytes) (v : value) (st : wstate) {struct v} : bytes * wstate :=
  let '(kb, st1) := write_key F k st in
  let '(vb, st2) :=
    match v with
    | VUndef => ([op_undefined], st1)
    | VNull => ([op_null], st1)
    | VBool b => ([if b then op_true else op_false], st1)
    | VNum n => (write_number L F n, st1)
    | VStr (Some _) s => (write_string_bin F s op_binstring, st1)
    | VStr None s => (write_string_bin F s op_string, st1)
    | VArr l =>
      let '(b, st2) :=
        (fix items (l : list member) (st : wstate) {struct l} : bytes * wstate :=
           match l with
           | [] => ([], st)
           | x :: l' =>
             let '(b, st') := write_item L F (fst x) (snd x) st in
             let '(b', st'') := items l' st' in (b ++ b', st'')
           end) l st1 in
      (write_integer F (Z.of_nat (length l)) op_array ++ b, st2)
    | VObj _ l =>
      let '(b, st2) :=
        (fix items (l : list member) (st : wstate) {struct l} : bytes * wstate :=
           match l with
           | [] => ([], st)
           | x :: l' =>
             let '(b, st') := write_item L F (fst x) (snd x) st in
             let '(b', st'') := items l' st' in (b ++ b', st'')
           end) l st1 in
      (write_integer F (Z.of_nat (length l)) op_object ++ b, st2)
    end in
  (kb ++ vb, st2).

(** binjson.h 138-142, [Value::serializeBinary] of a value with key. *)
Definition serialize_binary (L : libm) (F : bflags) (m : member) : bytes :=
  fst (write_item L F (fst m) (snd m) ws_init).

(** *** The parser *)
(** The input still to come and the key history of the parser (binjson.h 58-60). *)
Record pstate := mkPS { ps_in : bytes; ps_hist : list bytes; ps_idx : Z }.
Definition ps_init (s : bytes) : pstate := mkPS s [] 0.
(** [(unsigned char)fn()]; [fn] returns -1 after the end. *)
Definition read1 (p : pstate) : Z * pstate :=
  match ps_in p with
  | [] => (255, p)
  | c :: s => (c, mkPS s (ps_hist p) (ps_idx p))
  end.
Fixpoint read_n (n : nat) (p : pstate) : bytes * pstate :=
  match n with
  | O => ([], p)
  | S k => let '(c, p1) := read1 p in let '(s, p2) := read_n k p1 in (c :: s, p2)
  end.
Definition read_le (n : nat) (p : pstate) : Z * pstate :=
  let '(s, p1) := read_n n p in (le_value s, p1).

(** 305-336, [parseInteger] with a 64-bit [size_t]. *)
Definition parse_integer (tag : Z) (p : pstate) : Z * pstate :=
  let l := Z.land tag 0xF in
  if l =? op_size8 then read_le 1 p
  else if l =? op_size16 then read_le 2 p
  else if l =? op_size32 then read_le 4 p
  else if l =? op_size64 then read_le 8 p
  else (l, p).

(** 261-303, [parseString]; [J n] are the [n] uninitialised bytes at the end of
    the buffer of line 275. *)
Definition parse_string_bin (J : nat -> bytes) (e : option enc) (tag : Z) (p : pstate) : value * pstate :=
  let '(n, p1) := parse_integer tag p in
  let sz := Z.to_nat n in
  match sz with
  | O => (VStr None [], p1)
  | S k =>
    match e with
    | Some _ => let '(s, p2) := read_n sz p1 in (VStr e s, p2)
    | None =>
      let '(x, p2) := read1 p1 in
      if Z.land x 0xC0 =? 0x80 then
        let cnt := ((k * 3 + 3) / 4)%nat in
        let '(buf, p3) := read_n cnt p2 in
        let text := concat (b64_encode_core true false (buf ++ J (sz - cnt)%nat)) in
        (VStr None (b64_char true (Z.land x 0x3F) :: firstn k text), p3)
      else
        let '(s, p3) := read_n k p2 in (VStr None (x :: s), p3)
    end
  end.
Definition str_content (v : value) : bytes := match v with VStr _ s => s | _ => [] end.

(** 476-485, [storeKey]. *)
Definition store_key (p : pstate) (k : bytes) : pstate :=
  let idx := Z.to_nat (Z.land (ps_idx p) 0x7F) in
  let h := if (length (ps_hist p) =? idx)%nat then ps_hist p ++ [k]
           else firstn idx (ps_hist p) ++ k :: skipn (S idx) (ps_hist p) in
  mkPS (ps_in p) h (u32 (ps_idx p + 1)).
(** 403-405: the key a short tag refers to. *)
Definition history_key (p : pstate) (tag : Z) : bytes :=
  nth (Z.to_nat (Z.land (u32 (ps_idx p - 1 - tag)) 0x7F)) (ps_hist p) [].

(** 362-411, [parseItem], with 240-259 and 441-448.  The first argument bounds
    the recursion and the loops; [pe] is [curBinaryEncoding].  [Value(s,v)]
    replaces the key of [v] (object.cpp 27-35, 409).  The negation of the smallest [Int]
    (magnitude 2^63, 391-396) is undefined; here it gives 2^63, outside the range. *)
Section Parser.
Variables (J : nat -> bytes) (pe : option enc).
Fixpoint parse_item (fuel : nat) (p : pstate) {struct fuel} : res (member * pstate) :=
  match fuel with
  | O => Fuel
  | S f =>
    let '(tag, p1) := read1 p in
    let g := Z.land tag 0xF0 in
    let leaf (r : value * pstate) : res (member * pstate) := Ok (([], fst r), snd r) in
    if g =? 0 then
      if tag =? op_null then leaf (VNull, p1)
      else if tag =? op_false then leaf (VBool false, p1)
      else if tag =? op_true then leaf (VBool true, p1)
      else if tag =? op_undefined then leaf (VUndef, p1)
      else if tag =? op_double then
        let '(b, p2) := read_le 8 p1 in leaf (value_of_double (bits_dbl b), p2)
      else if tag =? op_float then
        let '(b, p2) := read_le 4 p1 in leaf (value_of_double (bits_flt b), p2)
      else if tag =? op_diff then
        let '(op, p2) := read1 p1 in
        if Z.land op 0xF0 =? op_object then
          let '(n, p3) := parse_integer op p2 in
          do (l, p4) <- parse_items f n p3; Ok (([], VObj true l), p4)
        else Err
      else Err
    else if g =? op_array then
      let '(n, p2) := parse_integer tag p1 in
      do (l, p3) <- parse_items f n p2; Ok (([], VArr l), p3)
    else if g =? op_object then
      let '(n, p2) := parse_integer tag p1 in
      do (l, p3) <- parse_items f n p2; Ok (([], VObj false l), p3)
    else if g =? op_string then leaf (parse_string_bin J None tag p1)
    else if g =? op_binstring then leaf (parse_string_bin J pe tag p1)
    else if g =? op_posint then
      let '(n, p2) := parse_integer tag p1 in leaf (VNum (NUInt n), p2)
    else if g =? op_negint then
      let '(n, p2) := parse_integer tag p1 in leaf (value_of_int (- s64 n), p2)
    else if g =? op_key then
      let '(s, p2) := parse_string_bin J None tag p1 in
      do (m, p3) <- parse_item f (store_key p2 (str_content s)); Ok ((str_content s, snd m), p3)
    else
      do (m, p2) <- parse_item f p1; Ok ((history_key p1 tag, snd m), p2)
  end
with parse_items (fuel : nat) (n : Z) (p : pstate) {struct fuel} : res (list member * pstate) :=
  match fuel with
  | O => Fuel
  | S f =>
    if n <=? 0 then Ok ([], p)
    else
      do (m, p1) <- parse_item f p;
      do (l, p2) <- parse_items f (n - 1) p1; Ok (m :: l, p2)
  end.
End Parser.

(** 489-492, 499-510: [preloadKey] of the parser, [clearKeys] of both. *)
Definition preload_reader (p : pstate) (k : bytes) : pstate := store_key p k.
Definition clear_reader (p : pstate) : pstate := mkPS (ps_in p) [] 0.
Definition clear_writer (st : wstate) : wstate := ws_init.

(** The parser given [s] and then nothing; enough steps for anything that ends
    (theorem in PropBin). binjson.tcc 358-360, [parse]. *)
Definition bin_fuel (s : bytes) : nat := 2 * length s + 3.
Definition parse_binary (J : nat -> bytes) (pe : option enc) (s : bytes) : res (member * pstate) :=
  parse_item J pe (bin_fuel s) (ps_init s).
