(** Binary encodings: /repo/src/imtjson/base64.cpp, base64.h, binary.cpp. *)
From Verif Require Import Base ModelUtf8 ModelValue.
Local Open Scope Z_scope.

(** base64.cpp 13-20, [base64chars] and [base64urlchars]. *)
Definition b64_chars (url : bool) : bytes :=
  zrange 65 26 ++ zrange 97 26 ++ zrange 48 10 ++ (if url then [45; 95] else [43; 47]).
Definition b64_char (url : bool) (i : Z) : Z := nth (Z.to_nat i) (b64_chars url) 0.

(** base64.cpp 8-11, [Base64Table]: the table entry of byte [c]. *)
Definition b64_table (url : bool) (c : Z) : Z :=
  fold_left (fun acc i => if b64_char url i =? c then i else acc) (zrange 0 64) 255.

(** base64.cpp 87-108, one turn of the loop of [encodeCore]: the characters put
    in the buffer and the new [nx]. *)
Definition b64_turn (url : bool) (rd nx c : Z) : bytes * Z :=
  if rd mod 3 =? 0 then
    ([b64_char url (Z.shiftr c 2)], Z.land (to_byte (Z.shiftl c 4)) 0x3F)
  else if rd mod 3 =? 1 then
    ([b64_char url (Z.lor nx (Z.shiftr c 4))], Z.land (to_byte (Z.shiftl c 2)) 0x3F)
  else
    ([b64_char url (Z.lor nx (Z.shiftr c 6)); b64_char url (Z.land c 0x3F)], nx).

(** base64.cpp 87-117, the loop and what follows it; the result is the list of
    strings given to the write function.  [padd] is line 82. *)
Fixpoint b64_loop (url tail : bool) (padd : nat) (data : bytes) (rd nx : Z) (buff : bytes) : list bytes :=
  match data with
  | [] =>
    let b1 := if rd mod 3 =? 0 then buff else buff ++ [b64_char url nx] in
    [if tail then b1 ++ repeat 61 padd else b1]
  | c :: data' =>
    let '(o, nx1) := b64_turn url rd nx c in
    let b1 := buff ++ o in
    if (250 <? length b1)%nat then b1 :: b64_loop url tail padd data' (rd + 1) nx1 []
    else b64_loop url tail padd data' (rd + 1) nx1 b1
  end.

(** base64.cpp 78-119, [encodeCore]. *)
Definition b64_encode_core (url tail : bool) (data : bytes) : list bytes :=
  match data with
  | [] => []
  | _ =>
    let len := length data in
    let nlen := Nat.div (len + 2) 3 in
    b64_loop url tail (nlen * 3 - len) data 0 0 []
  end.

(** base64.cpp 28-50, [decoderCore]: [out] are the bytes below [wrpos], [cur] the
    byte at [wrpos] if it has been written.  The result is the written prefix of
    the buffer. *)
Fixpoint b64_decode_loop (url : bool) (str : bytes) (rd : Z) (out : bytes) (cur : Z) : bytes :=
  match str with
  | [] => if rd mod 4 =? 0 then out else out ++ [cur]
  | z :: str' =>
    let b := b64_table url z in
    if Z.land rd 3 =? 0 then b64_decode_loop url str' (rd + 1) out (to_byte (Z.shiftl b 2))
    else if Z.land rd 3 =? 1 then
      b64_decode_loop url str' (rd + 1) (out ++ [Z.lor cur (Z.shiftr b 4)]) (to_byte (Z.shiftl b 4))
    else if Z.land rd 3 =? 2 then
      b64_decode_loop url str' (rd + 1) (out ++ [Z.lor cur (Z.shiftr b 2)]) (to_byte (Z.shiftl b 6))
    else b64_decode_loop url str' (rd + 1) (out ++ [Z.lor cur b]) 0
  end.
Definition b64_decoder_core (url : bool) (str : bytes) : bytes := b64_decode_loop url str 0 [] 0.

(** base64.cpp 52-70, [Base64Encoding::decodeBinaryValue]. *)
Definition b64_decode (str : bytes) : value :=
  let len := length str in
  if negb (Nat.modulo len 4 =? 0)%nat || (len =? 0)%nat then VStr None []
  else
    let finlen := Nat.div (len * 3) 4 in
    let '(finlen, len) := if nth (len - 1) str 0 =? 61 then (finlen - 1, len - 1)%nat else (finlen, len) in
    let '(finlen, len) := if nth (len - 1) str 0 =? 61 then (finlen - 1, len - 1)%nat else (finlen, len) in
    VStr (Some EncBase64) (firstn finlen (b64_decoder_core false (firstn len str))).

(** base64.cpp 124-133, [Base64EncodingUrl::decodeBinaryValue]; the value is
    tagged with base64 (line 128). *)
Definition b64url_decode (str : bytes) : value :=
  let len := length str in
  VStr (Some EncBase64) (firstn (Nat.div (len * 3) 4) (b64_decoder_core true str)).

(** binary.cpp 52-61, [hexchar], [unhexchar]. *)
Definition hexchar (i : Z) : Z := if i <? 10 then 48 + i else 55 + i.
Definition unhexchar (h : Z) : Z :=
  if (48 <=? h) && (h <=? 57) then h - 48
  else if (65 <=? h) && (h <=? 70) then h - 65 + 10
  else if (97 <=? h) && (h <=? 102) then h - 97 + 10
  else 0.

(** [isalnum] in the "C" locale. Called at binary.cpp 95. *)
Definition is_alnum (c : Z) : bool :=
  ((48 <=? c) && (c <=? 57)) || ((65 <=? c) && (c <=? 90)) || ((97 <=? c) && (c <=? 122)).
(** binary.cpp 95: the characters "-_.!~*'()". *)
Definition url_marks : bytes := [45; 95; 46; 33; 126; 42; 39; 40; 41].

(** binary.cpp 93-104, [UrlEncoding::encodeBinaryValue]. *)
Definition url_encode1 (c : Z) : bytes :=
  if negb (c =? 0) && (is_alnum c || existsb (Z.eqb c) url_marks) then [c]
  else [37; hexchar (Z.shiftr c 4); hexchar (Z.land c 0xF)].
Definition url_encode (data : bytes) : list bytes := map url_encode1 data.

(** binary.cpp 69-70: the size computed in advance. *)
Fixpoint url_count (str : bytes) (skip : nat) : nat :=
  match str with
  | [] => 0
  | c :: str' =>
    match skip with
    | S k => url_count str' k
    | O => S (url_count str' (if c =? 37 then 2 else 0))
    end
  end.
(** binary.cpp 74-88: the bytes written and whether the end was reached inside an
    escape. *)
Fixpoint url_decode_loop (str : bytes) : bytes * bool :=
  match str with
  | [] => ([], false)
  | c :: str' =>
    if c =? 37 then
      match str' with
      | h1 :: h2 :: str'' =>
        let '(o, b) := url_decode_loop str'' in
        (to_byte (Z.lor (Z.shiftl (unhexchar h1) 4) (Z.land (unhexchar h2) 0xF)) :: o, b)
      | _ => ([], true)
      end
    else
      let '(o, b) := url_decode_loop str' in ((if c =? 43 then 32 else c) :: o, b)
  end.
(** binary.cpp 66-92, [UrlEncoding::decodeBinaryValue]. *)
Definition url_decode (str : bytes) : value :=
  let trglen := url_count str 0 in
  let '(o, cut) := url_decode_loop str in
  VStr (Some EncUrl) (firstn (if cut then trglen - 1 else trglen)%nat o).

(** binary.cpp 131-143, [UTF8Encoding::encodeBinaryValue] to a function: blocks
    of 256. *)
Fixpoint blocks (s buff : bytes) : list bytes :=
  match s with
  | [] => match buff with [] => [] | _ => [buff] end
  | c :: s' =>
    let b1 := buff ++ [c] in
    if (length b1 =? 256)%nat then b1 :: blocks s' [] else blocks s' b1
  end.
Definition utf8_encode_blocks (data : bytes) : list bytes := blocks (wide_to_utf8 data) [].
(** binary.cpp 144-153: the value form; the two passes use a converter without
    state. *)
Definition utf8_encode_value (data : bytes) : value := VStr None (wide_to_utf8 data).

(** binary.cpp 120-130, [UTF8Encoding::decodeBinaryValue]: the first pass counts,
    the second, with the converter in the state the first pass left it in,
    writes.  [None] is the buffer overflow of a second pass that writes more
    ([StringValue] then aborts, stringValue.h 54); writing less leaves the rest
    of the buffer uninitialised, also [None]. *)
Definition utf8_decode (str : bytes) : option value :=
  let '(st1, o1) := utf8_to_wide u_init str in
  let '(_, o2) := utf8_to_wide st1 str in
  if (length o1 =? length o2)%nat then Some (VStr (Some EncUtf8) (map to_byte o2)) else None.

(** [IBinaryEncoder::encodeBinaryValue] to a function, by encoding.
    base64.cpp 71, 134, binary.cpp 40, 93. *)
Definition encode_chunks (e : enc) (data : bytes) : list bytes :=
  match e with
  | EncBase64 => b64_encode_core false true data
  | EncBase64Url => b64_encode_core true false data
  | EncUrl => url_encode data
  | EncUtf8 => utf8_encode_blocks data
  end.
(** binary.cpp 110-114, [AbstractBinaryEncoder::encodeBinaryValue], and 144-153. *)
Definition encode_value (e : enc) (data : bytes) : value := VStr None (concat (encode_chunks e data)).
Definition decode_value (e : enc) (str : bytes) : option value :=
  match e with
  | EncBase64 => Some (b64_decode str)
  | EncBase64Url => Some (b64url_decode str)
  | EncUrl => Some (url_decode str)
  | EncUtf8 => utf8_decode str
  end.

(** binary.cpp 22-31, [Binary::decodeBinaryValue], as called by
    [Value::getBinary] (value.cpp 349), on string values: the content. *)
Definition get_binary (e : enc) (v : value) : option bytes :=
  match v with
  | VStr _ [] => Some []
  | VStr None s =>
    match decode_value e s with
    | Some (VStr _ d) => Some d
    | _ => None
    end
  | VStr (Some _) s => Some s
  | _ => Some []
  end.
