(** The command line tools: /repo/src/jsonbin/jsonbin.cpp, jsonunbin/jsonunbin.cpp,
    jsonpack/jsonpack.cpp, jsonunpack/jsonunpack.cpp, 14-31 of each.  Streams are the bytes
    read and written; the message on the standard error and what a failing tool wrote before
    the failure are left out. *)
From Verif Require Import Base ModelValue ModelText ModelEnc ModelBin ModelCompress ModelStreams.
Local Open Scope Z_scope.
Local Open Scope list_scope.

(** How a run ends: status 0 with what was written (24 or 25, [return 0]); status 1 after an
    exception (28); not at all; undefined behaviour.  Model only. *)
Inductive outcome := Writes (out : bytes) | Fails | Hangs | Broken.

(** The state the library starts with: parser.h 258-262, value.cpp 317-319; precise numbers
    and duplicate keys are off. *)
Definition tool_flags : pflags := mkPF false false.

(** jsonbin.cpp 21-30: [Value::fromStream(cin)], [serializeBinary(toStream(cout))], whose
    default is to compress keys (value.h 931). *)
Definition json_bin (L : libm) (s : bytes) : outcome :=
  match from_stream L tool_flags s with
  | Ok v => Writes (serialize_binary L (mkBF true false false) ([], v))
  | Err => Fails
  | Fuel => Hangs
  end.
(** jsonunbin.cpp 19-29: [Value::parseBinary(fromStream(cin))], whose default encoding is
    base64 (value.h 911, binary.cpp 172), [toStream(emitUtf8, cout)]. *)
Definition json_unbin (J : nat -> bytes) (E : serenv) (s : bytes) : outcome :=
  match parse_binary J (Some EncBase64) s with
  | Ok ((_, v), _) => Writes (ser E true v)
  | Err => Fails
  | Fuel => Hangs
  end.

(** compress.h 21, [extCodeMask] *)
Definition tool_ext : Z := 0x80.
(** jsonpack.cpp 21-30: [Value::fromStream(cin)], [serialize(emitUtf8, compress(toStream(cout)))];
    the destructor of the compressor ends the stream. *)
Definition json_pack (L : libm) (E : serenv) (s : bytes) : outcome :=
  match from_stream L tool_flags s with
  | Ok v => match compress_all tool_ext (ser E true v) with COk o => Writes o | CThrow => Fails | CBad => Broken | CFuel => Hangs end
  | Err => Fails
  | Fuel => Hangs
  end.
(** Model only: the characters of the first [n] calls of the decompressor and how the call
    after the last of them ended, if it did not give a character. *)
Inductive stop := More | Throws | Undefined | Loops.
Fixpoint delivered (n : nat) (s : dstate) (inp : bytes) : bytes * stop :=
  match n with
  | O => ([], More)
  | S n' =>
    match decompress_char tool_ext s inp with
    | COk (c, s1, inp1) => let '(t, e) := delivered n' s1 inp1 in (c :: t, e)
    | CThrow => ([], Throws)
    | CBad => ([], Undefined)
    | CFuel => ([], Loops)
    end
  end.
(** jsonunpack.cpp 19-29: [Value::parse(decompress(fromStream(cin)))], [toStream(emitUtf8, cout)].
    Simplified: the parser gets the characters of [n] calls of the decompressor and the end of
    the text after them, which is what the decompressor gives from some call on; so the run of
    the tool is that of all large [n].  When a call fails, what follows matters only if the
    parser asks for it: an end mark is put in its place, and the run fails unless a value was
    read without it. *)
Definition json_unpack (L : libm) (E : serenv) (n : nat) (inp : bytes) : outcome :=
  let '(t, e) := delivered n d_init inp in
  let fails := match e with Undefined => Broken | Loops => Hangs | _ => Fails end in
  match e with
  | More =>
    match parse_source L tool_flags (map schar t) with Ok (v, _) => Writes (ser E true v) | Err => Fails | Fuel => Hangs end
  | _ =>
    match parse_source L tool_flags (map schar t ++ [-1]) with
    | Ok (v, r) => match src r with [] => fails | _ => Writes (ser E true v) end
    | Err => fails
    | Fuel => Hangs
    end
  end.
