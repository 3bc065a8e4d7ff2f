(** Sources of the parser: /repo/src/imtjson/streams.h 24-72, value.cpp 85-108,
    value.h [Value::parse]. *)
From Verif Require Import Base ModelValue ModelText.

(** streams.h 24-39, 45-72: [Value::parse] of [fromStream(stream)],
    [fromString(text)] or [fromBinary(data)]; each delivers bytes as the numbers
    0..255.  The state of a standard stream besides its bytes is not modelled. *)
Definition parse_bytes (L : libm) (F : pflags) (s : bytes) : res value :=
  do (v, _) <- parse_source L F s; Ok v.

(** value.cpp 96-108: [Value::fromStream], [Value::fromFile]; the byte or the eof
    of the library is converted to [char]. *)
Definition from_stream (L : libm) (F : pflags) (s : bytes) : res value :=
  do (v, _) <- parse_source L F (map schar s); Ok v.
