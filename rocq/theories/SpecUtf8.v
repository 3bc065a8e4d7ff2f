(** Specification of UTF-8 (RFC 3629 byte table, surrogates not singled out),
    written with arithmetic only and independent of the model. *)
From Verif Require Import Base.
Local Open Scope Z_scope.

(** A code point. *)
Definition is_cp (c : Z) : Prop := 0 <= c <= 0x10FFFF.

(** The standard UTF-8 bytes of a code point. *)
Definition utf8_bytes (c : Z) : bytes :=
  if c <? 0x80 then [c]
  else if c <? 0x800 then [0xC0 + c / 64; 0x80 + c mod 64]
  else if c <? 0x10000 then
    [0xE0 + c / 4096; 0x80 + (c / 64) mod 64; 0x80 + c mod 64]
  else
    [0xF0 + c / 262144; 0x80 + (c / 4096) mod 64;
     0x80 + (c / 64) mod 64; 0x80 + c mod 64].

(** The UTF-8 encoding of a code point sequence. *)
Definition utf8_encode (cs : list Z) : bytes := flat_map utf8_bytes cs.

(** Valid UTF-8: the encoding of some code point sequence. *)
Definition valid_utf8 (s : bytes) : Prop :=
  exists cs, Forall is_cp cs /\ s = utf8_encode cs.

(** A byte source delivers bytes either as values 0..255
    ([std::istream]-like) or as [char]s, negative from 0x80 up.  Both forms
    occur in the library; [as_source sg] is the source form of a byte. *)
Definition as_source (sg : bool) (b : Z) : Z := if sg then schar b else b.
