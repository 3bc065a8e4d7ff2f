(** Several documents read from one source: /repo/src/imtjson/parser.h 43, 70-138, 257-262,
    value.cpp 96-108, value.h 1169-1172. *)
From Verif Require Import Base ModelValue ModelText.

(** parser.h 257-262: one call of [Value::parse] on a source which stays where it was left
    (a function given by reference; the stream or the file of [Value::fromStream],
    [Value::fromFile] and [operator >>]).  Each call makes a new [Parser], so a character
    which is loaded when [parse] returns (70-99) is gone.  What is left of the source after
    an error is in ModelParser. *)
Definition parse_call (L : libm) (F : pflags) (s : list Z) : res (value * list Z) :=
  do (v, r) <- parse_source L F s; Ok (v, src r).

(** [n] calls, one after another, until one of them throws. parser.h 43. *)
Fixpoint parse_calls (L : libm) (F : pflags) (n : nat) (s : list Z) : res (list value * list Z) :=
  match n with
  | O => Ok ([], s)
  | S m =>
    do (v, s1) <- parse_call L F s;
    do (vs, s2) <- parse_calls L F m s1;
    Ok (v :: vs, s2)
  end.

(** parser.h 43, 264-: [parse] of a [Parser] object which is used again; its reader [rd]
    keeps the loaded character. *)
Definition parser_call (L : libm) (F : pflags) (r : reader) : res (value * reader) :=
  parse L F (S (2 * S (length (src r)))) r.

(** Such calls one after another. *)
Fixpoint parser_calls (L : libm) (F : pflags) (n : nat) (r : reader) : res (list value * reader) :=
  match n with
  | O => Ok ([], r)
  | S m =>
    do (v, r1) <- parser_call L F r;
    do (vs, r2) <- parser_calls L F m r1;
    Ok (v :: vs, r2)
  end.
