(** UTF-8 <-> wide character conversion: /repo/src/imtjson/utf8.h. *)
From Verif Require Import Base.
Local Open Scope Z_scope.

(** utf8.h 33-50, body of the loop of [WideToUtf8::operator()]: the chars sent
    to the output for one input code [wchar] (an [int]; the eof value -1 ends
    the loop before this body runs, utf8.h 32).  Codes above 0x10FFFF
    produce nothing; negative codes fall in the first branch. *)
Definition wide_to_utf8_1 (w : Z) : bytes :=
  if w <? 0x80 then [to_byte w]
  else if (0x80 <=? w) && (w <=? 0x7FF) then
    [to_byte (Z.lor 0xC0 (Z.shiftr w 6));
     to_byte (Z.lor 0x80 (Z.land w 0x3F))]
  else if (0x800 <=? w) && (w <=? 0xFFFF) then
    [to_byte (Z.lor 0xE0 (Z.shiftr w 12));
     to_byte (Z.lor 0x80 (Z.land (Z.shiftr w 6) 0x3F));
     to_byte (Z.lor 0x80 (Z.land w 0x3F))]
  else if (0x10000 <=? w) && (w <=? 0x10FFFF) then
    [to_byte (Z.lor 0xF0 (Z.shiftr w 18));
     to_byte (Z.lor 0x80 (Z.land (Z.shiftr w 12) 0x3F));
     to_byte (Z.lor 0x80 (Z.land (Z.shiftr w 6) 0x3F));
     to_byte (Z.lor 0x80 (Z.land w 0x3F))]
  else [].

(** utf8.h 30-53, [WideToUtf8::operator()] over a finite input followed by eof. *)
Fixpoint wide_to_utf8 (ws : list Z) : bytes :=
  match ws with
  | [] => []
  | w :: ws' => if w =? -1 then [] else wide_to_utf8_1 w ++ wide_to_utf8 ws'
  end.

(** utf8.h 60-61: members [uchar] and [b] (unsigned int) of [Utf8ToWide]. *)
Record ustate := mkU { uchar : Z; pend : Z }.
Definition u_init : ustate := mkU 0 0.

(** utf8.h 81-96, body of the loop of [Utf8ToWide::operator()]: new state and
    the codes sent to the output.  [uchar] (unsigned int) reaches an output
    function taking [int], hence [s32]. *)
Definition utf8_step (st : ustate) (c : Z) : ustate * list Z :=
  if Z.land c 0xC0 =? 0x80 then
    let u := Z.lor (u32 (Z.shiftl (uchar st) 6)) (Z.land c 0x3F) in
    let b := u32 (pend st - 1) in
    (mkU u b, if b =? 0 then [s32 u] else [])
  else if Z.land c 0xE0 =? 0xC0 then (mkU (Z.land c 0x1F) 1, [])
  else if Z.land c 0xF0 =? 0xE0 then (mkU (Z.land c 0x0F) 2, [])
  else if Z.land c 0xF8 =? 0xF0 then (mkU (Z.land c 0x07) 3, [])
  else (st, [c]).

(** utf8.h 78-99, [Utf8ToWide::operator()] over a finite input followed by eof:
    final state and every code produced. *)
Fixpoint utf8_to_wide (st : ustate) (cs : list Z) : ustate * list Z :=
  match cs with
  | [] => (st, [])
  | c :: cs' =>
    if c =? -1 then (st, [])
    else let '(st1, o1) := utf8_step st c in
         let '(st2, o2) := utf8_to_wide st1 cs' in
         (st2, o1 ++ o2)
  end.
