(** JSON text: /repo/src/imtjson/serializer.h and parser.h. *)
From Verif Require Import Base ModelUtf8 ModelKeyed ModelValue.
Local Open Scope Z_scope.

(** * Serializer *)

(** serializer.h 380: hex digit, upper case. *)
Definition hex_digit (d : Z) : Z := if d <? 10 then 48 + d else 55 + d.

(** serializer.h 371-386, [writeUnicode(unsigned int uchar)].
    [utf8output] is set by the emitUtf8 format. *)
Definition write_unicode (utf8 : bool) (uchar : Z) : bytes :=
  let u := u32 uchar in
  if utf8 && (0x80 <=? u) && negb (u =? 0x2028) && negb (u =? 0x2029)
  then wide_to_utf8 [s32 u]
  else 92 :: 117 ::
       map (fun i => hex_digit (Z.land (Z.shiftr u ((3 - i) * 4)) 0xF)) [0; 1; 2; 3].

(** serializer.h 412-424: what the input filter writes directly; [None] when it
    hands the byte to the UTF-8 decoder. *)
Definition write_direct (c : Z) : option bytes :=
  if (c =? 92) || (c =? 34) then Some [92; c]
  else if c =? 12 then Some [92; 102]
  else if c =? 8 then Some [92; 98]
  else if c =? 13 then Some [92; 114]
  else if c =? 10 then Some [92; 110]
  else if c =? 9 then Some [92; 116]
  else if (c <? 32) || (128 <=? c) then None
  else Some [c].

(** serializer.h 403-430, [writeStringBody]; bytes come from [fromString]
    (streams.h 50) as values 0..255. *)
Fixpoint write_body (utf8 : bool) (st : ustate) (text : bytes) : bytes :=
  match text with
  | [] => []
  | c :: t =>
    match write_direct c with
    | Some o => o ++ write_body utf8 st t
    | None =>
      let '(st1, ws) := utf8_step st c in
      flat_map (write_unicode utf8) ws ++ write_body utf8 st1 t
    end
  end.

Definition write_string_body (utf8 : bool) (text : bytes) : bytes :=
  write_body utf8 u_init text.

(** serializer.h 390-395, [writeString]. *)
Definition write_string (utf8 : bool) (text : bytes) : bytes :=
  34 :: write_string_body utf8 text ++ [34].

(** serializer.h 197-202, [writeUnsignedRec].  The fuel bounds the number of
    digits; [write_unsigned] supplies 20, enough for 64-bit values. *)
Fixpoint write_unsigned_rec (fuel : nat) (v : Z) : bytes :=
  match fuel with
  | O => []
  | S f => if v =? 0 then [] else write_unsigned_rec f (v / 10) ++ [48 + v mod 10]
  end.

(** serializer.h 205-209, [writeUnsigned] (and the identical "Long" form 219). *)
Definition write_unsigned (v : Z) : bytes :=
  if v =? 0 then [48] else write_unsigned_rec 20 v.

(** serializer.h 233-242, [writeSigned].  For the smallest integer [-value]
    overflows (undefined behaviour); the model lets it wrap, and theorems
    exclude that value. *)
Definition write_signed (v : Z) : bytes :=
  if v <? 0 then 45 :: write_unsigned (u64 (- v)) else write_unsigned v.

(** serializer.h 226-230, [writeUnsigned(value, digits)]. *)
Fixpoint write_digits (v : Z) (digits : nat) : bytes :=
  match digits with
  | O | S O => [48 + v mod 10]
  | S d => write_digits (v / 10) d ++ [48 + v mod 10]
  end.

(** serializer.h 351: strips trailing zeros of the mantissa. *)
Fixpoint strip_zeros (fuel : nat) (m : Z) (digits : nat) : Z * nat :=
  match fuel with
  | O => (m, digits)
  | S f => if negb (m =? 0) && (m mod 10 =? 0)
           then strip_zeros f (m / 10) (pred digits) else (m, digits)
  end.

(** The infinity words, parser.h 508-509 and serializer.h 273-274 (UTF-8 bytes
    of U+221E). *)
Definition inf_word : bytes := [0xE2; 0x88; 0x9E].
Definition neg_inf_word : bytes := 45 :: inf_word.

(** serializer.h 257-364, [writeDouble].  [maxprec] is [maxPrecisionDigits].
    [None] stands for undefined behaviour: a cast of an unrepresentable double
    (302, 320, 322). *)
Definition write_double (L : libm) (utf8 : bool) (maxprec : nat) (value : spec_float)
  : option bytes :=
  if negb (f_isfinite value) then
    Some (write_string utf8 (if f_lt value (S754_zero false) then neg_inf_word else inf_word))
  else
    let sign := f_lt value (S754_zero false) in
    let precisz := Nat.min maxprec 9 in
    let value := f_abs value in
    let fexp := f_floor (lm_log10 L value) in
    if negb (f_isfinite fexp) then
      if f_lt fexp (S754_zero false) then Some [48]
      else Some ((if sign then [45] else []) ++ [73; 110; 102])
    else
      match f_trunc_Z fexp with
      | None => None
      | Some iexp0 =>
        if negb ((- 2 ^ 63 <=? iexp0) && (iexp0 <? 2 ^ 63)) then None else
        let small := (-3 <? iexp0) && (iexp0 <? 8) in
        let iexp := if small then 0 else iexp0 in
        let value := if small then value else f_mul value (lm_pow L f_tenth (f_of_Z iexp0)) in
        let '(frac, fint) := f_modf value in
        let mult := 10 ^ Z.of_nat precisz in
        let fm := f_floor (f_add (f_mul frac (f_of_Z mult)) f_half) in
        match f_to_u64 fint, f_to_u64 fm with
        | Some intp0, Some m0 =>
          let carry := mult <=? m0 in
          let intp1 := if carry then u64 (intp0 + 1) else intp0 in
          let m := if carry then m0 - mult else m0 in
          let wrap := carry && (10 <=? intp1) && negb (iexp =? 0) in
          let intp := if wrap then 1 else intp1 in
          let iexp' := if wrap then iexp + 1 else iexp in
          let '(m', digits) := strip_zeros 20 m precisz in
          Some ((if sign then [45] else []) ++ write_unsigned intp ++
                (if m =? 0 then [] else 46 :: write_digits m' digits) ++
                (if iexp' =? 0 then [] else
                 101 :: (if 0 <? iexp' then [43] else []) ++ write_signed iexp'))
        | _, _ => None
        end
      end.

(** Parts of the serializer supplied from elsewhere: text of finite doubles
    ([write_double]) and the pieces a binary encoder passes to its writer
    (serializer.h 171). *)
Record serenv := mkSer {
  se_double : bool -> spec_float -> bytes;
  se_binary : enc -> bytes -> list bytes
}.

(** serializer.h 143-162, [serializeNumber].  Infinities and NaN are written by
    [writeDouble] 272-275. *)
Definition ser_num (E : serenv) (utf8 : bool) (n : num) : bytes :=
  match n with
  | NPrec t _ => t
  | NUInt n => write_unsigned n
  | NInt n => write_signed n
  | NDbl f =>
    if f_isfinite f then se_double E utf8 f
    else write_string utf8 (if f_lt f (S754_zero false) then neg_inf_word else inf_word)
  end.

(** Comma separated pieces (the [comma] flag of serializer.h 118-123). *)
Fixpoint with_commas (l : list bytes) : bytes :=
  match l with
  | [] => []
  | [x] => x
  | x :: l' => x ++ 44 :: with_commas l'
  end.

Definition str_undefined : bytes := [117;110;100;101;102;105;110;101;100].
Definition str_true : bytes := [116;114;117;101].
Definition str_false : bytes := [102;97;108;115;101].
Definition str_null : bytes := [110;117;108;108].

(** serializer.h 90-188, [serialize], [serializeKeyValue], [serializeObject],
    [serializeArray], [serializeString], [serializeBoolean], [serializeNull]. *)
Fixpoint ser (E : serenv) (utf8 : bool) (v : value) : bytes :=
  match v with
  | VUndef => write_string utf8 str_undefined
  | VNull => str_null
  | VBool b => if b then str_true else str_false
  | VNum n => ser_num E utf8 n
  | VStr None s => write_string utf8 s
  | VStr (Some e) s =>
    34 :: flat_map (write_string_body utf8) (se_binary E e s) ++ [34]
  | VArr l => 91 :: with_commas (map (fun m => ser E utf8 (snd m)) l) ++ [93]
  | VObj _ l =>
    123 :: with_commas (map (fun m => write_string utf8 (fst m) ++ 58 :: ser E utf8 (snd m)) l)
        ++ [125]
  end.

(** * Parser *)

(** parser.h 60-88, 138: the character reader.  [src] are the [int]s the source
    function will still return (-1 for ever after them), [cur] is the loaded
    character if [loaded]. *)
Record reader := mkR { src : list Z; cur : option Z }.

Definition pull (s : list Z) : Z * list Z :=
  match s with [] => (-1, []) | c :: s' => (c, s') end.

(** parser.h 91-101 *)
Definition next (r : reader) : Z * reader :=
  match cur r with
  | Some c => (c, r)
  | None => let '(c, s) := pull (src r) in (c, mkR s (Some c))
  end.

(** parser.h 109-112 *)
Definition commit (r : reader) : reader := mkR (src r) None.

(** parser.h 114-121 *)
Definition next_commit (r : reader) : Z * reader :=
  match cur r with
  | Some c => (c, mkR (src r) None)
  | None => let '(c, s) := pull (src r) in (c, mkR s None)
  end.

(** parser.h 123-126 *)
Definition put_back (c : Z) (r : reader) : reader := mkR (src r) (Some c).

(** parser.h 134-136 *)
Definition read_fast (r : reader) : Z * reader :=
  let '(c, s) := pull (src r) in (c, mkR s (cur r)).

(** The conversion int -> char -> int (e.g. parser.h 104). *)
Definition char_of (c : Z) : Z := schar (to_byte c).

(** C library, "C" locale. Called at parser.h 105, 276, 434, 468, 599-761. *)
Definition isspace (c : Z) : bool := (c =? 32) || ((9 <=? c) && (c <=? 13)).
Definition isdigit (c : Z) : bool := (48 <=? c) && (c <=? 57).
Definition is_e (c : Z) : bool := (c =? 69) || (c =? 101).

(** parser.h 103-107, [nextWs]: the loop, on the loaded character [c] and the
    rest of the source. *)
Fixpoint skip_ws (c : Z) (s : list Z) : Z * list Z :=
  if isspace (char_of c) then
    match s with
    | [] => (-1, [])
    | c' :: s' => skip_ws c' s'
    end
  else (c, s).

Definition next_ws (r : reader) : Z * reader :=
  let '(c, r1) := next r in
  let '(c', s') := skip_ws c (src r1) in
  (char_of c', mkR s' (Some c')).

(** parser.h 431-438: value of one character of a \u escape.  A character that
    is not a hex digit contributes nothing: the [ParseError] on line 437 is
    constructed but not thrown. *)
Definition hex_val (c : Z) : Z :=
  if isdigit c then c - 48
  else if (65 <=? c) && (c <=? 70) then c - 65 + 10
  else if (97 <=? c) && (c <=? 102) then c - 97 + 10
  else 0.

(** parser.h 426-440 after the four characters are read. *)
Definition unicode4 (a b c d : Z) : Z :=
  (((hex_val a * 16 + hex_val b) * 16 + hex_val c) * 16 + hex_val d).

(** parser.h 444-447, [storeUnicode((UInt)uchar)]: bytes appended to [tmpstr]. *)
Definition store_unicode (w : Z) : bytes := wide_to_utf8 [s32 w].

(** parser.h 545-556: simple escapes. *)
Definition simple_escape (c : Z) : option Z :=
  if (c =? 34) || (c =? 92) || (c =? 47) then Some c
  else if c =? 98 then Some 8
  else if c =? 102 then Some 12
  else if c =? 110 then Some 10
  else if c =? 114 then Some 13
  else if c =? 116 then Some 9
  else None.

(** parser.h 528-572, [readString] on the source: [st] is the UTF-8 decoder,
    [acc] the bytes pushed to [tmpstr] (in order).  If the source ends inside a
    \u escape, the missing characters read as -1 and the next read throws
    (537), so the outcome is an error. *)
Fixpoint read_string (st : ustate) (acc : bytes) (s : list Z) {struct s}
  : res (bytes * list Z) :=
  match s with
  | [] => Err
  | c :: s1 =>
    if c =? -1 then Err
    else if c =? 34 then Ok (acc, s1)
    else if c =? 92 then
      match s1 with
      | [] => Err
      | e :: s2 =>
        match simple_escape e with
        | Some x => read_string st (acc ++ [x]) s2
        | None =>
          if e =? 117 then
            match s2 with
            | h1 :: h2 :: h3 :: h4 :: s3 =>
              read_string st (acc ++ store_unicode (unicode4 h1 h2 h3 h4)) s3
            | _ => Err
            end
          else Err
        end
      end
    else
      let '(st1, ws) := utf8_step st c in
      read_string st1 (acc ++ flat_map store_unicode ws) s1
  end.

(** parser.h 528: [readString] from a reader whose lookahead is committed. *)
Definition read_string_r (r : reader) : res (bytes * reader) :=
  do (t, s) <- read_string u_init [] (src r); Ok (t, mkR s (cur r)).

(** parser.h 505-517, [parseString]. *)
Definition string_value (t : bytes) : value :=
  if beqb t inf_word then VNum (NDbl (S754_infinity false))
  else if beqb t neg_inf_word then VNum (NDbl (S754_infinity true))
  else VStr None t.

(** parser.h 575-584, [checkString]: the characters after the first. *)
Fixpoint check_rest (str : bytes) (s : list Z) : res (list Z) :=
  match str with
  | [] => Ok s
  | k :: str' =>
    let '(c, s1) := pull s in
    if c =? k then check_rest str' s1 else Err
  end.

Definition check_string (str : bytes) (r : reader) : res reader :=
  match str with
  | [] => Err
  | k :: str' =>
    let '(c, r1) := next r in
    if c =? k then
      do s <- check_rest str' (src r1); Ok (mkR s None)
    else Err
  end.

(** parser.h 412-423, [readSign]. *)
Definition read_sign (r : reader) : bool * reader :=
  let '(c, r1) := next r in
  if c =? 45 then (true, commit r1)
  else if c =? 43 then (false, commit r1)
  else (false, r1).

(** parser.h 591 *)
Definition overflow_detection : Z := (2 ^ 64 - 1) / 10.

(** parser.h 589-621, [parseUnsigned]: result (complete, res, counter, loaded
    character, rest of the source).  The [int counter] is not wrapped. *)
Fixpoint pu_loop (acc cnt c : Z) (s : list Z) : bool * Z * Z * Z * list Z :=
  if isdigit c then
    if overflow_detection <? acc then (false, acc, cnt, c, s)
    else
      let nv := u64 (acc * 10 + (c - 48)) in
      if nv <? acc then (false, acc, cnt, c, s)
      else match s with
           | [] => (true, nv, cnt + 1, -1, [])
           | c' :: s' => pu_loop nv (cnt + 1) c' s'
           end
  else (true, acc, cnt, c, s).

Definition parse_unsigned (r : reader) : bool * Z * Z * reader :=
  let '(c, r1) := next r in
  let '(ok, v, cnt, c', s') := pu_loop 0 0 c (src r1) in
  (ok, v, cnt, mkR s' (Some c')).

(** parser.h 624-647, [parseLargeUnsigned]; the fuel bounds the iterations. *)
Fixpoint parse_large (L : libm) (fuel : nat) (d : spec_float) (r : reader)
  : res (spec_float * reader) :=
  match fuel with
  | O => Fuel
  | S f =>
    let '(c, r1) := next r in
    if isdigit c then
      let '(_, part, cnt, r2) := parse_unsigned r1 in
      let d' := f_floor (f_add (f_mul d (lm_pow L f_ten (f_of_Z cnt))) (f_of_Z part)) in
      if f_isinf d' then Err else parse_large L f d' r2
    else Ok (d, r1)
  end.

(** parser.h 651-684, [parseDecimalPart]: the digit loop on the loaded
    character and the source; returns the accumulated double, the digit count,
    the loaded character and the rest. *)
Fixpoint decimal_loop (d : spec_float) (pos c : Z) (s : list Z)
  : spec_float * Z * Z * list Z :=
  if isdigit c then
    let d' := f_floor (f_add (f_mul d f_ten) (f_of_Z (c - 48))) in
    match s with
    | [] => (d', u32 (pos + 1), -1, [])
    | c' :: s' => decimal_loop d' (u32 (pos + 1)) c' s'
    end
  else (d, pos, c, s).

Definition parse_decimal (L : libm) (r : reader) : spec_float * reader :=
  let '(c, r1) := next r in
  let '(d, pos, c', s') := decimal_loop (S754_zero false) 0 c (src r1) in
  (f_div d (lm_pow L f_ten (f_of_Z pos)), mkR s' (Some c')).

(** Enough iterations for [parse_large] on this reader. Model only. *)
Definition large_fuel (r : reader) : nat := S (S (length (src r))).

(** parser.h 687-749, [parseDouble]. *)
Definition parse_double (L : libm) (intpart : Z) (neg : bool) (r : reader)
  : res (value * reader) :=
  do (d0, r0) <- parse_large L (large_fuel r) (f_of_Z intpart) r;
  let '(c, r1) := next r0 in
  do (d1, r2) <-
    (if c =? 46 then
       let '(c1, r1') := next (commit r1) in
       if isdigit c1 then
         let '(fr, r1'') := parse_decimal L r1' in Ok (f_add d0 fr, r1'')
       else Err
     else Ok (d0, r1));
  let '(c2, r3) := next r2 in
  do (d2, r4) <-
    (if is_e c2 then
       let '(negexp, r5) := read_sign (commit r3) in
       let '(c3, r6) := next r5 in
       if isdigit c3 then
         let '(ok, expn, _, r7) := parse_unsigned r6 in
         if ok then
           Ok (f_mul d1 (lm_pow L (if negexp then f_tenth else f_ten) (f_of_Z expn)), r7)
         else Err
       else Err
     else Ok (d1, r3));
  Ok (value_of_double (if neg then f_opp d2 else d2), r4).

(** stringValue.cpp 282-311, [numberFromStringRaw], the accumulation loop;
    [None] is "create a precise double". *)
Fixpoint nfs_loop (acc : Z) (s : bytes) : option Z :=
  match s with
  | [] => Some acc
  | c :: s' =>
    if isdigit c then
      let nv := u64 (acc * 10 + (c - 48)) in
      if nv <? acc then None else nfs_loop nv s'
    else None
  end.

(** stringValue.cpp 282-311.  [str] is non-empty (parsePreciseNumber pushed at
    least one digit). *)
Definition number_from_string_raw (str : bytes) (force_double : bool) : num :=
  if force_double then NPrec str PkDbl
  else
    let '(neg, digits) :=
      match str with
      | c :: t => if (c =? 45) || (c =? 43) then (c =? 45, t) else (false, str)
      | [] => (false, [])
      end in
    match nfs_loop 0 digits with
    | None => NPrec str PkDbl
    | Some a =>
      if neg then
        if u64 (Z.shiftl a 1) <? a then NPrec str PkDbl
        else NPrec str (PkInt (- s64 a))
      else NPrec str (PkUInt a)
    end.

(** parser.h 766-769, 774-777, 792-795: a run of digits starting at the read
    character [c]; returns the digits, the first other character and the rest. *)
Fixpoint digit_run (c : Z) (s : list Z) : bytes * Z * list Z :=
  if isdigit c then
    match s with
    | [] => ([to_byte c], -1, [])
    | c' :: s' => let '(ds, c1, s1) := digit_run c' s' in (to_byte c :: ds, c1, s1)
    end
  else ([], c, s).

(** parser.h 753-807, [parsePreciseNumber]: text, hint_is_float, reader. *)
Definition parse_precise (r : reader) : res (bytes * bool * reader) :=
  let '(c0, r0) := next_commit r in
  let '(sgn, c1, s1) :=
    if (c0 =? 43) || (c0 =? 45) then
      let '(c, s) := pull (src r0) in ([to_byte c0], c, s)
    else ([], c0, src r0) in
  if isdigit c1 then
    let '(ip, c2, s2) := digit_run c1 s1 in
    let '(fp, isf1, c3, s3) :=
      if c2 =? 46 then
        let '(c, s) := pull s2 in
        let '(ds, c', s') := digit_run c s in (46 :: ds, true, c', s')
      else ([], false, c2, s2) in
    if is_e c3 then
      let '(c4, s4) := pull s3 in
      let '(es, c5, s5) :=
        if (c4 =? 43) || (c4 =? 45) then
          let '(c, s) := pull s4 in ([to_byte c4], c, s)
        else ([], c4, s4) in
      if isdigit c5 then
        let '(ed, c6, s6) := digit_run c5 s5 in
        Ok (sgn ++ ip ++ fp ++ to_byte c3 :: es ++ ed, true, mkR s6 (Some c6))
      else Err
    else Ok (sgn ++ ip ++ fp, isf1, mkR s3 (Some c3))
  else Err.

(** parser.h 37-41: parser flags. *)
Record pflags := mkPF { allow_dup : bool; precise : bool }.

(** parser.h 450-502, [parseNumber]. *)
Definition parse_number (L : libm) (F : pflags) (r : reader) : res (value * reader) :=
  if precise F then
    do (t, isf, r1) <- parse_precise r;
    Ok (VNum (number_from_string_raw t isf), r1)
  else
    let '(isneg, r1) := read_sign r in
    let '(c, r2) := next r1 in
    if negb (isdigit c) && negb (c =? 46) then Err
    else
      let '(complete, intpart, _, r3) := parse_unsigned r2 in
      let '(c3, r4) := next r3 in
      if negb complete || (c3 =? 46) || is_e c3 then parse_double L intpart isneg r4
      else if isneg then
        if Z.testbit intpart 63 then Ok (value_of_double (f_opp (f_of_Z intpart)), r4)
        else Ok (value_of_int (- intpart), r4)
      else Ok (VNum (NUInt intpart), r4).

(** parser.h 333-340: end of [parseObject]; [items] are the pushed members in
    order. *)
Definition finish_object (F : pflags) (items : list (bytes * value)) : res value :=
  let o := build_object is_undef items in
  if negb (allow_dup F) && negb (Nat.eqb (length o) (length items)) then Err
  else Ok (VObj false o).

(** parser.h 265-388, [parse], [parseObject], [parseArray].  [fuel] bounds the
    recursion; [parse_obj] and [parse_arr] are the do-while loops with the
    members parsed so far in reverse.  The source characters of a key are
    bytes, kept as pushed to [tmpstr]. *)
Fixpoint parse (L : libm) (F : pflags) (fuel : nat) (r : reader) {struct fuel}
  : res (value * reader) :=
  match fuel with
  | O => Fuel
  | S f =>
    let '(c, r1) := next_ws r in
    if c =? 123 then
      let '(c1, r2) := next_ws (commit r1) in
      if c1 =? 125 then Ok (VObj false [], commit r2)
      else parse_obj L F f c1 r2 []
    else if c =? 91 then
      let '(c1, r2) := next_ws (commit r1) in
      if c1 =? 93 then Ok (VArr [], commit r2)
      else parse_arr L F f r2 []
    else if c =? 34 then
      do (t, r2) <- read_string_r (commit r1); Ok (string_value t, r2)
    else if c =? 116 then do r2 <- check_string str_true r1; Ok (VBool true, r2)
    else if c =? 102 then do r2 <- check_string str_false r1; Ok (VBool false, r2)
    else if c =? 110 then do r2 <- check_string str_null r1; Ok (VNull, r2)
    else if isdigit c || (c =? 43) || (c =? 45) || (c =? 46) then parse_number L F r1
    else Err
  end
with parse_obj (L : libm) (F : pflags) (fuel : nat) (c : Z) (r : reader)
  (acc : list (bytes * value)) {struct fuel} : res (value * reader) :=
  match fuel with
  | O => Fuel
  | S f =>
    if c =? 34 then
      do (name, r1) <- read_string_r (commit r);
      let '(c1, r2) := next_ws r1 in
      if c1 =? 58 then
        do (v, r3) <- parse L F f (commit r2);
        let acc' := (name, v) :: acc in
        let '(c2, r4) := next_ws r3 in
        let r5 := commit r4 in
        if c2 =? 125 then
          do o <- finish_object F (rev acc'); Ok (o, r5)
        else if c2 =? 44 then
          let '(c3, r6) := next_ws r5 in parse_obj L F f c3 r6 acc'
        else Err
      else Err
    else Err
  end
with parse_arr (L : libm) (F : pflags) (fuel : nat) (r : reader)
  (acc : list value) {struct fuel} : res (value * reader) :=
  match fuel with
  | O => Fuel
  | S f =>
    do (v, r1) <- parse L F f r;
    let acc' := v :: acc in
    let '(c, r2) := next_ws r1 in
    let r3 := commit r2 in
    if c =? 93 then Ok (VArr (map (fun v => ([], v)) (rev acc')), r3)
    else if c =? 44 then parse_arr L F f r3 acc'
    else Err
  end.

(** parser.h 258-262 with a source that delivers [s] and then -1 for ever; the
    reader after the value is returned as well.  The fuel is enough
    (theorem in PropText). *)
Definition parse_source (L : libm) (F : pflags) (s : list Z) : res (value * reader) :=
  parse L F (S (2 * length s)) (mkR s None).

(** value.cpp 85-94, [Value::fromString]: bytes delivered as [char]s.  Text
    after the first value is not looked at. *)
Definition from_string (L : libm) (F : pflags) (s : bytes) : res value :=
  do (v, _) <- parse_source L F (map schar s); Ok v.
