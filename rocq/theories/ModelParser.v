(** The [Parser] object with its buffers and the errors it throws:
    /repo/src/imtjson/parser.h (all).  [ModelText] and [ModelParseErr] have the same code
    without the buffers [tmpstr], [tmpArr] and without the content of the errors; this
    model is proved to agree with them (PropParser). *)
From Coq Require Import String.
From Verif Require Import Base ModelKeyed ModelValue ModelUtf8 ModelText ModelParseErr ModelRpc.
Local Open Scope string_scope.
Local Open Scope list_scope.
Local Open Scope Z_scope.

(** The messages of [ParseError], in the order of the file. parser.h 275-789. *)
Inductive message :=
| MEnd | MData                              (* 275, 279 *)
| MKey | MColon | MObjNext | MDup           (* 297, 309, 330, 337 *)
| MArrNext                                  (* 373 *)
| MNumber                                   (* 468 *)
| MEof | MEscape                            (* 538, 555 *)
| MKeyword                                  (* 580, 583 *)
| MTooLong                                  (* 643 *)
| MFraction | MExponent | MExpLarge         (* 710, 728, 732 *)
| MPrecise.                                 (* 763, 789 *)
Definition message_text (m : message) : bytes :=
  txt match m with
      | MEnd => "Unexpected end of stream"
      | MData => "Unexpected data"
      | MKey => "Expected a key (string)"
      | MColon => "Expected ':'"
      | MObjNext => "Expected ',' or '}'"
      | MDup => "Duplicated keys"
      | MArrNext => "Expected ',' or ']'"
      | MNumber => "Expected '0'...'9', '.', '+' or '-'"
      | MEof => "Unexpected end of file"
      | MEscape => "Unexpected escape sequence in the string"
      | MKeyword => "Unknown keyword"
      | MTooLong => "Too long number"
      | MFraction => "Expected '0'...'9' after '.'"
      | MExponent => "Expected '0'...'9' after 'E'"
      | MExpLarge => "Exponent is too large"
      | MPrecise => "Expected a number"
      end.

(** 209-253: message, [lastInput], [callstack] (last added last). *)
Record perror := mkE { e_msg : message; e_last : Z; e_stack : list context }.
(** 241-244 *)
Definition add_context (c : context) (e : perror) : perror := mkE (e_msg e) (e_last e) (e_stack e ++ [c]).
(** 213-238, [what].  -100 stands for "not given" there (224); every error of the parser
    gives a character, but the character may be -100, the [char] 0x9C. *)
Definition what (e : perror) : bytes :=
  txt "Parse error: '" ++ message_text (e_msg e) ++ txt "' at " ++ what_place (e_stack e) ++
  if e_last e =? -100 then txt ". Last input not given."
  else txt ". Last input: " ++ write_signed (e_last e) ++ txt "(" ++
       (if e_last e =? -1 then txt "EOF" else txt "'" ++ [to_byte (e_last e)] ++ txt "'") ++ txt ").".

(** 70-138, 190-197: the reader, [tmpstr], [tmpArr]. *)
Record pstate := mkS { s_rd : reader; s_str : bytes; s_arr : list (bytes * value) }.
Definition with_rd (s : pstate) (r : reader) : pstate := mkS r (s_str s) (s_arr s).

(** How a function ends: returns, throws a [ParseError], or aborts by the assertion of 522. *)
Inductive pout (A : Type) :=
| Done (a : A) (s : pstate)
| Throws (e : perror) (s : pstate)
| Aborts
| NoFuel.
Arguments Done {A}. Arguments Throws {A}. Arguments Aborts {A}. Arguments NoFuel {A}.

(** 60-64: [StrIdx], [getString]; [substr] clamps. *)
Definition stridx : Type := (nat * nat)%type.
Definition get_str (i : stridx) (s : pstate) : bytes := firstn (snd i) (skipn (fst i) (s_str s)).
(** 519-525, [freeString] *)
Definition free_str (i : stridx) (s : pstate) : option pstate :=
  if (fst i + snd i =? List.length (s_str s))%nat then Some (mkS (s_rd s) (firstn (fst i) (s_str s)) (s_arr s)) else None.

(** 527-565: the loop of [readString], pushing to [tmpstr].  An error carries the buffer
    and the source where it is thrown.  When the source ends inside a \u escape the
    missing characters read as -1 and the next read throws (537-538). *)
Fixpoint rs_loop (st : ustate) (str : bytes) (s : list Z) {struct s}
  : (bytes * list Z) + (message * Z * bytes * list Z) :=
  match s with
  | [] => inr (MEof, -1, str, [])
  | c :: s1 =>
    if c =? -1 then inr (MEof, -1, str, s1)
    else if c =? 34 then inl (str, s1)
    else if c =? 92 then
      match s1 with
      | [] => inr (MEscape, -1, str, [])
      | e :: s2 =>
        match simple_escape e with
        | Some x => rs_loop st (str ++ [x]) s2
        | None =>
          if e =? 117 then
            match s2 with
            | h1 :: h2 :: h3 :: h4 :: s3 => rs_loop st (str ++ store_unicode (unicode4 h1 h2 h3 h4)) s3
            | _ => inr (MEof, -1, str, [])
            end
          else inr (MEscape, e, str, s2)
        end
      end
    else
      let '(st1, ws) := utf8_step st c in
      rs_loop st1 (str ++ flat_map store_unicode ws) s1
  end.
(** 527-573, [readString]. *)
Definition p_read_string (s : pstate) : pout stridx :=
  let start := List.length (s_str s) in
  match rs_loop u_init (s_str s) (src (s_rd s)) with
  | inl (str, rest) => Done (start, (List.length str - start)%nat) (mkS (mkR rest (cur (s_rd s))) str (s_arr s))
  | inr (m, c, str, rest) => Throws (mkE m c []) (mkS (mkR rest (cur (s_rd s))) (firstn start str) (s_arr s))
  end.

(** 575-585, [checkString]. *)
Fixpoint cs_rest (str : bytes) (s : list Z) : list Z + (Z * list Z) :=
  match str with
  | [] => inl s
  | k :: str' => let '(c, s1) := pull s in if c =? k then cs_rest str' s1 else inr (c, s1)
  end.
Definition p_keyword (str : bytes) (v : value) (s : pstate) : pout value :=
  let '(c, r1) := next (s_rd s) in
  let r1 := commit r1 in
  if c =? hd 0 str then
    match cs_rest (tl str) (src r1) with
    | inl rest => Done v (with_rd s (mkR rest None))
    | inr (c', rest) => Throws (mkE MKeyword c' []) (with_rd s (mkR rest None))
    end
  else Throws (mkE MKeyword c []) (with_rd s r1).

(** Numbers: value and reader, or message, character and reader. Model only. *)
Inductive nout (A : Type) := NOk (a : A) (r : reader) | NErr (m : message) (c : Z) (r : reader) | NOut.
Arguments NOk {A}. Arguments NErr {A}. Arguments NOut {A}.
Definition nbind {A B} (x : nout A) (k : A -> reader -> nout B) : nout B :=
  match x with NOk a r => k a r | NErr m c r => NErr m c r | NOut => NOut end.

(** 624-647, [parseLargeUnsigned]. *)
Fixpoint n_large (L : libm) (fuel : nat) (d : spec_float) (r : reader) : nout spec_float :=
  match fuel with
  | O => NOut
  | S f =>
    let '(c, r1) := next r in
    if isdigit c then
      let '(_, part, cnt, r2) := parse_unsigned r1 in
      let d' := f_floor (f_add (f_mul d (lm_pow L f_ten (f_of_Z cnt))) (f_of_Z part)) in
      if f_isinf d' then NErr MTooLong c r2 else n_large L f d' r2
    else NOk d r1
  end.
(** 687-749, [parseDouble]. *)
Definition n_fraction (L : libm) (d0 : spec_float) (r0 : reader) : nout spec_float :=
  let '(c, r1) := next r0 in
  if c =? 46 then
    let '(c1, r2) := next (commit r1) in
    if isdigit c1 then let '(fr, r3) := parse_decimal L r2 in NOk (f_add d0 fr) r3
    else NErr MFraction c1 r2
  else NOk d0 r1.
Definition n_exponent (L : libm) (d1 : spec_float) (r2 : reader) : nout spec_float :=
  let '(c2, r3) := next r2 in
  if is_e c2 then
    let '(negexp, r5) := read_sign (commit r3) in
    let '(c3, r6) := next r5 in
    if isdigit c3 then
      let '(ok, expn, _, r7) := parse_unsigned r6 in
      if ok then NOk (f_mul d1 (lm_pow L (if negexp then f_tenth else f_ten) (f_of_Z expn))) r7
      else NErr MExpLarge c3 r7
    else NErr MExponent c3 r6
  else NOk d1 r3.
Definition n_double (L : libm) (intpart : Z) (neg : bool) (r : reader) : nout value :=
  nbind (n_large L (large_fuel r) (f_of_Z intpart) r) (fun d0 r0 =>
  nbind (n_fraction L d0 r0) (fun d1 r2 =>
  nbind (n_exponent L d1 r2) (fun d2 r4 =>
  NOk (value_of_double (if neg then f_opp d2 else d2)) r4))).
(** 459-500, [parseNumber] without precise numbers. *)
Definition n_plain (L : libm) (r : reader) : nout value :=
  let '(isneg, r1) := read_sign r in
  let '(c, r2) := next r1 in
  if negb (isdigit c) && negb (c =? 46) then NErr MNumber c r2
  else
    let '(complete, intpart, _, r3) := parse_unsigned r2 in
    let '(c3, r4) := next r3 in
    if negb complete || (c3 =? 46) || is_e c3 then n_double L intpart isneg r4
    else if isneg then
      if Z.testbit intpart 63 then NOk (value_of_double (f_opp (f_of_Z intpart))) r4
      else NOk (value_of_int (- intpart)) r4
    else NOk (VNum (NUInt intpart)) r4.

(** 753-808, [parsePreciseNumber]: the text is pushed to [tmpstr]; the character that does
    not belong to it is put back (762, 788, 799).  An error cuts [tmpstr] back (802-805). *)
Definition p_precise (s : pstate) : pout (stridx * bool) :=
  let start := List.length (s_str s) in
  let fail c rest := Throws (mkE MPrecise c []) (mkS (mkR rest (Some c)) (s_str s) (s_arr s)) in
  let '(c0, r0) := next_commit (s_rd s) in
  let '(str0, c1, s1) :=
    if (c0 =? 43) || (c0 =? 45) then let '(c, s') := pull (src r0) in (s_str s ++ [to_byte c0], c, s')
    else (s_str s, c0, src r0) in
  if isdigit c1 then
    let '(ip, c2, s2) := digit_run c1 s1 in
    let str1 := str0 ++ ip in
    let '(str2, isf, c3, s3) :=
      if c2 =? 46 then
        let '(c, s') := pull s2 in
        let '(ds, c', s'') := digit_run c s' in (str1 ++ to_byte c2 :: ds, true, c', s'')
      else (str1, false, c2, s2) in
    if is_e c3 then
      let '(c4, s4) := pull s3 in
      let '(str3, c5, s5) :=
        if (c4 =? 43) || (c4 =? 45) then let '(c, s') := pull s4 in (str2 ++ [to_byte c3; to_byte c4], c, s')
        else (str2 ++ [to_byte c3], c4, s4) in
      if isdigit c5 then
        let '(ed, c6, s6) := digit_run c5 s5 in
        let str4 := str3 ++ ed in
        Done ((start, (List.length str4 - start)%nat), true) (mkS (mkR s6 (Some c6)) str4 (s_arr s))
      else fail c5 s5
    else Done ((start, (List.length str2 - start)%nat), isf) (mkS (mkR s3 (Some c3)) str2 (s_arr s))
  else fail c1 s1.

(** 450-502, [parseNumber]. *)
Definition p_number (L : libm) (F : pflags) (s : pstate) : pout value :=
  if precise F then
    match p_precise s with
    | Done (numb, isf) s1 =>
      let v := VNum (number_from_string_raw (get_str numb s1) isf) in
      match free_str numb s1 with Some s2 => Done v s2 | None => Aborts end
    | Throws e s1 => Throws e s1
    | Aborts => Aborts
    | NoFuel => NoFuel
    end
  else
    match n_plain L (s_rd s) with
    | NOk v r => Done v (with_rd s r)
    | NErr m c r => Throws (mkE m c []) (with_rd s r)
    | NOut => NoFuel
    end.

(** 504-517, [parseString]. *)
Definition p_string (s : pstate) : pout value :=
  match p_read_string s with
  | Done i s1 =>
    let v := string_value (get_str i s1) in
    match free_str i s1 with Some s2 => Done v s2 | None => Aborts end
  | Throws e s1 => Throws e s1
  | Aborts => Aborts
  | NoFuel => NoFuel
  end.

(** 264-388.  [p_members] and [p_items] are the loops of [parseObject] and [parseArray];
    [pos] is [tmpArrPos]. *)
Fixpoint p_parse (L : libm) (F : pflags) (fuel : nat) (s : pstate) {struct fuel} : pout value :=
  match fuel with
  | O => NoFuel
  | S f =>
    let '(c, r1) := next_ws (s_rd s) in
    let s1 := with_rd s r1 in
    if c =? 123 then
      let '(c1, r2) := next_ws (commit r1) in
      if c1 =? 125 then Done (VObj false []) (with_rd s (commit r2))
      else p_members L F f (List.length (s_arr s)) (O, O) c1 (with_rd s r2)
    else if c =? 91 then
      let '(c1, r2) := next_ws (commit r1) in
      if c1 =? 93 then Done (VArr []) (with_rd s (commit r2))
      else p_items L F f (List.length (s_arr s)) (with_rd s r2)
    else if c =? 34 then p_string (with_rd s (commit r1))
    else if c =? 116 then p_keyword str_true (VBool true) s1
    else if c =? 102 then p_keyword str_false (VBool false) s1
    else if c =? 110 then p_keyword str_null VNull s1
    else if c =? -1 then Throws (mkE MEnd c []) s1
    else if isdigit c || (c =? 43) || (c =? 45) || (c =? 46) then p_number L F s1
    else Throws (mkE MData c []) s1
  end
with p_members (L : libm) (F : pflags) (fuel : nat) (pos : nat) (prev : stridx) (c : Z) (s : pstate) {struct fuel} : pout value :=
  match fuel with
  | O => NoFuel
  | S f =>
    if c =? 34 then
      match p_read_string (with_rd s (commit (s_rd s))) with
      | Aborts => Aborts
      | NoFuel => NoFuel
      (* 302-305 *)
      | Throws e s1 => Throws (add_context (CKey (get_str prev s1)) e) s1
      | Done name s1 =>
        (* 306-314 *)
        let body :=
          let '(c1, r2) := next_ws (s_rd s1) in
          if c1 =? 58 then
            match p_parse L F f (with_rd s1 (commit r2)) with
            | Done v s2 =>
              match free_str name (mkS (s_rd s2) (s_str s2) (s_arr s2 ++ [(get_str name s2, v)])) with
              | Some s3 => Done tt s3
              | None => Aborts
              end
            | Throws e s2 => Throws e s2
            | Aborts => Aborts
            | NoFuel => NoFuel
            end
          else Throws (mkE MColon c1 []) (with_rd s1 r2) in
        match body with
        | Aborts => Aborts
        | NoFuel => NoFuel
        (* 315-319 *)
        | Throws e s2 =>
          match free_str name s2 with
          | Some s3 => Throws (add_context (CKey (get_str name s2)) e) s3
          | None => Aborts
          end
        | Done _ s2 =>
          let '(c2, r4) := next_ws (s_rd s2) in
          let r5 := commit r4 in
          if c2 =? 125 then
            (* 333-340 *)
            let mydata := skipn pos (s_arr s2) in
            let o := build_object is_undef mydata in
            if negb (allow_dup F) && negb (Nat.eqb (List.length o) (List.length mydata))
            then Throws (mkE MDup c2 []) (with_rd s2 r5)
            else Done (VObj false o) (mkS r5 (s_str s2) (firstn pos (s_arr s2)))
          else if c2 =? 44 then
            let '(c3, r6) := next_ws r5 in p_members L F f pos name c3 (with_rd s2 r6)
          else Throws (mkE MObjNext c2 []) (with_rd s2 r5)
        end
      end
    else Throws (mkE MKey c []) s
  end
with p_items (L : libm) (F : pflags) (fuel : nat) (pos : nat) (s : pstate) {struct fuel} : pout value :=
  match fuel with
  | O => NoFuel
  | S f =>
    match p_parse L F f s with
    | Aborts => Aborts
    | NoFuel => NoFuel
    (* 357-362 *)
    | Throws e s1 => Throws (add_context (CIdx (List.length (s_arr s1) - pos)) e) s1
    | Done v s1 =>
      let arr := s_arr s1 ++ [([], v)] in
      let '(c, r2) := next_ws (s_rd s1) in
      let r3 := commit r2 in
      if c =? 93 then Done (VArr (skipn pos arr)) (mkS r3 (s_str s1) (firstn pos arr))
      else if c =? 44 then p_items L F f pos (mkS r3 (s_str s1) arr)
      (* 373-381 *)
      else Throws (add_context (CIdx (List.length arr - pos)) (mkE MArrNext c [])) (mkS r3 (s_str s1) arr)
    end
  end.

(** A call of [parse] of a [Parser] in any state, with enough fuel (theorem). parser.h 43. *)
Definition p_call (L : libm) (F : pflags) (s : pstate) : pout value :=
  p_parse L F (S (2 * S (List.length (src (s_rd s))))) s.
(** 43: a new [Parser]. *)
Definition p_new (s : list Z) : pstate := mkS (mkR s None) [] [].
(** 257-262, [Value::parse]: a new [Parser], one call. *)
Definition p_source (L : libm) (F : pflags) (s : list Z) : pout value := p_parse L F (S (2 * List.length s)) (p_new s).
