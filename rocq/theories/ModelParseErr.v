(** Where a parse error is reported: /repo/src/imtjson/parser.h 209-253 ([ParseError]) and
    264-388 ([parse], [parseObject], [parseArray]) again, now with the contexts added to
    the exception.  The kind of the error and the last character are in ModelParser. *)
From Verif Require Import Base ModelKeyed ModelValue ModelUtf8 ModelText.
Local Open Scope list_scope.
Local Open Scope Z_scope.

(** What [addContext] (241-244) is given: a key (303, 316), or a number in brackets
    (358-360, 377-379). *)
Inductive context := CKey (k : bytes) | CIdx (n : nat).
(** An error: how many values are left in [tmpArr] above those which were there when the
    function was entered (nothing removes them, 339 and 385 are not reached), and
    [callstack], last added last. *)
Inductive eres (A : Type) := POk (a : A) | PErr (left : nat) (stack : list context) | PFuel.
Arguments POk {A}. Arguments PErr {A}. Arguments PFuel {A}.

(** Functions which add no context and leave [tmpArr] alone. *)
Definition leaf {A} (r : res A) : eres A :=
  match r with Ok a => POk a | Err => PErr 0 [] | Fuel => PFuel end.

(** 264-388; see [parse] of ModelText.  [tmpArr] holds the members or items parsed so far
    ([acc]).  299-305: a key which cannot be read; [name] is then (0,0) or the key before,
    which starts at the end of [tmpstr] by now (567-569 cut it), so the context is
    the empty string. *)
Fixpoint parse_e (L : libm) (F : pflags) (fuel : nat) (r : reader) {struct fuel}
  : eres (value * reader) :=
  match fuel with
  | O => PFuel
  | S f =>
    let '(c, r1) := next_ws r in
    if c =? 123 then
      let '(c1, r2) := next_ws (commit r1) in
      if c1 =? 125 then POk (VObj false [], commit r2)
      else parse_obj_e L F f c1 r2 []
    else if c =? 91 then
      let '(c1, r2) := next_ws (commit r1) in
      if c1 =? 93 then POk (VArr [], commit r2)
      else parse_arr_e L F f r2 []
    else if c =? 34 then
      leaf (do (t, r2) <- read_string_r (commit r1); Ok (string_value t, r2))
    else if c =? 116 then leaf (do r2 <- check_string str_true r1; Ok (VBool true, r2))
    else if c =? 102 then leaf (do r2 <- check_string str_false r1; Ok (VBool false, r2))
    else if c =? 110 then leaf (do r2 <- check_string str_null r1; Ok (VNull, r2))
    else if isdigit c || (c =? 43) || (c =? 45) || (c =? 46) then leaf (parse_number L F r1)
    else PErr 0 []
  end
with parse_obj_e (L : libm) (F : pflags) (fuel : nat) (c : Z) (r : reader)
  (acc : list (bytes * value)) {struct fuel} : eres (value * reader) :=
  match fuel with
  | O => PFuel
  | S f =>
    if c =? 34 then
      match read_string_r (commit r) with
      | Fuel => PFuel
      | Err => PErr (length acc) [CKey []]
      | Ok (name, r1) =>
        let '(c1, r2) := next_ws r1 in
        if c1 =? 58 then
          match parse_e L F f (commit r2) with
          | PFuel => PFuel
          | PErr n st => PErr (length acc + n) (st ++ [CKey name])
          | POk (v, r3) =>
            let acc' := (name, v) :: acc in
            let '(c2, r4) := next_ws r3 in
            let r5 := commit r4 in
            if c2 =? 125 then
              match finish_object F (rev acc') with
              | Fuel => PFuel
              | Err => PErr (length acc') []
              | Ok o => POk (o, r5)
              end
            else if c2 =? 44 then
              let '(c3, r6) := next_ws r5 in parse_obj_e L F f c3 r6 acc'
            else PErr (length acc') []
          end
        else PErr (length acc) [CKey name]
      end
    else PErr (length acc) []
  end
with parse_arr_e (L : libm) (F : pflags) (fuel : nat) (r : reader)
  (acc : list value) {struct fuel} : eres (value * reader) :=
  match fuel with
  | O => PFuel
  | S f =>
    match parse_e L F f r with
    | PFuel => PFuel
    | PErr n st => PErr (length acc + n) (st ++ [CIdx (length acc + n)])
    | POk (v, r1) =>
      let acc' := v :: acc in
      let '(c, r2) := next_ws r1 in
      let r3 := commit r2 in
      if c =? 93 then POk (VArr (map (fun v => ([], v)) (rev acc')), r3)
      else if c =? 44 then parse_arr_e L F f r3 acc'
      else PErr (length acc') [CIdx (length acc')]
    end
  end.

(** 257-262, as [parse_source] of ModelText. *)
Definition parse_source_e (L : libm) (F : pflags) (s : list Z) : eres (value * reader) :=
  parse_e L F (S (2 * length s)) (mkR s None).

(** 213-222, the place in the text of [what]: the contexts, last added first. *)
Definition context_text (c : context) : bytes :=
  match c with CKey k => k | CIdx n => [91] ++ write_unsigned (Z.of_nat n) ++ [93] end.
Definition what_place (stack : list context) : bytes :=
  [60;114;111;111;116;62] ++ concat (map (fun c => 47 :: context_text c) (rev stack)).
