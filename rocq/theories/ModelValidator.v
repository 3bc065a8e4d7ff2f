(** The validator: /repo/src/imtjson/validator.cpp, validator.h.  Line numbers
    without a file are validator.cpp. *)
From Coq Require Import String Ascii.
From Verif Require Import Base ModelKeyed ModelValue ModelText ModelObject ModelArray ModelEq ModelBin ModelUtf8
  ModelJwt ModelString ModelPath ModelRpc ModelNumView ModelDate.
Local Open Scope Z_scope.
Local Open Scope list_scope.

(** What the validator works with.  [v_def] is the definition.  [v_native] is
    [onNativeRule] (validator.h 92), supplied by the user, taken as a function of
    its arguments.  [v_explode] is [StringView::split] (absent submodule): text,
    separator and, if any, the limit.  [v_wild] is what a conversion of a double
    out of range gives: that is undefined behaviour in C++, taken as an unknown
    number.  [v_copy] tells whether two values are one object in memory
    ([isCopyOf]): the answer may differ from question to question, the first
    argument numbers them. *)
Record venv := mkVenv {
  v_L : libm; v_F : pflags; v_E : serenv; v_utf8 : bool;
  v_def : value;
  v_native : member -> bytes -> bool;
  v_explode : bytes -> bytes -> option Z -> list bytes;
  v_wild : value -> Z;
  v_copy : nat -> value -> value -> bool }.

(** validator.h 166-180.  [vs_vars] has the newest variable first.  [vs_rej] keeps
    the path of each rejection beside the rule.  [vs_tick] numbers the questions
    to [v_copy]; it is not part of the code. *)
Record vst := mkVst {
  vs_rej : list (path * value);
  vs_last : value;
  vs_emit : list member;
  vs_vars : list member;
  vs_tick : nat }.

(** How an evaluation ends: a verdict, an exception, undefined behaviour, or the
    bound on the depth is used up.  An exception keeps the state. Model only. *)
Inductive vout :=
| VDone (b : bool) (s : vst)
| VThrow (s : vst)
| VBad
| VFuel.
Definition vbind (o : vout) (k : bool -> vst -> vout) : vout :=
  match o with
  | VDone b s => k b s
  | VThrow s => VThrow s
  | VBad => VBad
  | VFuel => VFuel
  end.

(** [Value::getUInt] where the result matters to the verdict. value.h 267. *)
Definition uint_of (V : venv) (v : value) : Z :=
  match value_u64 (v_L V) (v_F V) v with Some z => z | None => v_wild V v end.

(** *** Simple tests *)
(** 103-119 *)
Definition size_of (v : value) : option Z :=
  match v with
  | VArr _ | VObj _ _ => Some (Z.of_nat (vsize v))
  | VStr _ s => Some (Z.of_nat (length s))
  | _ => None
  end.
Definition check_max_size (v : value) (sz : Z) : bool :=
  match size_of v with Some n => n <=? sz | None => true end.
Definition check_min_size (v : value) (sz : Z) : bool :=
  match size_of v with Some n => sz <=? n | None => true end.

(** ivalue.h: the flags [numberInteger] and [numberUnsignedInteger].  The shared
    zero has both (basicValues.cpp 27); here it is unsigned only, which gives the
    same order because zero is exact as a double. *)
Definition is_sint (n : num) : bool := match n with NInt _ | NPrec _ (PkInt _) => true | _ => false end.
Definition is_uint (n : num) : bool := match n with NUInt _ | NPrec _ (PkUInt _) => true | _ => false end.
Definition same_type (a b : value) : bool := type_rank a =? type_rank b.
(** 121-139.  The conversions are those of integers. *)
Definition is_less (V : venv) (a b : value) : bool :=
  match a, b with
  | VNum x, VNum y =>
    match num_s64 (v_L V) x, num_s64 (v_L V) y, num_u64 (v_L V) x, num_u64 (v_L V) y with
    | Some i, Some j, Some u, Some w =>
      if is_sint x && is_sint y then i <? j
      else if is_uint x && is_uint y then u <? w
      else f_lt (get_number (v_L V) x) (get_number (v_L V) y)
    | _, _, _, _ => f_lt (get_number (v_L V) x) (get_number (v_L V) y)
    end
  | VStr _ s, VStr _ t => match kcmp s t with Lt => true | _ => false end
  | VBool a, VBool b => negb a && b
  | _, _ => false
  end.

(** ctype.h in the locale C; a negative [char] belongs to no class. Called at 146-236. *)
Definition in_range (lo hi c : Z) : bool := (lo <=? c) && (c <=? hi).
Definition is_upper (c : Z) : bool := in_range 65 90 c.
Definition is_lower (c : Z) : bool := in_range 97 122 c.
Definition is_alpha (c : Z) : bool := is_upper c || is_lower c.
Definition is_alnum (c : Z) : bool := is_alpha c || is_digit c.
Definition is_xdigit (c : Z) : bool := is_digit c || in_range 65 70 c || in_range 97 102 c.
Definition nonempty_all (p : Z -> bool) (s : bytes) : bool :=
  match s with [] => false | _ => forallb p s end.
(** 142-149, 177-220 *)
Definition op_hex := nonempty_all is_xdigit.
Definition op_uppercase := nonempty_all is_upper.
Definition op_lowercase := nonempty_all is_lower.
Definition op_alpha := nonempty_all is_alpha.
Definition op_alnum := nonempty_all is_alnum.
Definition op_digits := nonempty_all is_digit.
(** 151-163 *)
Definition drop_pad (len : nat) (s : bytes) : nat :=
  if nth (len - 1) s 0 =? 61 then (len - 1)%nat else len.
Definition op_base64 (s : bytes) : bool :=
  match s with
  | [] => false
  | _ =>
    if negb (length s mod 4 =? 0)%nat then false
    else
      let len := drop_pad (drop_pad (length s) s) s in
      forallb (fun c => is_alnum c || (c =? 47) || (c =? 43)) (firstn len s)
  end.
(** 165-175 *)
Definition op_base64url (s : bytes) : bool :=
  match s with
  | [] => false
  | _ =>
    if (length s mod 4 =? 1)%nat then false
    else forallb (fun c => is_alnum c || (c =? 45) || (c =? 95)) s
  end.
(** 232-239 *)
Definition op_identifier (s : bytes) : bool :=
  match s with
  | [] => true
  | c :: s' => (is_alpha c || (c =? 95)) && forallb (fun c => is_alnum c || (c =? 95)) s'
  end.
(** 241-247 *)
Definition op_integer (v : value) : bool :=
  match v with VNum n => is_sint n || is_uint n | _ => false end.
Definition op_unsigned (V : venv) (v : value) : bool :=
  match v with VNum n => SFleb (S754_zero false) (get_number (v_L V) n) | _ => false end.
(** 559-574 *)
Definition op_empty (v : value) : bool := match size_of v with Some n => n =? 0 | None => false end.
Definition op_nonempty (v : value) : bool := match size_of v with Some n => negb (n =? 0) | None => false end.

(** string.cpp 277-284, [String::wstr]. *)
Definition wstr (s : bytes) : list Z := snd (utf8_to_wide u_init s).

(** 531-544: the first loop of the test of one character.  [n] is [adjlen - i],
    [l] the memory from [r[i]] on.  [None]: reads beyond the buffer. *)
Fixpoint charset_ranges (x : Z) (n : Z) (l : list Z) : option bool :=
  if n <=? 0 then Some false
  else
    match l with
    | a :: ((b :: l1) as t) =>
      if b =? 45 then
        match l1 with
        | c :: l2 => if (a <=? x) && (x <=? c) then Some true else charset_ranges x (n - 3) l2
        | [] => None
        end
      else if x =? a then Some true else charset_ranges x (n - 1) t
    | _ => None
    end.
(** 528-551: [r] is the set, [mem] the memory where it starts (the rest of the
    rule and its terminating zero follow the set). *)
Definition charset_char (r mem : list Z) (x : Z) : option bool :=
  let adjlen := u64 (Z.of_nat (length r) - 2) in
  match charset_ranges x adjlen mem with
  | Some true => Some true
  | Some false => Some (existsb (Z.eqb x) (skipn (Z.to_nat (Z.min adjlen (Z.of_nat (length r)))) r))
  | None => None
  end.
(** 529-555 *)
Fixpoint charset_all (neg : bool) (r mem : list Z) (subject : list Z) : option bool :=
  match subject with
  | [] => Some true
  | x :: subject' =>
    match charset_char r mem x with
    | Some found => if Bool.eqb found neg then Some false else charset_all neg r mem subject'
    | None => None
    end
  end.
(** 512-557, [opTestCharset].  [r.length-2] of line 519 is enormous for a rule of
    one character and [substr] cuts it. *)
Definition test_charset (subject rule : list Z) : option bool :=
  let r := firstn (if (length rule <? 2)%nat then length rule else length rule - 2) (tl rule) in
  let mem := tl rule ++ [0] in
  match r with
  | [] => Some match subject with [] => true | _ => false end
  | c :: r' =>
    match subject with
    | [] => Some false
    | _ =>
      match r' with
      | _ :: _ => if c =? 94 then charset_all true r' (tl mem) subject else charset_all false r mem subject
      | [] => charset_all false r mem subject
      end
    end
  end.

(** *** Variables *)
(** [defined]. value.h 611. *)
Definition defined (v : value) : bool := negb (is_undef v).
(** 885-894 *)
Fixpoint lookup_var (l : list member) (name : bytes) : member :=
  match l with
  | [] => ([], VUndef)
  | x :: l' => if beqb (fst x) name then x else lookup_var l' name
  end.
Definition find_var (vars : list member) (this : member) (name : bytes) : member :=
  if beqb name (txt "$this") then this else lookup_var vars name.
(** [x[name]] with the key of the handle. value.h 365. *)
Definition member_at (v : value) (name : bytes) : member :=
  match v with
  | VObj _ l => match find_member l name with Some m => m | None => ([], VUndef) end
  | _ => ([], VUndef)
  end.

(** 896-928, [getVar]; [None] is [return path]. *)
Section GetVar.
Variables (V : venv) (vars : list member) (this : member).
Definition step_into (x : member) (p : value) : option member :=
  match p with
  | VStr _ s => Some (member_at (snd x) s)
  | VNum _ => Some (vitem (snd x) (Z.to_nat (Z.min (uint_of V p) (Z.of_nat (vsize (snd x))))))
  | _ => None
  end.
Fixpoint resolve_var (path : value) : option member :=
  match path with
  | VArr ((_, VStr _ n) :: rest) =>
    let x := find_var vars this n in
    if defined (snd x) then
      (fix steps (x : member) (l : list member) : option member :=
        match l with
        | [] => Some x
        | (_, p) :: l' =>
          let y :=
            match p with
            | VStr _ _ | VNum _ => step_into x p
            | VArr _ => step_into x (match resolve_var p with Some m => snd m | None => p end)
            | _ => None
            end in
          match y with Some y => steps y l' | None => None end
        end) x rest
    else None
  | _ => None
  end.
Definition get_var (path : member) : member :=
  match resolve_var (snd path) with Some m => m | None => path end.

(** 963-980, [walkObject].  A variable that resolves to the very object the
    template is made of (967) is taken as resolved.  The array is built by
    [push_back] and loses the undefined items when it becomes a value (array.cpp
    158), the object by [set].  [k] is the key of [v]; the result carries the key
    of the handle that is returned. *)
Definition keep_defined (l : list member) : list member := filter (fun x => defined (snd x)) l.
Fixpoint walk_object (k : bytes) (v : value) : member :=
  match v with
  | VArr l =>
    match resolve_var v with
    | Some m => m
    | None =>
      ([], VArr (keep_defined ((fix each (l : list member) : list member :=
        match l with [] => [] | (k', x) :: l' => walk_object k' x :: each l' end) l)))
    end
  | VObj _ l =>
    ([], snd (obj_commit
      (fold_left obj_set
        ((fix each (l : list member) : list member :=
          match l with [] => [] | (k', x) :: l' => (k', snd (walk_object k' x)) :: each l' end) l)
        (obj_new empty_object))))
  | _ => (k, v)
  end.
End GetVar.

(** value.cpp 231-256, [Value::splitAt]: [(unsigned)pos < sz].  The parts are
    taken without a key. *)
Definition split_value_pos (v : value) (pos : Z) : value * value :=
  if 0 <? pos then
    if pos <? Z.of_nat (vsize v) then
      (VArr (firstn (Z.to_nat pos) (members_of v)), VArr (skipn (Z.to_nat pos) (members_of v)))
    else (v, VArr [])
  else (VArr [], v).
Definition split_value (v : value) (pos : Z) : value * value :=
  match v with
  | VStr _ _ => str_split_at v pos
  | _ =>
    if pos <? 0 then
      let p := s32 (Z.of_nat (vsize v)) + pos in
      if 0 <? p then split_value_pos v p else (VArr [], v)
    else split_value_pos v pos
  end.

(** 683-696, [parseKey]: the key and whether it is "%". *)
Definition parse_key (k : bytes) : bytes * bool :=
  if beqb k [37] then ([], true)
  else if forallb (Z.eqb 37) k then (tl k, false)
  else (k, false).

(** *** Rejections *)
(** 859-873, [addRejection] *)
Definition add_rejection (V : venv) (p : path) (rule : value) (s : vst) : vst :=
  let rule := if is_undef rule then VStr None (txt "undefined") else rule in
  if veq (v_L V) rule (vs_last s) then s
  else if existsb (fun m => v_copy V (vs_tick s) (snd m) (vs_last s)) (members_of rule) then
    mkVst (vs_rej s) rule (vs_emit s) (vs_vars s) (S (vs_tick s))
  else mkVst (vs_rej s ++ [(p, rule)]) rule (vs_emit s) (vs_vars s) (S (vs_tick s)).
(** 361, [rejections.resize]: never to a greater size. *)
Definition cut_rejections (n : nat) (s : vst) : vst :=
  mkVst (firstn n (vs_rej s)) (vs_last s) (vs_emit s) (vs_vars s) (vs_tick s).
(** 358-363: what follows the evaluation of a rule. *)
Definition close_rule (V : venv) (p : path) (rule : value) (n : nat) (o : vout) : vout :=
  vbind o (fun b s =>
    if b then VDone true (cut_rejections n s)
    else VDone false (add_rejection V p rule s)).
(** 875-883 *)
Definition push_var (name : bytes) (v : value) (s : vst) : vst :=
  mkVst (vs_rej s) (vs_last s) (vs_emit s) ((name, v) :: vs_vars s) (vs_tick s).
Definition pop_var (s : vst) : vst :=
  mkVst (vs_rej s) (vs_last s) (vs_emit s) (tl (vs_vars s)) (vs_tick s).
(** 985 *)
Definition push_emit (m : member) (s : vst) : vst :=
  mkVst (vs_rej s) (vs_last s) (vs_emit s ++ [m]) (vs_vars s) (vs_tick s).

(** 576-672 without the classes: the name that is left
    to [checkClass].  [toString] of the subject ([t]) is computed where needed. *)
Inductive simple := SVerdict (b : bool) | SThrow | SBad | SClass.
Definition on_text (V : venv) (v : value) (f : bytes -> bool) : simple :=
  match to_string (v_E V) (v_utf8 V) v with Some t => SVerdict (f t) | None => SThrow end.
Definition simple_rule (V : venv) (v : value) (name : bytes) : simple :=
  match name with
  | [] => SVerdict false
  | c :: name' =>
    if c =? 39 then SVerdict (beqb (get_string v) name')
    else if c =? 35 then SVerdict false
    else if (c =? 91) && (last name 0 =? 93) then
      match v with
      | VStr _ s => match test_charset (wstr s) (wstr name) with Some b => SVerdict b | None => SBad end
      | _ => SVerdict false
      end
    else if beqb name (txt "string") then SVerdict (match v with VStr _ _ => true | _ => false end)
    else if beqb name (txt "number") then SVerdict (match v with VNum _ => true | _ => false end)
    else if beqb name (txt "boolean") then SVerdict (match v with VBool _ => true | _ => false end)
    else if beqb name (txt "any") then SVerdict (defined v)
    else if beqb name (txt "null") then SVerdict (is_null v)
    else if beqb name (txt "optional") || beqb name (txt "undefined") then SVerdict (negb (defined v))
    else if beqb name (txt "hex") then on_text V v op_hex
    else if beqb name (txt "base64") then on_text V v op_base64
    else if beqb name (txt "base64url") then on_text V v op_base64url
    else if beqb name (txt "uppercase") then on_text V v op_uppercase
    else if beqb name (txt "lowercase") then on_text V v op_lowercase
    else if beqb name (txt "alpha") then on_text V v op_alpha
    else if beqb name (txt "alnum") then on_text V v op_alnum
    else if beqb name (txt "datetime") || beqb name (txt "datetimez") then on_text V v (check_date_time (txt "YYYY-MM-DDThh:mm:ssZ"))
    else if beqb name (txt "date") then on_text V v (check_date_time (txt "YYYY-MM-DD"))
    else if beqb name (txt "time") then on_text V v (check_date_time (txt "hh:mm:ss"))
    else if beqb name (txt "timez") then on_text V v (check_date_time (txt "hh:mm:ssZ"))
    else if beqb name (txt "digits") then on_text V v op_digits
    else if beqb name (txt "integer") then SVerdict (op_integer v)
    else if beqb name (txt "unsigned") then SVerdict (op_unsigned V v)
    else if beqb name (txt "identifier") then on_text V v op_identifier
    else if beqb name (txt "empty") then SVerdict (op_empty v)
    else if beqb name (txt "nonempty") then SVerdict (op_nonempty v)
    else if beqb name (txt "object") then SVerdict (match v with VObj _ _ => true | _ => false end)
    else if beqb name (txt "array") then SVerdict (match v with VArr _ => true | _ => false end)
    else SClass
  end.

(** *** Rules.  [ev] is [evalRule] for the rules inside. *)
Section Rules.
Variables (V : venv) (ev : path -> member -> value -> vst -> vout).

(** 774-784, [checkClass]; validateInternal (309-314) is [ev] on the class. *)
Definition check_class (p : path) (m : member) (name : bytes) (s : vst) : vout :=
  let ruleline := value_member (v_def V) name in
  if negb (defined ruleline) then VThrow s
  else if beqb (get_string ruleline) (txt "native") then VDone (v_native V m name) s
  else ev p m ruleline s.
(** 576-672 *)
Definition eval_simple (p : path) (m : member) (name : bytes) (s : vst) : vout :=
  match simple_rule V (snd m) name with
  | SVerdict b => VDone b s
  | SThrow => VThrow s
  | SBad => VBad
  | SClass => check_class p m name s
  end.

(** 502-510, [evalRuleAlternatives] on the items from the offset on; the number of
    items is taken below 2^32. *)
Fixpoint alternatives (p : path) (m : member) (rules : list member) (s : vst) : vout :=
  match rules with
  | [] => VDone false s
  | r :: rules' =>
    vbind (ev p m (snd r) s) (fun b s => if b then VDone true s else alternatives p m rules' s)
  end.

(** 449-485, [opRangeDef].  The operand after the last item is undefined. *)
Definition range_test (name : bytes) (subject : value) (q : value) : option bool :=
  if beqb name (txt "<") then Some (same_type q subject && is_less V subject q)
  else if beqb name (txt ">=") then Some (same_type q subject && negb (is_less V subject q))
  else if beqb name (txt ">") then Some (same_type q subject && is_less V q subject)
  else if beqb name (txt "<=") then Some (same_type q subject && negb (is_less V q subject))
  else None.
Definition is_comment (name : bytes) : bool := match name with c :: _ => c =? 35 | [] => false end.
Fixpoint range_def (p : path) (m : member) (rules : list member) (s : vst) : vout :=
  match rules with
  | [] => VDone true s
  | r :: rules' =>
    let other := vbind (ev p m (snd r) s) (fun b s => if b then range_def p m rules' s else VDone false s) in
    match snd r with
    | VStr _ name =>
      if is_comment name then range_def p m rules' s
      else
        let q := match rules' with q :: _ => q | [] => ([], VUndef) end in
        match range_test name (snd m) (snd (get_var V (vs_vars s) m q)) with
        | Some true => match rules' with _ :: rules'' => range_def p m rules'' s | [] => VDone true s end
        | Some false => VDone false s
        | None => other
        end
    | _ => other
    end
  end.

(** 316-321 and 322-327 *)
Definition sub_key (p : path) (m : member) (rule : value) (key : bytes) (s : vst) : vout :=
  ev (pkey key :: p) m rule s.
Definition sub_index (p : path) (m : member) (rule : value) (i : Z) (s : vst) : vout :=
  ev (pindex (u32 i) :: p) m rule s.
(** 328-342 *)
Definition sub_alternatives (p : path) (m : member) (rule : value) (i : Z) (offset : nat) (s : vst) : vout :=
  close_rule V (pindex (u32 i) :: p) rule (List.length (vs_rej s))
    (alternatives (pindex (u32 i) :: p) m (skipn offset (members_of rule)) s).

(** 488-500, [evalRuleArray].  [tupleCnt] is unsigned 32 bits.  The first loop runs
    over the rules after the first; behind the last of them the rule is
    undefined, and rejects. *)
Fixpoint tuple_items (p : path) (subject : value) (rules : list member) (count i : Z) (s : vst) : vout :=
  if count <=? i then VDone true s
  else
    let item := vitem subject (Z.to_nat (Z.min i (Z.of_nat (vsize subject)))) in
    match rules with
    | [] => sub_index p item VUndef i s
    | r :: rules' =>
      vbind (sub_index p item (snd r) i s) (fun b s =>
        if b then tuple_items p subject rules' count (i + 1) s else VDone false s)
    end.
Fixpoint rest_items (p : path) (items : list member) (rule : value) (i : Z) (offset : nat) (s : vst) : vout :=
  match items with
  | [] => VDone true s
  | x :: items' =>
    vbind (sub_alternatives p x rule i offset s) (fun b s =>
      if b then rest_items p items' rule (i + 1) offset s else VDone false s)
  end.
Definition eval_array (p : path) (m : member) (rule : value) (count : Z) (s : vst) : vout :=
  match snd m with
  | VArr l =>
    let n := Z.to_nat (Z.min count (Z.of_nat (List.length l))) in
    let offset := Z.to_nat (Z.min (u32 (count + 1)) (Z.of_nat (vsize rule))) in
    vbind (tuple_items p (snd m) (tl (members_of rule)) count 0 s) (fun b s =>
      if b then rest_items p (skipn n l) rule count offset s else VDone false s)
  | _ => VDone false s
  end.

(** 785-802, [opPrefix] *)
Definition op_prefix (p : path) (m : member) (args : list member) (s : vst) : vout :=
  let pfix := snd (get_var V (vs_vars s) m (nth 1 args ([], VUndef))) in
  let rule := snd (nth 2 args ([], VUndef)) in
  match pfix with
  | VArr l =>
    let '(a, b) := split_value (snd m) (s32 (Z.of_nat (List.length l))) in
    if negb (veq (v_L V) a pfix) then VDone false s
    else if defined rule then alternatives p ([], b) (skipn 2 args) s
    else VDone true s
  | _ =>
    let text := get_string (snd m) in
    let str := get_string pfix in
    if negb (beqb (firstn (List.length str) text) str) then VDone false s
    else if defined rule then alternatives p ([], VStr None (skipn (List.length str) text)) (skipn 2 args) s
    else VDone true s
  end.
(** 804-823, [opSuffix] *)
Definition op_suffix (p : path) (m : member) (args : list member) (s : vst) : vout :=
  let sfix := snd (get_var V (vs_vars s) m (nth 1 args ([], VUndef))) in
  let rule := snd (nth 2 args ([], VUndef)) in
  match sfix with
  | VArr l =>
    let '(a, b) := split_value (snd m) (- s32 (Z.of_nat (List.length l))) in
    if negb (veq (v_L V) b sfix) then VDone false s
    else if defined rule then alternatives p ([], a) (skipn 2 args) s
    else VDone true s
  | _ =>
    let text := get_string (snd m) in
    let str := get_string sfix in
    if (List.length text <? List.length str)%nat then VDone false s
    else
      let pos := (List.length text - List.length str)%nat in
      if negb (beqb (skipn pos text) str) then VDone false s
      else if (2 <? List.length args)%nat then alternatives p ([], VStr None (firstn pos text)) (skipn 2 args) s
      else VDone true s
  end.
(** 826-829, [opSplit], with 411 *)
Definition op_split (p : path) (m : member) (args : list member) (s : vst) : vout :=
  let at_ := uint_of V (snd (get_var V (vs_vars s) m (nth 1 args ([], VUndef)))) in
  let '(a, b) := split_value (snd m) (s32 at_) in
  vbind (ev p ([], a) (snd (nth 2 args ([], VUndef))) s) (fun r s =>
    if r then ev p ([], b) (snd (nth 3 args ([], VUndef))) s else VDone false s).
(** 830-854, [opExplode], with 414 *)
Definition op_explode (p : path) (m : member) (args : list member) (s : vst) : vout :=
  let sep := get_string (snd (get_var V (vs_vars s) m (nth 1 args ([], VUndef)))) in
  let limit := snd (nth 3 args ([], VUndef)) in
  let l := if defined limit then u32 (uint_of V limit) else 0 in
  let parts := v_explode V (get_string (snd m)) sep (if l =? 0 then None else Some l) in
  ev p ([], VArr (map (fun t => ([], VStr None t)) parts)) (snd (nth 2 args ([], VUndef))) s.
(** 930-940, [opSetVar]: no [popVar] on an exception. *)
Definition op_setvar (p : path) (m : member) (args : list member) (s : vst) : vout :=
  let name := get_string (snd (nth 1 args ([], VUndef))) in
  if match name with c :: _ => c =? 36 | [] => false end then
    vbind (alternatives p m (skipn 2 args) (push_var name (snd m) s)) (fun b s => VDone b (pop_var s))
  else VDone false s.
(** 942-947, [opUseVar] *)
Definition op_usevar (p : path) (m : member) (args : list member) (s : vst) : vout :=
  let id := nth 1 args ([], VUndef) in
  let var :=
    match snd id with
    | VArr _ => get_var V (vs_vars s) m id
    | _ => find_var (vs_vars s) m (get_string (snd id))
    end in
  if defined (snd var) then alternatives p var (skipn 2 args) s else VDone false s.
(** 982-988, [opEmit] *)
Definition op_emit (p : path) (m : member) (args : list member) (s : vst) : vout :=
  vbind (ev p m (snd (nth 2 args ([], VUndef))) s) (fun b s =>
    let t := nth 1 args ([], VUndef) in
    if b then VDone true (push_emit (walk_object V (vs_vars s) m (fst t) (snd t)) s)
    else VDone false s).

(** 384-442: a rule whose first item is the string [token]. *)
Definition eval_token (p : path) (m : member) (token : bytes) (args : list member) (s : vst) : vout :=
  let arg1 := get_var V (vs_vars s) m (nth 1 args ([], VUndef)) in
  if beqb token (txt "minsize") then VDone (check_min_size (snd m) (uint_of V (snd arg1))) s
  else if beqb token (txt "maxsize") then VDone (check_max_size (snd m) (uint_of V (snd arg1))) s
  else if beqb token (txt "key") then alternatives p ([], VStr None (fst m)) (skipn 1 args) s
  else if beqb token (txt "tostring") then
    match to_string (v_E V) (v_utf8 V) (snd m) with
    | Some t => alternatives p ([], VStr None t) (skipn 1 args) s
    | None => VThrow s
    end
  else if beqb token (txt "tonumber") then
    alternatives p ([], value_of_double (value_dbl (v_L V) (v_F V) (snd m))) (skipn 1 args) s
  else if beqb token (txt "prefix") then op_prefix p m args s
  else if beqb token (txt "suffix") then op_suffix p m args s
  else if beqb token (txt "split") then op_split p m args s
  else if beqb token (txt "explode") then op_explode p m args s
  else if beqb token (txt ">") || beqb token (txt ">=") || beqb token (txt "<") || beqb token (txt "<=") then range_def p m args s
  else if beqb token (txt "all") || beqb token (txt "^") then range_def p m (skipn 1 args) s
  else if beqb token (txt "datetime") then
    match to_string (v_E V) (v_utf8 V) (snd m) with
    | Some t => VDone (check_date_time (get_string (snd arg1)) t) s
    | None => VThrow s
    end
  else if beqb token (txt "not") || beqb token (txt "!") then
    vbind (alternatives p m (skipn 1 args) s) (fun b s => VDone (negb b) s)
  else if beqb token (txt "setvar") then op_setvar p m args s
  else if beqb token (txt "usevar") then op_usevar p m args s
  else if beqb token (txt "emit") then op_emit p m args s
  else if defined (snd (find_var (vs_vars s) m token)) then
    VDone (veq (v_L V) (snd m) (snd (get_var V (vs_vars s) m ([], VArr args)))) s
  else alternatives p m args s.
(** 367-447, [evalRuleWithParams] *)
Definition eval_params (p : path) (m : member) (args : list member) (s : vst) : vout :=
  match args with
  | [] => VDone (match snd m with VArr [] => true | _ => false end) s
  | (_, VArr []) :: _ => eval_array p m (VArr args) 0 s
  | (_, VArr [(_, VNum n)]) :: _ =>
    eval_array p m (VArr args)
      (u32 (match num_s64 (v_L V) n with Some z => z | None => v_wild V (VNum n) end)) s
  | (_, VStr _ token) :: _ => eval_token p m token args s
  | _ => alternatives p m args s
  end.

(** 698-773, [evalRuleObject].  [wild] is the rule of "%". *)
Definition reject_sub (p : path) (key : bytes) (rule : value) (o : vout) (k : vst -> vout) : vout :=
  vbind o (fun b s => if b then k s else VDone false (add_rejection V (pkey key :: p) rule s)).
(** 750-759 *)
Fixpoint extra_members (p : path) (wild : value) (ss : list member) (s : vst) : vout :=
  match ss with
  | [] => VDone true s
  | x :: ss' => reject_sub p (fst x) wild (sub_key p x wild (fst x) s) (extra_members p wild ss')
  end.
(** 760-769: the key is not unescaped here, and "%" is not left out. *)
Fixpoint missing_members (p : path) (ts : list member) (s : vst) : vout :=
  match ts with
  | [] => VDone true s
  | t :: ts' => reject_sub p (fst t) (snd t) (sub_key p ([], VUndef) (snd t) (fst t) s) (missing_members p ts')
  end.
(** 720-749 *)
Fixpoint template_loop (p : path) (wild : value) (ss : list member) : list member -> vst -> vout :=
  fix inner (ts : list member) (s : vst) : vout :=
    match ss, ts with
    | x :: ss', t :: ts' =>
      let '(tk, spec) := parse_key (fst t) in
      match kcmp (fst x) tk with
      | Lt =>
        if spec then template_loop p wild ss' ts s
        else reject_sub p (fst x) wild (sub_key p x wild (fst x) s) (template_loop p wild ss' ts)
      | Gt =>
        if spec then inner ts' s
        else reject_sub p tk (snd t) (sub_key p ([], VUndef) (snd t) tk s) (inner ts')
      | Eq =>
        if spec then template_loop p wild ss' ts' s
        else reject_sub p (fst x) (snd t) (sub_key p x (snd t) (fst x) s) (template_loop p wild ss' ts')
      end
    | [], _ => missing_members p ts s
    | _, [] => extra_members p wild ss s
    end.
Definition eval_object (p : path) (m : member) (templ : value) (s : vst) : vout :=
  match snd m with
  | VObj _ ss => template_loop p (value_member templ [37]) ss (members_of templ) s
  | _ => VDone false s
  end.

(** 345-365, [evalRule] *)
Definition rule_step (p : path) (m : member) (rule : value) (s : vst) : vout :=
  let close := close_rule V p rule (List.length (vs_rej s)) in
  match rule with
  | VObj _ _ => close (eval_object p m rule s)
  | VArr args => close (eval_params p m args s)
  | VStr _ name => close (eval_simple p m name s)
  | VUndef => close (VDone false s)
  | _ => VDone (veq (v_L V) (snd m) rule) s
  end.
End Rules.

(** 345-365 with a bound on the depth of nested rules and classes: the code has
    none, and a class that refers to itself never returns. *)
Fixpoint eval_rule (V : venv) (fuel : nat) (p : path) (m : member) (rule : value) (s : vst) : vout :=
  match fuel with
  | O => VFuel
  | S f => rule_step V (eval_rule V f) p m rule s
  end.

(** 72-84, [validate]; 309-314.  On a wrong version nothing is cleared. *)
Definition clear_results (s : vst) : vst := mkVst [] (vs_last s) [] (vs_vars s) (vs_tick s).
Definition validate (V : venv) (fuel : nat) (m : member) (class : bytes) (p : path) (s : vst) : vout :=
  let ver := value_member (v_def V) (txt "_version") in
  if defined ver && negb (SFeqb (value_dbl (v_L V) (v_F V) ver) (f_of_Z 1)) then
    VDone false (add_rejection V [pkey (txt "_version")] ver s)
  else eval_rule V fuel p m (value_member (v_def V) class) (clear_results s).
(** A new validator (86-88), 949-953 [setVariables], 90-92 [getRejections] (without
    the key a rule may have), 959-961 [getEmits]. *)
Definition v_init : vst := mkVst [] VUndef [] [] 0.
Definition set_variables (vars : value) (s : vst) : vst :=
  mkVst (vs_rej s) (vs_last s) (vs_emit s) (rev (members_of vars)) (vs_tick s).
Definition get_rejections (s : vst) : value :=
  VArr (map (fun r => ([], VArr [([], path_to_value (fst r)); ([], snd r)])) (vs_rej s)).
Definition get_emits (s : vst) : value := VArr (vs_emit s).
