(** Strings: /repo/src/imtjson/string.cpp, and [Value::toString], [Value::join]
    of value.cpp.  A [String] is the value it holds. *)
From Verif Require Import Base ModelKeyed ModelValue ModelText ModelObject ModelEnc ModelJwt.
Local Open Scope Z_scope.

(** value.cpp 61-83, [toString]; [utf8] is [defaultUnicodeFormat], used by
    [stringify].  [None] is the exception of [getBinary] (never, theorem in
    PropString). *)
Definition to_string (E : serenv) (utf8 : bool) (v : value) : option bytes :=
  match v with
  | VNum (NPrec t _) => Some t
  | VNull | VBool _ | VNum _ | VObj _ _ | VArr _ => Some (ser E utf8 v)
  (* "<undefined>" *)
  | VUndef => Some [60;117;110;100;101;102;105;110;101;100;62]
  | VStr None s => Some s
  | VStr (Some e) s => option_map (fun d => get_string (encode_value e d)) (get_binary e v)
  end.

(** value.cpp 816-824: what is written to the buffer. *)
Fixpoint join_text (separator : bytes) (first : bool) (l : list bytes) : bytes :=
  match l with
  | [] => []
  | v :: l' => (if first then [] else separator) ++ v ++ join_text separator false l'
  end.
Fixpoint all_some {A} (l : list (option A)) : option (list A) :=
  match l with
  | [] => Some []
  | Some x :: l' => option_map (cons x) (all_some l')
  | None :: _ => None
  end.
(** value.cpp 804-827, [join].  The buffer has [needsz] characters, computed
    modulo 2^64; [Err] when that is not the number of characters written: the
    constructor then writes outside it (stringValue.h 52) or aborts (54). *)
Definition value_join (E : serenv) (utf8 : bool) (v : value) (separator : bytes) : res bytes :=
  match all_some (map (fun m => to_string E utf8 (snd m)) (members_of v)) with
  | None => Err
  | Some tmp =>
    let needsz := u64 (Z.of_nat (length (concat tmp)) + (Z.of_nat (length tmp) - 1) * Z.of_nat (length separator)) in
    let text := join_text separator true tmp in
    if needsz =? Z.of_nat (length text) then Ok text else Err
  end.

(** [StringView::indexOf] (absent, contract in DESIGN.md): the first position
    at or after [start] where [what] stands. Called at string.cpp 185, 189, 230. *)
Fixpoint is_prefix (p s : bytes) : bool :=
  match p, s with
  | [], _ => true
  | x :: p', y :: s' => (x =? y) && is_prefix p' s'
  | _, [] => false
  end.
Fixpoint find_sub (what s : bytes) : option nat :=
  if is_prefix what s then Some O
  else match s with [] => None | _ :: s' => option_map S (find_sub what s') end.
Definition index_of (s what : bytes) (start : nat) : option nat :=
  if (start <=? length s)%nat then option_map (Nat.add start) (find_sub what (skipn start s)) else None.

(** [StringView::substr(pos, length)], clamped; 36-53. *)
Definition substr (s : bytes) (pos len : nat) : bytes := firstn len (skipn pos s).
Definition str_left (s : bytes) (len : nat) : bytes := substr s 0 len.
Definition str_right (s : bytes) (len : nat) : bytes :=
  let l := length s in
  let len := if (l <? len)%nat then l else len in
  substr s (l - len) len.

(** 164-178, [SubStrString]: a plain string. *)
Definition sub_string (s : bytes) (pos len : nat) : value := VStr None (substr s pos len).

(** 186-196: the items added; [impl] is the whole string, the first argument
    bounds the rounds. *)
Fixpoint split_loop (fuel : nat) (impl : value) (separator : bytes) (cur : nat) (max : Z) : res (list value) :=
  match fuel with
  | O => Fuel
  | S f =>
    let a := get_string impl in
    let last := Ok [if (cur =? 0)%nat then impl else sub_string a cur (length a - cur)] in
    match index_of a separator cur with
    | Some next =>
      if max =? 0 then last
      else
        do r <- split_loop f impl separator (next + length separator) (max - 1);
        Ok (sub_string a cur (next - cur) :: r)
    | None => last
    end
  end.
(** 181-200, [split]; the items of the array have no key. *)
Definition str_split (impl : value) (separator : bytes) (max : Z) : res value :=
  do r <- split_loop (S (S (length (get_string impl)))) impl separator 0 max;
  Ok (VArr (map (fun v => ([], v)) (filter (fun v => negb (is_undef v)) r))).
(** The default of [maxCount] (string.h 153). *)
Definition max_count : Z := 2 ^ 64 - 1.

(** 202-221, [splitAt], with [Int] of 64 bits: the position is cut to 32 bits in
    the comparison of line 206, and the length in 214.  The recursive call has a
    positive argument. *)
Definition split_at_pos (s : value) (pos : Z) : value * value :=
  let a := get_string s in
  if pos mod 2 ^ 32 <? Z.of_nat (length a) then
    (sub_string a 0 (Z.to_nat pos), sub_string a (Z.to_nat pos) (length a - Z.to_nat pos))
  else (s, VUndef).
Definition str_split_at (s : value) (pos : Z) : value * value :=
  let sz := Z.of_nat (length (get_string s)) in
  if 0 <? pos then split_at_pos s pos
  else if pos <? 0 then
    if 0 <? s32 sz + pos then split_at_pos s (s32 sz + pos)
    else (VUndef, s)
  else (s, VUndef).

(** 127-146, [insert]. *)
Definition str_insert (s : value) (pos : Z) (what : bytes) : value :=
  let a := get_string s in
  match what with
  | [] => s
  | _ =>
    let p := if Z.of_nat (length a) <? pos then length a else Z.to_nat pos in
    VStr None (firstn p a ++ what ++ skipn p a)
  end.

(** 148-162, [replace]: sizes and addresses modulo 2^64.  [None] when the last [memcpy]
    reads outside of the string (never, theorem in PropString). *)
Definition str_replace (s : value) (pos size : Z) (what : bytes) : option value :=
  let a := get_string s in
  let n := Z.of_nat (length a) in
  let pos := if n <? pos then n else pos in
  let size := if n <? u64 (pos + size) then n - pos else size in
  let from := u64 (pos + size) in
  let len := u64 (n - pos - size) in
  if from + len <=? n then
    Some (VStr None (firstn (Z.to_nat pos) a ++ what ++ firstn (Z.to_nat len) (skipn (Z.to_nat from) a)))
  else None.
