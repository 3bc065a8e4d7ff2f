(** Dates and times of the validator: /repo/src/imtjson/validator.cpp 252-307. *)
From Verif Require Import Base.
Local Open Scope Z_scope.

(** 255-265: the local variables; unsigned 32 bits. *)
Record dfields := mkDF {
  f_D : Z; f_M : Z; f_Y : Z; f_h : Z; f_m : Z; f_s : Z; f_O : Z; f_o : Z;
  has_D : bool; has_M : bool; has_Y : bool }.
Definition df_init : dfields := mkDF 0 0 0 0 0 0 0 0 false false false.

(** ctype.h [isdigit], locale C; a negative [char] is taken as not a digit (the
    code passes it unconverted). Called at validator.cpp 290. *)
Definition is_digit (d : Z) : bool := (48 <=? d) && (d <=? 57).

(** 272-289: the [switch].  [ac] is [d - '0'] converted to [char] and back, which
    is only kept when [d] is a digit (290).  Line 279 changes the local copy of
    the format character.  [None] is [return false]. *)
Definition date_char (c d : Z) (f : dfields) : option dfields :=
  let ac := d - 48 in
  let acc x := u32 (x * 10 + ac) in
  let digit g := if is_digit d then Some g else None in
  let '(mkDF D M Y h m s oh om hD hM hY) := f in
  if c =? 68 then digit (mkDF (acc D) M Y h m s oh om true hM hY)           (* 'D' *)
  else if c =? 77 then digit (mkDF D (acc M) Y h m s oh om hD true hY)      (* 'M' *)
  else if c =? 89 then digit (mkDF D M (acc Y) h m s oh om hD hM true)      (* 'Y' *)
  else if c =? 104 then digit (mkDF D M Y (acc h) m s oh om hD hM hY)       (* 'h' *)
  else if c =? 109 then digit (mkDF D M Y h (acc m) s oh om hD hM hY)       (* 'm' *)
  else if c =? 115 then digit (mkDF D M Y h m (acc s) oh om hD hM hY)       (* 's' *)
  else if c =? 99 then digit f                                            (* 'c' *)
  else if c =? 79 then digit (mkDF D M Y h m s (acc oh) om hD hM hY)        (* 'O' *)
  else if c =? 111 then digit (mkDF D M Y h m s oh (acc oh) hD hM hY)       (* 'o' *)
  else if c =? 43 then if (d =? 45) || (d =? 43) then Some f else None    (* '+' *)
  else if d =? c then Some f else None.

(** 253, 267-291 *)
Fixpoint date_scan (format text : bytes) (f : dfields) : option dfields :=
  match format, text with
  | [], [] => Some f
  | c :: format', d :: text' =>
    match date_char c d f with
    | Some g => date_scan format' text' g
    | None => None
    end
  | _, _ => None
  end.

(** 296-300 *)
Definition is_leap (y : Z) : bool := ((y mod 4 =? 0) && negb (y mod 100 =? 0)) || (y mod 400 =? 0).
Definition month_days (leap : bool) : list Z :=
  [31; if leap then 29 else 28; 31; 30; 31; 30; 31; 31; 30; 31; 30; 31].
(** 293-306.  The table is read only after 294 limited the month. *)
Definition date_ranges (f : dfields) : bool :=
  if has_Y f && (f_Y f <? 1000) then false
  else if has_M f && ((f_M f =? 0) || (12 <? f_M f)) then false
  else if has_D f && has_M f && ((f_D f =? 0) || (nth (Z.to_nat (f_M f - 1)) (month_days (is_leap (f_Y f))) 0 <? f_D f)) then false
  else if (23 <? f_h f) || (59 <? f_m f) || (59 <? f_s f) then false
  else if (23 <? f_O f) || (59 <? f_o f) then false
  else true.
(** 252-307, [checkDateTimeGen] *)
Definition check_date_time (format text : bytes) : bool :=
  match date_scan format text df_init with
  | Some f => date_ranges f
  | None => false
  end.
