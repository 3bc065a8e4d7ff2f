(** Typed access to values: /repo/src/imtjson/conv.h ([Value::as], [Value::from]) and
    value.h 1110-1142, value.cpp 874-879 ([getValueOrDefault]).  The type [float] is left
    out. *)
From Verif Require Import Base ModelKeyed ModelValue ModelText ModelEq ModelObject ModelArray ModelEnc ModelJwt ModelNumView ModelBin ModelString.
Local Open Scope Z_scope.

(** The types of conv.h; [CStr] is [StringView<char>] and [std::string], [CValue] is
    [PValue], [CVec] is [std::vector]. conv.h 7-140. *)
Inductive cty := CStr | CUInt | CInt | CDouble | CBool | CValue | CVec (t : cty).
(** What the C++ types hold. Model only. *)
Fixpoint cden (t : cty) : Type :=
  match t with
  | CStr => bytes
  | CUInt | CInt => Z
  | CDouble => spec_float
  | CBool => bool
  | CValue => member
  | CVec t => list (cden t)
  end.

(** conv.h 13-18, 27-32, 41-46, 55-60, 83-88, 98-103, 111-116, 127-138: [Value::from].
    value.cpp 54-59: all the items are kept, undefined too; 141-156, 276-281: zero is
    the shared one. *)
Fixpoint conv_from (t : cty) : cden t -> member :=
  match t with
  | CStr => fun s => ([], VStr None s)
  | CUInt => fun n => ([], VNum (NUInt n))
  | CInt => fun n => ([], value_of_int n)
  | CDouble => fun f => ([], value_of_double f)
  | CBool => fun b => ([], VBool b)
  | CValue => fun m => m
  | CVec t => fun l => ([], VArr (map (conv_from t) l))
  end.

Section As.
Variables (L : libm) (F : pflags).
(** [getBool] of a value which is not a boolean: depends on its class (ModelIface). *)
Variable other_bool : value -> bool.
(** value.h 311: [getBool]. *)
Definition value_bool (v : value) : bool := match v with VBool b => b | _ => other_bool v end.
(** conv.h 6-11, 20-25, 34-39, 48-53, 76-81, 91-96, 105-110, 118-126: [Value::as].
    [None] is the undefined conversion of a double out of range.  The loop (123) goes
    by index to [size()], value.h 1188-1211. *)
Fixpoint conv_as (t : cty) (m : member) : option (cden t) :=
  match t with
  | CStr => Some (get_string (snd m))
  | CUInt => value_u64 L F (snd m)
  | CInt => value_s64 L F (snd m)
  | CDouble => Some (value_dbl L F (snd m))
  | CBool => Some (value_bool (snd m))
  | CValue => Some m
  | CVec t => all_some (map (fun i => conv_as t (vitem (snd m) i)) (seq 0 (vsize (snd m))))
  end.

(** *** [getValueOrDefault] *)
(** The tests [type() == json::number] and [type() == json::string] of value.h 1111-1133. *)
Definition is_number (v : value) : bool := match v with VNum _ => true | _ => false end.
Definition is_string (v : value) : bool := match v with VStr _ _ => true | _ => false end.
(** value.h 1111, 1115-1125: [double], [unsigned int], [unsigned long (long)], [int],
    [long (long)], [bool].  [None] is undefined behaviour. *)
Definition or_double (v : value) (d : spec_float) : spec_float := if is_number v then value_dbl L F v else d.
Definition or_u32 (v : value) (d : Z) : option Z := if is_number v then option_map u32 (value_u64 L F v) else Some d.
Definition or_u64 (v : value) (d : Z) : option Z := if is_number v then value_u64 L F v else Some d.
Definition or_s32 (v : value) (d : Z) : option Z := if is_number v then option_map s32 (value_s64 L F v) else Some d.
Definition or_s64 (v : value) (d : Z) : option Z := if is_number v then value_s64 L F v else Some d.
Definition or_bool (v : value) (d : bool) : bool := match v with VBool b => b | _ => d end.
(** value.cpp 874-879: [String], [const char *]; value.h 1131, 1133: [std::string],
    [StrViewA]. *)
Definition or_text (E : serenv) (utf8 : bool) (v : value) (d : bytes) : option bytes :=
  if is_string v then to_string E utf8 v else Some d.
Definition or_view (v : value) (d : bytes) : bytes := if is_string v then get_string v else d.
(** value.h 1135, 1142: [Value]; the empty value of a type (value.cpp 22-33). *)
Definition type_rank (v : value) : Z :=
  match v with
  | VUndef => 0 | VNull => 1 | VBool _ => 2 | VNum _ => 3 | VStr _ _ => 4 | VArr _ => 5 | VObj _ _ => 6
  end.
Definition or_value (m d : member) : member := if type_rank (snd m) =? type_rank (snd d) then m else d.
End As.
