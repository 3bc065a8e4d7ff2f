(** The objects behind the handles: classes, virtual functions, keys and wrapped
    objects.  /repo/src/imtjson/ivalue.h, abstractValue.h/.cpp, basicValues.h/.cpp,
    stringValue.h/.cpp, arrayValue.cpp, objectValue.cpp, key.h/.cpp, wrap.h, binary.h/.cpp,
    value.cpp 141-156, 196-227, 276-290, 323-331, object.cpp 27-36. *)
From Verif Require Import Base ModelKeyed ModelValue ModelObject ModelEq ModelEnc.
Local Open Scope Z_scope.

(** The field [n] of a precise double (stringValue.h 92-93): not read from the text
    yet, with the contents the memory had; or read. *)
Inductive cell := Junk (f : spec_float) | Read (f : spec_float).

(** The classes which implement [IValue].  The static ones (basicValues.cpp 20-50)
    are apart.  [OUInt], [OInt] and [ODbl] are [NumberValueT] (basicValues.h 95) and [OPrec...] the precise numbers (stringValue.h 61); the long
    variants are the same as the others (LP64).  [OSubStr] and [OSubArr] are the views
    of string.cpp 164 and value.cpp 196, given by what they show; [OArr], [OObj] keep handles.  [OKey]
    are both classes of proxies (key.h 46, 62); [OWrap] is [ObjWrap] (wrap.h 19): the
    type and the identity of the object, and [pv]. *)
Inductive obj :=
| OUndef | ONull | OBool (b : bool)
| OZero
| OUInt (n : Z) | OInt (n : Z) | ODbl (f : spec_float)
| OPrecUInt (t : bytes) (n : Z) | OPrecInt (t : bytes) (n : Z) | OPrecDbl (t : bytes) (c : cell)
| OEmptyStr | OStr (e : option enc) (s : bytes) | OSubStr (s : bytes)
| OEmptyArr | OArr (l : list obj) | OSubArr (l : list obj)
| OEmptyObj | OObj (diff : bool) (l : list obj)
| OKey (key : bytes) (o : obj)
| OWrap (ty id : Z) (o : obj).

(** ivalue.h 15-33. *)
Inductive vtype := TNull | TBool | TNumber | TString | TArray | TObject | TUndef.
Definition rank (t : vtype) : Z :=
  match t with TNull => 0 | TBool => 1 | TNumber => 2 | TString => 3 | TArray => 4 | TObject => 5 | TUndef => 6 end.
Definition teqb (a b : vtype) : bool := rank a =? rank b.

(** [type()]: abstractValue.h 11, basicValues.h 11-83, key.h 22, wrap.h 25. *)
Fixpoint o_type (o : obj) : vtype :=
  match o with
  | OUndef => TUndef | ONull => TNull | OBool _ => TBool
  | OZero | OUInt _ | OInt _ | ODbl _ | OPrecUInt _ _ | OPrecInt _ _ | OPrecDbl _ _ => TNumber
  | OEmptyStr | OStr _ _ | OSubStr _ => TString
  | OEmptyArr | OArr _ | OSubArr _ => TArray
  | OEmptyObj | OObj _ _ => TObject
  | OKey _ o | OWrap _ _ o => o_type o
  end.

(** ivalue.h 70-126: the flags. *)
Record flags := mkFl { f_int : bool; f_uint : bool; f_proxy : bool; f_diff : bool; f_binary : bool; f_custom : bool; f_precise : bool }.
Definition no_flags : flags := mkFl false false false false false false false.
(** [flags()]: basicValues.h 103, basicValues.cpp 27, stringValue.cpp 125-176, stringValue.h 23,
    objectValue.h 35, key.h 23, wrap.h 26. *)
Fixpoint o_flags (o : obj) : flags :=
  match o with
  | OZero => mkFl true true false false false false false
  | OUInt _ => mkFl false true false false false false false
  | OInt _ => mkFl true false false false false false false
  | OPrecUInt _ _ => mkFl false true false false false false true
  | OPrecInt _ _ => mkFl true false false false false false true
  | OPrecDbl _ _ => mkFl false false false false false false true
  | OStr (Some _) _ => mkFl false false false false true false false
  | OObj d _ => mkFl false false false d false false false
  | OKey _ o => let f := o_flags o in mkFl (f_int f) (f_uint f) true (f_diff f) (f_binary f) (f_custom f) (f_precise f)
  | OWrap _ _ o => let f := o_flags o in mkFl (f_int f) (f_uint f) (f_proxy f) (f_diff f) (f_binary f) true (f_precise f)
  | _ => no_flags
  end.

(** [getMemberName()]: key.h 36, 50, 66, wrap.h 41, abstractValue.h 26. *)
Fixpoint o_name (o : obj) : bytes :=
  match o with OKey k _ => k | OWrap _ _ o => o_name o | _ => [] end.
(** [unproxy()]: key.h 37, wrap.h 43, abstractValue.h 28. *)
Fixpoint o_unproxy (o : obj) : obj := match o with OKey _ o => o_unproxy o | _ => o end.

(** [getBool()]: abstractValue.h 19 and the classes above; stringValue.cpp 215-217
    does not read the text. *)
Fixpoint o_bool (o : obj) : bool :=
  match o with
  | OBool b => b
  | OUInt _ | OInt _ | ODbl _ => true
  | OPrecUInt _ n | OPrecInt _ n => negb (n =? 0)
  | OPrecDbl _ (Junk f) | OPrecDbl _ (Read f) => negb (SFeqb f (S754_zero false))
  | OStr _ _ | OSubStr _ | OArr _ | OSubArr _ | OObj _ _ => true
  | OKey _ o | OWrap _ _ o => o_bool o
  | _ => false
  end.
(** [getString()]: abstractValue.h 20, stringValue.cpp 21-24, 219-222. *)
Fixpoint o_string (o : obj) : bytes :=
  match o with
  | OStr _ s | OSubStr s | OPrecUInt s _ | OPrecInt s _ | OPrecDbl s _ => s
  | OKey _ o | OWrap _ _ o => o_string o
  | _ => []
  end.

(** stringValue.cpp 113-119, [StringValue::getEncoding]; [None]: the object is
    taken for another class, which is undefined.  [Some None] is [directEncoding]. *)
Definition get_encoding (o : obj) : option (option enc) :=
  if teqb (o_type o) TString && f_binary (o_flags o) then
    match o with OStr e _ => Some e | _ => None end
  else Some None.

Section Numbers.
Variable L : libm.
(** [getNumber()] of numbers: basicValues.h 98, basicValues.cpp 22, stringValue.cpp 185-188. *)
Fixpoint o_dbl (o : obj) : spec_float :=
  match o with
  | OZero => S754_zero false
  | OUInt n | OInt n | OPrecUInt _ n | OPrecInt _ n => f_of_Z n
  | ODbl f => f
  | OPrecDbl t (Junk _) => lm_strtod L t
  | OPrecDbl _ (Read f) => f
  | OKey _ o | OWrap _ _ o => o_dbl o
  | _ => S754_zero false
  end.
(** [getUInt()] and [getInt()] of numbers kept as integers.
    basicValues.h 24-25, 58-59, 99-100, 136-137, abstractValue.h 14-15. *)
Fixpoint o_uint (o : obj) : Z :=
  match o with
  | OUInt n | OPrecUInt _ n => n
  | OInt n | OPrecInt _ n => n mod 2 ^ 64
  | OKey _ o | OWrap _ _ o => o_uint o
  | _ => 0
  end.
Fixpoint o_int (o : obj) : Z :=
  match o with
  | OUInt n | OPrecUInt _ n => s64 n
  | OInt n | OPrecInt _ n => n
  | OKey _ o | OWrap _ _ o => o_int o
  | _ => 0
  end.

(** [size()], [itemAtIndex()] as the list of items: arrayValue.cpp 11-20,
    objectValue.cpp 8-17, value.cpp 210-215. *)
Fixpoint o_items (o : obj) : list obj :=
  match o with
  | OArr l | OSubArr l | OObj _ l => l
  | OKey _ o | OWrap _ _ o => o_items o
  | _ => []
  end.
Definition o_item (o : obj) (n : nat) : obj := nth n (o_items o) OUndef.
(** [member()]: objectValue.cpp 27-51; the search is that of [ModelKeyed]. *)
Definition keyed (l : list obj) : list (bytes * obj) := map (fun i => (o_name i, i)) l.
Definition o_member (o : obj) (name : bytes) : obj :=
  match o_type o with
  | TObject => match find_member (keyed (o_items o)) name with Some (_, i) => i | None => OUndef end
  | _ => OUndef
  end.

(** [equal()].  basicValues.h 104-112: [dynamic_cast] on what [unproxy] gives finds
    the same class only; otherwise, and in the other classes of numbers, doubles
    are compared (basicValues.cpp 118-120).  A handle compared with itself in a
    container is equal without looking (basicValues.cpp 132, 144). *)
Definition abstract_num_equal (a b : obj) : bool := teqb (o_type b) TNumber && SFeqb (o_dbl a) (o_dbl b).
Inductive o_equal : obj -> obj -> bool -> Prop :=
| Q_undef : forall b, o_equal OUndef b false
| Q_null : forall b, o_equal ONull b (teqb (o_type b) TNull)
| Q_bool : forall x b, o_equal (OBool x) b (teqb (o_type b) TBool && Bool.eqb x (o_bool b))
| Q_zero : forall b, o_equal OZero b (abstract_num_equal OZero b)
| Q_uint : forall n b, o_equal (OUInt n) b match o_unproxy b with OUInt m => m =? n | _ => abstract_num_equal (OUInt n) b end
| Q_int : forall n b, o_equal (OInt n) b match o_unproxy b with OInt m => m =? n | _ => abstract_num_equal (OInt n) b end
| Q_dbl : forall f b, o_equal (ODbl f) b match o_unproxy b with ODbl g => SFeqb g f | _ => abstract_num_equal (ODbl f) b end
| Q_precu : forall t n b, o_equal (OPrecUInt t n) b (abstract_num_equal (OPrecUInt t n) b)
| Q_preci : forall t n b, o_equal (OPrecInt t n) b (abstract_num_equal (OPrecInt t n) b)
| Q_precd : forall t c b, o_equal (OPrecDbl t c) b (abstract_num_equal (OPrecDbl t c) b)
| Q_str : forall a b, match a with OEmptyStr | OStr _ _ | OSubStr _ => True | _ => False end ->
    o_equal a b (teqb (o_type b) TString && beqb (o_string a) (o_string b))
| Q_arr : forall a b r, match a with OEmptyArr | OArr _ | OSubArr _ => True | _ => False end ->
    items_equal (teqb (o_type b) TArray && Nat.eqb (length (o_items b)) (length (o_items a))) false (o_items a) (o_items b) r -> o_equal a b r
| Q_obj : forall a b r, match a with OEmptyObj | OObj _ _ => True | _ => False end ->
    items_equal (teqb (o_type b) TObject && Nat.eqb (length (o_items b)) (length (o_items a))) true (o_items a) (o_items b) r -> o_equal a b r
(** key.h 38 *)
| Q_key : forall k a b r, o_equal a (o_unproxy b) r -> o_equal (OKey k a) b r
(** wrap.h 45 *)
| Q_wrap : forall t i a b r, o_equal a b r -> o_equal (OWrap t i a) b r
(** the loops of basicValues.cpp 126-150; with names in objects *)
with items_equal : bool -> bool -> list obj -> list obj -> bool -> Prop :=
| I_no : forall k l m, items_equal false k l m false
| I_nil : forall k m, items_equal true k [] m true
| I_same : forall k x l m r, items_equal true k l m r -> items_equal true k (x :: l) (x :: m) r
| I_name : forall x y l m, o_name x <> o_name y -> items_equal true true (x :: l) (y :: m) false
| I_diff : forall k x y l m, (k = true -> o_name x = o_name y) -> o_equal x y false -> items_equal true k (x :: l) (y :: m) false
| I_next : forall k x y l m r, (k = true -> o_name x = o_name y) -> o_equal x y true -> items_equal true k l m r ->
    items_equal true k (x :: l) (y :: m) r.
(** value.cpp 323-326 *)
Definition o_op_eq (a b : obj) (r : bool) : Prop := (a = b /\ r = true) \/ o_equal b a r.

(** [compare()]: abstractValue.cpp 18-76; a wrapped object compares what it stands
    for (wrap.h 47). *)
Definition o_num_compare (a b : obj) : comparison :=
  let fa := o_flags a in let fb := o_flags b in
  if f_uint fa && f_uint fb then Z.compare (o_uint a) (o_uint b)
  else if (f_int fa || f_uint fa) && (f_int fb || f_uint fb) then Z.compare (o_int a) (o_int b)
  else f_compare (o_dbl a) (o_dbl b).
Definition o_scalar_compare (a b : obj) : comparison :=
  match o_type a with
  | TBool => if Bool.eqb (o_bool a) (o_bool b) then Eq else if o_bool a then Gt else Lt
  | TNumber => o_num_compare a b
  | TString => kcmp (o_string a) (o_string b)
  | _ => Eq
  end.
(** [this] is not a wrapped object. *)
Definition plain (o : obj) : Prop := match o with OWrap _ _ _ => False | _ => True end.
Inductive o_compare : obj -> obj -> comparison -> Prop :=
| C_wrap : forall t i a b c, o_compare a b c -> o_compare (OWrap t i a) b c
| C_type : forall a b, plain a -> o_type a <> o_type b -> o_compare a b (Z.compare (rank (o_type a)) (rank (o_type b)))
| C_scalar : forall a b, plain a -> o_type a = o_type b -> o_type a <> TArray -> o_type a <> TObject -> o_compare a b (o_scalar_compare a b)
| C_arr : forall a b c, plain a -> o_type a = TArray -> o_type b = TArray ->
    items_compare false (o_items a) (o_items b) c -> o_compare a b c
| C_obj : forall a b c, plain a -> o_type a = TObject -> o_type b = TObject ->
    items_compare true (o_items a) (o_items b) c -> o_compare a b c
with items_compare : bool -> list obj -> list obj -> comparison -> Prop :=
| J_nil : forall k, items_compare k [] [] Eq
| J_left : forall k y m, items_compare k [] (y :: m) Lt
| J_right : forall k x l, items_compare k (x :: l) [] Gt
| J_name : forall x y l m, kcmp (o_name x) (o_name y) <> Eq -> items_compare true (x :: l) (y :: m) (kcmp (o_name x) (o_name y))
| J_item : forall k x y l m c, (k = true -> kcmp (o_name x) (o_name y) = Eq) -> o_compare x y c -> c <> Eq ->
    items_compare k (x :: l) (y :: m) c
| J_next : forall k x y l m c, (k = true -> kcmp (o_name x) (o_name y) = Eq) -> o_compare x y Eq -> items_compare k l m c ->
    items_compare k (x :: l) (y :: m) c.

(** How serializer.h 76-190 and the other readers read a whole value: by [type], [flags]
    and the functions for the type, the encoding of a binary string from the
    object without key, the keys of items from [getMemberName].  A precise number is its
    text; the kind is kept from the flags. *)
Definition see_num (o : obj) : num :=
  let f := o_flags o in
  if f_precise f then
    NPrec (o_string o) (if f_uint f then PkUInt (o_uint o) else if f_int f then PkInt (o_int o) else PkDbl)
  else if f_uint f then NUInt (o_uint o) else if f_int f then NInt (o_int o) else NDbl (o_dbl o).
Inductive sees : obj -> value -> Prop :=
| S_undef : forall o, o_type o = TUndef -> sees o VUndef
| S_null : forall o, o_type o = TNull -> sees o VNull
| S_bool : forall o, o_type o = TBool -> sees o (VBool (o_bool o))
| S_num : forall o, o_type o = TNumber -> sees o (VNum (see_num o))
| S_str : forall o, o_type o = TString -> f_binary (o_flags o) = false -> sees o (VStr None (o_string o))
| S_bin : forall o e, o_type o = TString -> f_binary (o_flags o) = true -> get_encoding (o_unproxy o) = Some e ->
    sees o (VStr e (o_string o))
| S_arr : forall o l, o_type o = TArray -> sees_items (o_items o) l -> sees o (VArr l)
| S_obj : forall o l, o_type o = TObject -> sees_items (o_items o) l -> sees o (VObj (f_diff (o_flags o)) l)
with sees_items : list obj -> list (bytes * value) -> Prop :=
| S_nil : sees_items [] []
| S_cons : forall x r v l, sees x v -> sees_items r l -> sees_items (x :: r) ((o_name x, v) :: l).
End Numbers.

(** *** Keys and wrapped objects *)
(** object.cpp 27-36, [bindKeyToPValue]. *)
Definition bind_key (key : bytes) (o : obj) : obj :=
  match key with
  | [] => o_unproxy o
  | _ => if beqb key (o_name o) then o else OKey key (o_unproxy o)
  end.
(** wrap.h 122-125, [makeValue]. *)
Definition make_value (ty id : Z) (o : obj) : obj := OWrap ty id (o_unproxy o).
(** wrap.h 66-101, 138-140, [cast]; [caught ty t]: a pointer to an object of the type [t]
    is caught as a pointer to [ty] - the type or a base class.  [None]: [bad_cast], or
    null for pointers. *)
Definition o_cast (caught : Z -> Z -> bool) (ty : Z) (o : obj) : option Z :=
  match o_unproxy o with
  | OWrap t id _ => if ty =? t then Some id else if caught ty t then Some id else None
  | _ => None
  end.

(** *** Binary strings *)
(** binary.h 59: the handle is kept, with its key. *)
Record binary := mkBin { bin_data : bytes; bin_handle : obj }.
Definition binary_of (o : obj) : binary := mkBin (o_string o) o.
(** binary.cpp 14-16. *)
Definition binary_encoding (b : binary) : option (option enc) := get_encoding (bin_handle b).
(** binary.cpp 22-31 with value.cpp 349-351; [None] inside [decode_value] is an
    exception. *)
Definition str_obj (v : value) : obj :=
  match v with VStr None [] => OEmptyStr | VStr e s => OStr e s | _ => OUndef end.
Definition o_get_binary (e : enc) (o : obj) : option binary :=
  match o_string o with
  | [] => Some (binary_of OEmptyStr)
  | s =>
    if f_binary (o_flags o) then Some (binary_of o)
    else match decode_value e s with Some v => Some (binary_of (str_obj v)) | None => None end
  end.
(** value.cpp 353, 355: from bytes and from a [Binary]. *)
Definition of_bytes (data : bytes) (e : enc) : obj := OStr (Some e) data.
Definition of_binary (b : binary) : obj := bin_handle b.

(** *** Constructors of numbers *)
(** value.cpp 141-156, 276-290: zero is the shared one. *)
Definition of_uint (n : Z) : obj := if n =? 0 then OZero else OUInt n.
Definition of_int (n : Z) : obj := if n =? 0 then OZero else OInt n.
Definition of_dbl (f : spec_float) : obj := if SFeqb f (S754_zero false) then OZero else ODbl f.
