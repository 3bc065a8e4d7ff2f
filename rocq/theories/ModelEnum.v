(** Named enumerations: /repo/src/imtjson/namedEnum.h.  Enumeration values are
    integers. *)
From Verif Require Import Base ModelKeyed ModelStd.
Local Open Scope Z_scope.

(** 20-23, [Def]. *)
Definition edef := (Z * bytes)%type.

(** 53-54, the two tables. *)
Record nenum := mkNE { ne_byval : list edef; ne_byname : list edef }.

(** 56-62, [cmpByVal], [cmpByName]. *)
Definition cmp_by_val (a b : edef) : bool := fst a <? fst b.
Definition bytes_less (a b : bytes) : bool := match kcmp a b with Lt => true | _ => false end.
Definition cmp_by_name (a b : edef) : bool := bytes_less (snd a) (snd b).

(** 26-38, the constructor: [E] is what it can leave, given the table [defs]. *)
Definition ne_built (defs : list edef) (E : nenum) : Prop :=
  sort_result cmp_by_val defs (ne_byval E) /\ sort_result cmp_by_name defs (ne_byname E).

(** 92-107, [operator[](name)]: a value or [UnknownEnumException] with the name
    and the names of the table. *)
Inductive ne_lookup := Found (v : Z) | UnknownEnum (name : bytes) (names : list bytes).
Definition ne_value (E : nenum) (name : bytes) : res ne_lookup :=
  do i <- lower_bound (fun x => bytes_less (snd x) name) (ne_byname E);
  match nth_error (ne_byname E) i with
  | Some x => if beqb (snd x) name then Ok (Found (fst x)) else Ok (UnknownEnum name (map snd (ne_byname E)))
  | None => Ok (UnknownEnum name (map snd (ne_byname E)))
  end.

(** 109-121, [find]: [None] is the null pointer. *)
Definition ne_find (E : nenum) (name : bytes) : res (option Z) :=
  do i <- lower_bound (fun x => bytes_less (snd x) name) (ne_byname E);
  match nth_error (ne_byname E) i with
  | Some x => if beqb (snd x) name then Ok (Some (fst x)) else Ok None
  | None => Ok None
  end.

(** 123-130, [operator[](val)]: an unknown value has the empty name. *)
Definition ne_name (E : nenum) (v : Z) : res bytes :=
  do i <- lower_bound (fun x => fst x <? v) (ne_byval E);
  match nth_error (ne_byval E) i with
  | Some x => if fst x =? v then Ok (snd x) else Ok []
  | None => Ok []
  end.

(** 134-148, [allEnums]: the joined names are built in [res], which is then not
    what the function returns. *)
Fixpoint all_enums_loop (separator : bytes) (l : list edef) (r cursep : bytes) : bytes * bytes :=
  match l with
  | [] => (r, cursep)
  | x :: l' => all_enums_loop separator l' (r ++ cursep ++ snd x) separator
  end.
Definition all_enums (E : nenum) (separator : bytes) : bytes :=
  snd (all_enums_loop separator (ne_byname E) [] []).

(** namedEnum.cpp 22-38, the text of the exception, up to [c_str]. *)
Definition ne_what (name : bytes) (names : list bytes) : bytes :=
  (* "Unknown enum name '" *)
  [85;110;107;110;111;119;110;32;101;110;117;109;32;110;97;109;101;32;39] ++ name ++
  (* "'. The value is not on following list:" *)
  [39;46;32;84;104;101;32;118;97;108;117;101;32;105;115;32;110;111;116;32;111;110;32;102;111;108;108;111;119;105;110;103;32;108;105;115;116;58] ++
  (fix loop (l : list bytes) (sep : Z) : bytes :=
     match l with
     | [] => []
     | x :: l' => sep :: 39 :: x ++ 39 :: loop l' 44
     end) names 32.
