(** What rules mean, in terms of the verdict of the rules inside. *)
From Coq Require Import String Ascii.
From Verif Require Import Base ModelKeyed SpecKeyed ModelValue ModelObject ModelArray ModelEq ModelJwt ModelPath ModelRpc
  ModelNumView ModelValidator.
Local Open Scope Z_scope.
Local Open Scope list_scope.

(** A subject (a value with the key of its handle) against a rule, with variables:
    some evaluation, with whatever path, earlier rejections and emits, ends this
    way. *)
Definition ends (V : venv) (vars : list member) (m : member) (rule : value) (b : bool) : Prop :=
  exists fuel p s t, vs_vars s = vars /\ eval_rule V fuel p m rule s = VDone b t.
Definition accepts (V : venv) (vars : list member) (m : member) (rule : value) : Prop := ends V vars m rule true.
Definition rejects (V : venv) (vars : list member) (m : member) (rule : value) : Prop := ends V vars m rule false.
Definition decided (V : venv) (vars : list member) (m : member) (rule : value) : Prop :=
  accepts V vars m rule \/ rejects V vars m rule.

(** *** Lists of rules *)
(** The words a rule in brackets can start with. *)
Definition keywords : list bytes :=
  map txt ["minsize"; "maxsize"; "key"; "tostring"; "tonumber"; "prefix"; "suffix"; "split"; "explode";
           ">"; ">="; "<"; "<="; "all"; "^"; "datetime"; "not"; "!"; "setvar"; "usevar"; "emit"]%string.
(** A list that is none of the bracketed forms: neither empty, nor started by a
    keyword, the name of a variable, [] or [number]. *)
Definition plain_list (vars : list member) (m : member) (rules : list member) : Prop :=
  match rules with
  | [] => False
  | (_, VArr []) :: _ | (_, VArr [(_, VNum _)]) :: _ => False
  | (_, VStr _ w) :: _ =>
    ~ In w keywords /\ (w = txt "$this" -> snd m = VUndef) /\
    match binding w vars with Some v => v = VUndef | None => True end
  | _ => True
  end.
(** A rule that [all] takes as a rule and not as a comparison or a comment. *)
Definition plain_rule (r : value) : Prop :=
  match r with
  | VStr _ w => ~ In w (map txt [">"; ">="; "<"; "<="]%string) /\ forall w', w <> 35 :: w'
  | _ => True
  end.

(** The order the comparisons use, for values of one type: numbers by value (as
    integers when both are stored as signed, or both as unsigned integers,
    otherwise as doubles), strings by their characters, false before true. *)
Definition as_signed (n : num) : option Z := match n with NInt i | NPrec _ (PkInt i) => Some i | _ => None end.
Definition as_unsigned (n : num) : option Z := match n with NUInt i | NPrec _ (PkUInt i) => Some i | _ => None end.
Inductive value_less (L : libm) : value -> value -> Prop :=
| VL_int : forall a b i j, as_signed a = Some i -> as_signed b = Some j -> i < j -> value_less L (VNum a) (VNum b)
| VL_uint : forall a b i j, as_unsigned a = Some i -> as_unsigned b = Some j -> i < j -> value_less L (VNum a) (VNum b)
| VL_dbl : forall a b, (as_signed a = None \/ as_signed b = None) -> (as_unsigned a = None \/ as_unsigned b = None) ->
    SFltb (get_number L a) (get_number L b) = true -> value_less L (VNum a) (VNum b)
| VL_str : forall e s e' t, klt s t -> value_less L (VStr e s) (VStr e' t)
| VL_bool : value_less L (VBool false) (VBool true).

Definition one_type (v w : value) : Prop :=
  match v, w with
  | VUndef, VUndef | VNull, VNull | VBool _, VBool _ | VNum _, VNum _ | VStr _ _, VStr _ _
  | VArr _, VArr _ | VObj _ _, VObj _ _ => True
  | _, _ => False
  end.
(** A comparison with an operand; values of different types satisfy none. *)
Inductive satisfies (L : libm) (v q : value) : string -> Prop :=
| Sat_lt : one_type v q -> value_less L v q -> satisfies L v q "<"
| Sat_gt : one_type v q -> value_less L q v -> satisfies L v q ">"
| Sat_le : one_type v q -> ~ value_less L q v -> satisfies L v q "<="
| Sat_ge : one_type v q -> ~ value_less L v q -> satisfies L v q ">=".
(** The conditions of [all]: comments, comparisons with the operand that follows
    (undefined at the end of the list), rules. *)
Inductive all_hold (V : venv) (vars : list member) (m : member) : list member -> Prop :=
| AH_nil : all_hold V vars m []
| AH_comment : forall k e w rest, all_hold V vars m rest -> all_hold V vars m ((k, VStr e (35 :: w)) :: rest)
| AH_compare : forall k e op q rest, satisfies (v_L V) (snd m) (snd (get_var V vars m q)) op ->
    all_hold V vars m rest -> all_hold V vars m ((k, VStr e (txt op)) :: q :: rest)
| AH_compare_end : forall k e op, satisfies (v_L V) (snd m) VUndef op -> all_hold V vars m [(k, VStr e (txt op))]
| AH_rule : forall k r rest, plain_rule r -> accepts V vars m r -> all_hold V vars m rest -> all_hold V vars m ((k, r) :: rest).

(** *** Objects *)
(** A template key written with one percent sign more. *)
Definition unescape (k : bytes) : bytes :=
  if beqb k [37] then k else if forallb (Z.eqb 37) k then tl k else k.
Definition wild_key : bytes := [37].
Definition named (t : member) : Prop := fst t <> wild_key.
(** The names of a template in its order, those before the wildcard. *)
Fixpoint template_names (ts : list member) : list bytes :=
  match ts with
  | [] => []
  | t :: ts' => if beqb (fst t) wild_key then template_names ts' else unescape (fst t) :: template_names ts'
  end.
Fixpoint names_before_wild (ts : list member) : list bytes :=
  match ts with
  | [] => []
  | t :: ts' => if beqb (fst t) wild_key then [] else unescape (fst t) :: names_before_wild ts'
  end.
(** The member of a subject, undefined when there is none. *)
Definition subject_member (ss : list member) (k : bytes) : member :=
  match binding k ss with Some v => (k, v) | None => ([], VUndef) end.
Definition wild_rule (ts : list member) : value :=
  match binding wild_key ts with Some r => r | None => VUndef end.

Definition matches_template (V : venv) (vars : list member) (ss ts : list member) : Prop :=
  (forall t, In t ts -> named t -> accepts V vars (subject_member ss (unescape (fst t))) (snd t)) /\
  (forall x, In x ss -> ~ In (fst x) (template_names ts) -> accepts V vars x (wild_rule ts)).
(** Some key of the subject lies behind every name that stands before the
    wildcard. *)
Definition passes_wild (ss ts : list member) : Prop :=
  exists x, In x ss /\ forall n, In n (names_before_wild ts) -> klt n (fst x).

(** *** Lists of alternatives, sizes, items *)
(** The first rule that does not reject accepts. *)
Definition one_accepts (V : venv) (vars : list member) (m : member) (rules : list member) : Prop :=
  exists pre x post, rules = pre ++ x :: post /\
    Forall (fun y => rejects V vars m (snd y)) pre /\ accepts V vars m (snd x).

(** Characters of a string, items of an array or object; nothing else has a
    size. *)
Inductive has_size : value -> Z -> Prop :=
| HS_str : forall e s, has_size (VStr e s) (Z.of_nat (List.length s))
| HS_arr : forall l, has_size (VArr l) (Z.of_nat (List.length l))
| HS_obj : forall d l, has_size (VObj d l) (Z.of_nat (List.length l)).

(** The item of a list of members, undefined behind the end. *)
Definition item (l : list member) (i : nat) : member := nth i l ([], VUndef).
