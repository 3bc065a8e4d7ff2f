(** Definitions of the validator on which every validation ends. *)
From Coq Require Import String Ascii.
From Verif Require Import Base ModelKeyed SpecKeyed ModelValue ModelObject ModelArray ModelEq ModelJwt ModelString ModelPath ModelRpc
  ModelNumView ModelValidator SpecValidator.
Local Open Scope Z_scope.
Local Open Scope list_scope.

(** How much there is in a value to go through. *)
Fixpoint weight (v : value) : nat :=
  match v with
  | VArr l | VObj _ l => S ((fix sum (l : list (bytes * value)) : nat := match l with [] => O | x :: l' => (S (weight (snd x)) + sum l')%nat end) l)
  | _ => O
  end.

(** Words that are not names of classes. *)
Definition builtin_words : list bytes :=
  map txt ["string"; "number"; "boolean"; "any"; "null"; "optional"; "undefined"; "hex"; "base64"; "base64url"; "uppercase"; "lowercase";
           "alpha"; "alnum"; "datetime"; "datetimez"; "date"; "time"; "timez"; "digits"; "integer"; "unsigned"; "identifier"; "empty"; "nonempty";
           "object"; "array"]%string.
(** A set of characters whose description is not a single character. *)
Definition charset_word (w : bytes) : Prop :=
  exists c, w = 91 :: c ++ [93] /\ List.length (wstr w) <> 3%nat /\ (nth 1 (wstr w) 0 = 94 -> List.length (wstr w) <> 4%nat).
Definition builtin (w : bytes) : Prop :=
  w = [] \/ (exists t, w = 39 :: t) \/ (exists t, w = 35 :: t) \/ charset_word w \/ In w builtin_words.
Definition class_word (w : bytes) : Prop :=
  w <> [] /\ (forall t, w <> 39 :: t /\ w <> 35 :: t) /\ (forall t, w <> 91 :: t) /\ ~ In w builtin_words.

(** Where a rule stands in a class: evaluated on the subject of the class (or what
    is not larger), on something smaller, or on anything. *)
Inductive place := Same | Smaller | Other.
Definition inner (p : place) : place := match p with Other => Other | _ => Smaller end.
(** A class may use another one if the rank of that one, a pair of numbers, is
    less; on something smaller only the first number must not be greater; on
    anything the first number must be less. *)
Definition may_use (c : nat * nat) (p : place) (d : nat * nat) : Prop :=
  (fst d < fst c)%nat \/
  (fst d = fst c /\ match p with Same => (snd d < snd c)%nat | Smaller => True | Other => False end).

Section Sound.
Variables (def : value) (rank : bytes -> nat * nat) (c : nat * nat).

Inductive sound : place -> value -> Prop :=
| So_undef : forall p, sound p VUndef
| So_null : forall p, sound p VNull
| So_bool : forall p b, sound p (VBool b)
| So_num : forall p n, sound p (VNum n)
| So_word : forall p e w, builtin w -> sound p (VStr e w)
| So_native : forall p e w, class_word w -> get_string (value_member def w) = txt "native" -> sound p (VStr e w)
| So_class : forall p e w, class_word w -> value_member def w <> VUndef -> may_use c p (rank w) -> sound p (VStr e w)
| So_object : forall p d l, (forall x, In x l -> sound (inner p) (snd x)) -> sound p (VObj d l)
| So_empty : forall p, sound p (VArr [])
| So_items : forall p k rules, (forall x, In x rules -> sound (inner p) (snd x)) -> sound p (VArr ((k, VArr []) :: rules))
| So_tuple : forall p k k' n rules, (forall x, In x rules -> sound (inner p) (snd x)) ->
    sound p (VArr ((k, VArr [(k', VNum n)]) :: rules))
| So_free : forall p k e w args, In w (map txt ["minsize"; "maxsize"; "datetime"]%string) -> sound p (VArr ((k, VStr e w) :: args))
| So_list : forall p k e w args, In w (map txt ["key"; "tostring"; "tonumber"; "not"; "!"]%string) ->
    (forall x, In x args -> sound p (snd x)) -> sound p (VArr ((k, VStr e w) :: args))
| So_all : forall p k e w args, In w (map txt ["all"; "^"]%string) -> sound_all p args -> sound p (VArr ((k, VStr e w) :: args))
| So_compare : forall p k e w args, In w (map txt [">"; ">="; "<"; "<="]%string) -> sound_all p ((k, VStr e w) :: args) ->
    sound p (VArr ((k, VStr e w) :: args))
| So_first : forall p k e w args, In w (map txt ["prefix"; "suffix"; "setvar"]%string) ->
    (forall x, In x (skipn 1 args) -> sound p (snd x)) -> sound p (VArr ((k, VStr e w) :: args))
| So_emit : forall p k e args, (forall x, In x (skipn 1 args) -> sound p (snd x)) -> sound p (VArr ((k, VStr e (txt "emit")) :: args))
| So_other : forall p k e w args, In w (map txt ["split"; "explode"; "usevar"]%string) ->
    (forall x, In x (skipn 1 args) -> sound Other (snd x)) -> sound p (VArr ((k, VStr e w) :: args))
| So_plain : forall p args,
    match args with
    | [] | (_, VArr []) :: _ | (_, VArr [(_, VNum _)]) :: _ => False
    | (_, VStr _ w) :: _ => ~ In w keywords
    | _ => True
    end -> (forall x, In x args -> sound p (snd x)) -> sound p (VArr args)
with sound_all : place -> list member -> Prop :=
| SA_nil : forall p, sound_all p []
| SA_comment : forall p k e w args, sound_all p args -> sound_all p ((k, VStr e (35 :: w)) :: args)
| SA_compare : forall p k e w x args, In w (map txt [">"; ">="; "<"; "<="]%string) -> sound_all p args -> sound_all p ((k, VStr e w) :: x :: args)
| SA_last : forall p k e w, In w (map txt [">"; ">="; "<"; "<="]%string) -> sound_all p [(k, VStr e w)]
| SA_rule : forall p x args, plain_rule (snd x) -> sound p (snd x) -> sound_all p args -> sound_all p (x :: args).
End Sound.

(** Every class is sound for its rank. *)
Definition sound_definition (def : value) (rank : bytes -> nat * nat) : Prop :=
  forall w, sound def rank (rank w) Same (value_member def w).
