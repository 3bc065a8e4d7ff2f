(** A check that decides whether a definition is sound for given ranks. *)
From Coq Require Import String Ascii.
From Verif Require Import Base ModelKeyed SpecKeyed ModelValue ModelObject ModelArray ModelEq ModelJwt ModelString ModelPath ModelRpc
  ModelNumView ModelValidator SpecValidator SpecTerm.
Local Open Scope Z_scope.
Local Open Scope list_scope.

Definition one_of (l : list bytes) (w : bytes) : bool := existsb (beqb w) l.
Definition may_useb (c : nat * nat) (p : place) (d : nat * nat) : bool :=
  (fst d <? fst c)%nat ||
  ((fst d =? fst c)%nat && match p with Same => (snd d <? snd c)%nat | Smaller => true | Other => false end).
Section Check.
Variables (def : value) (rank : bytes -> nat * nat) (c : nat * nat).
Definition word_ok (p : place) (w : bytes) : bool :=
  match w with
  | [] => true
  | a :: _ =>
    if (a =? 39) || (a =? 35) then true
    else if a =? 91 then
      (1 <? List.length w)%nat && (last w 0 =? 93) && negb (List.length (wstr w) =? 3)%nat
        && negb ((nth 1 (wstr w) 0 =? 94) && (List.length (wstr w) =? 4)%nat)
    else if one_of builtin_words w then true
    else
      match value_member def w with
      | VUndef => false
      | r => beqb (get_string r) (txt "native") || may_useb c p (rank w)
      end
  end.
Fixpoint sound_check (p : place) (r : value) {struct r} : bool :=
  match r with
  | VStr _ w => word_ok p w
  | VObj _ l => (fix each (l : list member) : bool := match l with [] => true | x :: l' => sound_check (inner p) (snd x) && each l' end) l
  | VArr l =>
    let each := fix each (p : place) (l : list member) {struct l} : bool :=
      match l with [] => true | x :: l' => sound_check p (snd x) && each p l' end in
    let seq := fix seq (skip : bool) (l : list member) {struct l} : bool :=
      match l with
      | [] => true
      | x :: l' =>
        if skip then seq false l'
        else
          match snd x with
          | VStr _ w =>
            if one_of (map txt [">"; ">="; "<"; "<="]%string) w then seq true l'
            else if is_comment w then seq false l'
            else sound_check p (snd x) && seq false l'
          | _ => sound_check p (snd x) && seq false l'
          end
      end in
    match l with
    | [] => true
    | x :: args =>
      match snd x with
      | VArr [] => each (inner p) args
      | VArr [(_, VNum _)] => each (inner p) args
      | VStr _ w =>
        if one_of (map txt ["minsize"; "maxsize"; "datetime"]%string) w then true
        else if one_of (map txt ["key"; "tostring"; "tonumber"; "not"; "!"]%string) w then each p args
        else if one_of (map txt ["all"; "^"]%string) w then seq false args
        else if one_of (map txt [">"; ">="; "<"; "<="]%string) w then seq true args
        else if one_of (map txt ["prefix"; "suffix"; "setvar"; "emit"]%string) w then match args with _ :: rest => each p rest | [] => true end
        else if one_of (map txt ["split"; "explode"; "usevar"]%string) w then match args with _ :: rest => each Other rest | [] => true end
        else word_ok p w && each p args
      | _ => each p l
      end
    end
  | _ => true
  end.
End Check.
(** The check of a definition. *)
Definition check_definition (def : value) (rank : bytes -> nat * nat) : bool :=
  match def with
  | VObj _ l => forallb (fun x => sound_check def rank (rank (fst x)) Same (snd x)) l
  | _ => true
  end.
