(** What splitting and joining speak about. *)
From Verif Require Import Base ModelUtf8 ModelValue ModelText SpecEnc SpecUtf8.
Local Open Scope Z_scope.

(** The items with the separator between them. *)
Fixpoint intercalate (sep : bytes) (l : list bytes) : bytes :=
  match l with
  | [] => []
  | [x] => x
  | x :: l' => x ++ sep ++ intercalate sep l'
  end.

(** [what] stands in [s] at position [i]. *)
Definition occurs (what s : bytes) (i : nat) : Prop := exists a b, s = a ++ what ++ b /\ length a = i.

(** Splitting at the leftmost separators, at most [max] of them. *)
Definition split_parts (sep : bytes) (max : Z) (s : bytes) (parts : list bytes) : Prop :=
  parts <> [] /\
  intercalate sep parts = s /\
  Forall (fun p => forall i, (i < length p)%nat -> ~ occurs sep (p ++ sep) i) (removelast parts) /\
  Z.of_nat (length parts) <= max + 1 /\
  (Z.of_nat (length parts) = max + 1 \/ forall i, ~ occurs sep (last parts []) i).

(** The string form of a value: texts and precise numbers stand for
    themselves, binary values in the encoding they are tagged with, everything
    else as JSON. *)
Definition string_form (E : serenv) (utf8 : bool) (v : value) (t : bytes) : Prop :=
  match v with
  | VUndef => t = [60;117;110;100;101;102;105;110;101;100;62] (* <undefined> *)
  | VStr None s => t = s
  | VStr (Some EncBase64) s => t = b64_text false true s
  | VStr (Some EncBase64Url) s => t = b64_text true false s
  | VStr (Some EncUrl) s => percent s t
  | VStr (Some EncUtf8) s => t = utf8_encode s
  | VNum (NPrec x _) => t = x
  | _ => t = ser E utf8 v
  end.
