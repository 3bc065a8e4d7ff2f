(** What the definition of definitions (validator.json) asks of a definition. *)
From Coq Require Import String.
From Verif Require Import Base ModelValue ModelEq ModelRpc.
Local Open Scope Z_scope.
Local Open Scope list_scope.

(** The names of rules it knows. *)
Definition own_names : list bytes :=
  map txt ["string"; "number"; "boolean"; "any"; "base64"; "base64url"; "hex"; "uppercase"; "lowercase"; "alpha"; "alnum";
           "digits"; "integer"; "null"; "optional"; "datetime"; "datetimez"; "date"; "time"; "timez"; "native"]%string.
(** A class which it lets pass: anything but a text, a text that stands for itself, a comment,
    one of the names. *)
Definition passes_class (v : value) : Prop :=
  match v with
  | VStr _ s => In s own_names \/ (exists t, s = 39 :: t) \/ exists t, s = 35 :: t
  | _ => True
  end.
(** A member of a definition; [==] is that of C09. *)
Definition passes_member (L : libm) (x : bytes * value) : Prop :=
  if beqb (fst x) (txt "_version") then snd x = VUndef \/ veq L (snd x) (VNum (NUInt 1)) = true else passes_class (snd x).
