(** What survives a conversion to a value and back. *)
From Verif Require Import Base ModelKeyed ModelValue ModelConv SpecText.
Local Open Scope Z_scope.

(** The contents of the C++ types; minus zero becomes zero. *)
Fixpoint fits (t : cty) : cden t -> Prop :=
  match t with
  | CStr | CBool | CValue => fun _ => True
  | CUInt => fun n => 0 <= n < 2 ^ 64
  | CInt => fun n => - 2 ^ 63 <= n < 2 ^ 63
  | CDouble => fun f => f <> S754_zero true
  | CVec t => fun l => Forall (fits t) l
  end.

(** The contents which survive the text too: no doubles, valid strings other than the
    names of infinities. *)
Fixpoint fits_text (utf8 : bool) (t : cty) : cden t -> Prop :=
  match t with
  | CStr => fun s => text_ok utf8 s /\ s <> word_inf /\ s <> word_neg_inf
  | CBool => fun _ => True
  | CUInt => fun n => 0 <= n < 2 ^ 64
  | CInt => fun n => - 2 ^ 63 < n < 2 ^ 63
  | CDouble | CValue => fun _ => False
  | CVec t => fun l => Forall (fits_text utf8 t) l
  end.

(** Values of the same JSON type. *)
Definition same_kind (a b : value) : Prop :=
  match a, b with
  | VUndef, VUndef | VNull, VNull | VBool _, VBool _ | VNum _, VNum _ | VStr _ _, VStr _ _
  | VArr _, VArr _ | VObj _ _, VObj _ _ => True
  | _, _ => False
  end.
