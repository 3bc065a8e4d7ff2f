(** What a handle stands for, and the handles the library makes. *)
From Verif Require Import Base ModelKeyed ModelValue ModelObject ModelEq SpecEq ModelEnc ModelIface.
Local Open Scope Z_scope.

(** The JSON value, without the key of the handle itself, classes and wrapped
    objects. *)
Fixpoint denote (o : obj) : value :=
  match o with
  | OUndef => VUndef
  | ONull => VNull
  | OBool b => VBool b
  | OZero => VNum (NUInt 0)
  | OUInt n => VNum (NUInt n)
  | OInt n => VNum (NInt n)
  | ODbl f => VNum (NDbl f)
  | OPrecUInt t n => VNum (NPrec t (PkUInt n))
  | OPrecInt t n => VNum (NPrec t (PkInt n))
  | OPrecDbl t _ => VNum (NPrec t PkDbl)
  | OEmptyStr => VStr None []
  | OStr e s => VStr e s
  | OSubStr s => VStr None s
  | OEmptyArr => VArr []
  | OArr l | OSubArr l => VArr (map (fun i => (o_name i, denote i)) l)
  | OEmptyObj => VObj false []
  | OObj d l => VObj d (map (fun i => (o_name i, denote i)) l)
  | OKey _ o | OWrap _ _ o => denote o
  end.

(** No key of a keyed handle: [unproxy] is called before (object.cpp 33, wrap.h 123). *)
Definition no_key (o : obj) : Prop := match o with OKey _ _ => False | _ => True end.
(** The objects the library makes: integers are of 64 bits, a number read from its text is right, keys and wraps
    are put on handles without a key. *)
Fixpoint made (L : libm) (o : obj) : Prop :=
  match o with
  | OUInt n | OPrecUInt _ n => 0 <= n < 2 ^ 64
  | OInt n | OPrecInt _ n => - 2 ^ 63 <= n < 2 ^ 63
  | OPrecDbl t (Read f) => f = lm_strtod L t
  | OArr l | OSubArr l | OObj _ l => fold_right (fun i P => made L i /\ P) True l
  | OKey _ o | OWrap _ _ o => no_key o /\ made L o
  | _ => True
  end.

(** A condition on all the wrapped objects inside. *)
Fixpoint wraps (P : obj -> Prop) (o : obj) : Prop :=
  match o with
  | OArr l | OSubArr l | OObj _ l => fold_right (fun i Q => wraps P i /\ Q) True l
  | OKey _ o => wraps P o
  | OWrap _ _ o => P o /\ wraps P o
  | _ => True
  end.
Definition not_binary (o : obj) : Prop := match denote o with VStr (Some _) _ => False | _ => True end.
Definition not_number (o : obj) : Prop := match denote o with VNum _ => False | _ => True end.

(** Numbers which [a->equal(b)] compares by their value: no number is wrapped inside of [b], or all integers
    are exact as doubles. *)
Definition matched (L : libm) (a b : obj) : Prop := wraps not_number b \/ (exact L (denote a) /\ exact L (denote b)).

(** A class tells more than the value: which objects are true. *)
Definition truth (v : value) (L : libm) : bool :=
  match v with
  | VUndef | VNull => false
  | VBool b => b
  | VNum n => negb (SFeqb (get_number L n) (S754_zero false))
  | VStr _ s => match s with [] => false | _ => true end
  | VArr l => match l with [] => false | _ => true end
  | VObj _ l => match l with [] => false | _ => true end
  end.
(** An empty string or container of a class for any contents, a zero of a class for
    any number, or a precise number whose text was not read. *)
Fixpoint odd (o : obj) : Prop :=
  match o with
  | OUInt n | OInt n => n = 0
  | ODbl f => SFeqb f (S754_zero false) = true
  | OPrecDbl _ (Junk _) => True
  | OStr _ s | OSubStr s => s = []
  | OArr l | OSubArr l | OObj _ l => l = []
  | OKey _ o | OWrap _ _ o => odd o
  | _ => False
  end.

(** Made whatever the mathematical library does. *)
Definition made_ok (o : obj) : Prop := forall L, made L o.
(** The encoding a decoded text is marked with (base64.cpp 128). *)
Definition decoded_as (e : enc) : enc := match e with EncBase64Url => EncBase64 | _ => e end.
