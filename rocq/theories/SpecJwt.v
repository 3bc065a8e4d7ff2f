(** Tokens, time limits, cache histories. *)
From Verif Require Import Base ModelKeyed ModelValue ModelObject ModelJwt.
Local Open Scope Z_scope.

Definition no_dot (s : bytes) : Prop := ~ In 46 s.

(** The three parts of a token and the text that is signed.  Missing parts are
    empty; what follows a third dot is ignored. *)
Inductive jwt_parts : bytes -> bytes -> bytes -> bytes -> bytes -> Prop :=
| jp_three : forall h b s rest, no_dot h -> no_dot b -> no_dot s -> (rest = [] \/ exists r, rest = 46 :: r) ->
    jwt_parts (h ++ 46 :: b ++ 46 :: s ++ rest) h b s (h ++ 46 :: b)
| jp_two : forall h b, no_dot h -> no_dot b -> jwt_parts (h ++ 46 :: b) h b [] (h ++ 46 :: b)
| jp_one : forall h, no_dot h -> jwt_parts h h [] [] h.

(** The value of a number as [m * 2 ^ e]. *)
Definition dyadic (f : spec_float) : option (Z * Z) :=
  match f with
  | S754_zero _ => Some (0, 0)
  | S754_finite s m e => Some (if s then Z.neg m else Z.pos m, e)
  | _ => None
  end.
Definition num_dyadic (L : libm) (n : num) : option (Z * Z) :=
  match n with
  | NUInt z | NInt z | NPrec _ (PkUInt z) | NPrec _ (PkInt z) => Some (z, 0)
  | NDbl f => dyadic f
  | NPrec t PkDbl => dyadic (lm_strtod L t)
  end.
(** [z <= m * 2 ^ e], [m * 2 ^ e < z]. *)
Definition int_le (z : Z) (d : Z * Z) : Prop := z * 2 ^ Z.max 0 (- snd d) <= fst d * 2 ^ Z.max 0 (snd d).
Definition dyadic_lt (d : Z * Z) (z : Z) : Prop := fst d * 2 ^ Z.max 0 (snd d) < z * 2 ^ Z.max 0 (- snd d).

(** A limit the library can represent: finite, from 0 below 2^64. *)
Definition limit_ok (L : libm) (v : value) : Prop :=
  match v with
  | VNum n => exists d, num_dyadic L n = Some d /\ int_le 0 d /\ dyadic_lt d (2 ^ 64)
  | _ => True
  end.
(** The second [t] is not after / not before a limit; a limit that is not a
    number is none.  A fractional beginning counts from its second. *)
Definition not_after (L : libm) (t : Z) (v : value) : Prop :=
  match v with VNum n => exists d, num_dyadic L n = Some d /\ int_le t d | _ => True end.
Definition not_before (L : libm) (t : Z) (v : value) : Prop :=
  match v with VNum n => exists d, num_dyadic L n = Some d /\ dyadic_lt d (t + 1) | _ => True end.

(** *** Cache *)
(** [v] was stored for [t] after the last clear. *)
Definition stored (ops : list cop) (t : bytes) (v : value) : Prop :=
  exists a j b, ops = a ++ CStore j t v :: b /\ ~ In CClear b.
(** The tokens stored by a history. *)
Definition tokens (ops : list cop) : list bytes :=
  concat (map (fun o => match o with CStore _ t _ => [t] | CClear => [] end) ops).
(** How many distinct tokens other than [t] are in [l]. *)
Definition others (t : bytes) (l : list bytes) : Z :=
  Z.of_nat (length (nodup bytes_eq_dec (filter (fun x => negb (beqb x t)) l))).
