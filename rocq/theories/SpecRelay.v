(** Values taken from binary documents of any origin. *)
From Verif Require Import Base ModelValue ModelObject ModelBin SpecBin.
Local Open Scope Z_scope.

(** A text or a key: bytes, not starting inside a UTF-8 sequence. *)
Definition received_text (s : bytes) : Prop :=
  is_bytes s /\ Z.of_nat (length s) < 2 ^ 64 /\ match s with c :: _ => ~ (128 <= c < 192) | [] => True end.

(** Numbers.  2^63 is not an [Int]: it stands for what the negation of the smallest one gives. *)
Definition received_num (n : num) : Prop :=
  match n with
  | NUInt z => 0 <= z < 2 ^ 64
  | NInt z => z <> 0 /\ - 2 ^ 63 < z <= 2 ^ 63
  | NDbl f => is_double f /\ forall s, f <> S754_zero s
  | NPrec _ _ => False
  end.

(** What a parser whose binary strings have the encoding [pe] can give. *)
Fixpoint received (pe : enc) (v : value) : Prop :=
  match v with
  | VUndef | VNull | VBool _ => True
  | VNum n => received_num n
  | VStr None s => received_text s
  | VStr (Some e) s => e = pe /\ s <> [] /\ is_bytes s /\ Z.of_nat (length s) < 2 ^ 64
  | VArr l | VObj _ l =>
    Z.of_nat (length l) < 2 ^ 64 /\
    (fix all (l : list (bytes * value)) : Prop :=
       match l with
       | [] => True
       | x :: l' => received_text (fst x) /\ received pe (snd x) /\ all l'
       end) l
  end.

(** The negation did not overflow anywhere. *)
Fixpoint no_overflow (v : value) : Prop :=
  match v with
  | VNum (NInt z) => z <> 2 ^ 63
  | VArr l | VObj _ l =>
    (fix all (l : list (bytes * value)) : Prop :=
       match l with
       | [] => True
       | x :: l' => no_overflow (snd x) /\ all l'
       end) l
  | _ => True
  end.

(** A value sent on to a parser with the encoding [pe]: the diff marks are gone, binary strings
    have the encoding of that parser, a positive [Int] has become unsigned. *)
Definition relayed_num (n : num) : num := match n with NInt z => if z <? 0 then NInt z else NUInt z | n => n end.
Fixpoint relayed (pe : enc) (v : value) : value :=
  match v with
  | VNum n => VNum (relayed_num n)
  | VStr (Some _) s => VStr (Some pe) s
  | VArr l => VArr (map (fun x => (fst x, relayed pe (snd x))) l)
  | VObj _ l => VObj false (map (fun x => (fst x, relayed pe (snd x))) l)
  | v => v
  end.

(** The keys given to the parser in advance. *)
Fixpoint preloaded (ops : list bin_op) : list bytes :=
  match ops with
  | [] => []
  | BPreload k :: ops' => k :: preloaded ops'
  | _ :: ops' => preloaded ops'
  end.
