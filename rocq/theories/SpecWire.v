(** The binary form, byte by byte: which byte strings denote which values,
    whoever wrote them.  Nothing here refers to the code. *)
From Verif Require Import Base ModelValue ModelObject SpecEnc.
Local Open Scope Z_scope.

(** A number, lowest byte first. *)
Definition little (s : bytes) : Z := fold_right (fun b n => b + 256 * n) 0 s.

(** The first byte of an item has its kind in the upper half.  The lower half is
    a number up to nine, or says how many bytes the number takes. *)
Definition k_binary := 1. Definition k_positive := 2. Definition k_negative := 3. Definition k_text := 4.
Definition k_object := 5. Definition k_array := 6. Definition k_key := 7.
Inductive sized (kind : Z) : Z -> bytes -> Prop :=
| SzSmall n : 0 <= n <= 9 -> sized kind n [16 * kind + n]
| SzLong c s : In (c, length s) [(10, 1%nat); (11, 2%nat); (12, 4%nat); (13, 8%nat)] -> is_bytes s ->
    sized kind (little s) (16 * kind + c :: s).

(** Texts.  Their number is how many bytes they have.  A first byte 0x80 to 0xBF
    stands for a digit of base64url in its six lower bits; the other characters
    are then the base64url form of what follows. *)
Inductive text (kind : Z) : bytes -> bytes -> Prop :=
| TPlain s hd : is_bytes s -> match s with c :: _ => ~ (128 <= c < 192) | [] => True end ->
    sized kind (Z.of_nat (length s)) hd -> text kind s (hd ++ s)
| TPacked k d p hd : 0 <= d < 64 -> is_bytes p -> length p = ((3 * k + 3) / 4)%nat ->
    sized kind (Z.of_nat (S k)) hd ->
    text kind (b64_digit true d :: firstn k (b64_text true false p)) (hd ++ 128 + d :: p).

(** IEEE 754 binary interchange format with [mb] bits of mantissa and [eb] bits
    of exponent: sign, exponent, mantissa.  Values are compared as multiples of
    2^-1074, the smallest positive double. *)
Definition ieee (mb eb : Z) (b : Z) (f : spec_float) : Prop :=
  exists (s : bool) E M, 0 <= E < 2 ^ eb /\ 0 <= M < 2 ^ mb /\
    b = (if s then 2 ^ (eb + mb) else 0) + E * 2 ^ mb + M /\
    match f with
    | S754_nan => E = 2 ^ eb - 1 /\ M <> 0
    | S754_infinity s' => s' = s /\ E = 2 ^ eb - 1 /\ M = 0
    | S754_zero s' => s' = s /\ E = 0 /\ M = 0
    | S754_finite s' m e =>
      s' = s /\ E < 2 ^ eb - 1 /\ valid_binary 53 1024 f = true /\
      Z.pos m * 2 ^ (e + 1074) =
        (if E =? 0 then M else 2 ^ mb + M) * 2 ^ (Z.max E 1 - (2 ^ (eb - 1) - 1) - mb + 1074)
    end.
Definition read_double (f : spec_float) : num := match f with S754_zero _ => NUInt 0 | _ => NDbl f end.

(** An item and its value.  [ks] are the keys written in full so far, the last
    one first.  [pe] is the encoding the reader gives to binary strings. *)
Section Format.
Variable pe : enc.
Inductive item : list bytes -> bytes * value -> bytes -> list bytes -> Prop :=
| INoKey ks v b ks' : body ks v b ks' -> item ks ([], v) b ks'
| IKey ks k v kb b ks' : text k_key k kb -> body (k :: ks) v b ks' -> item ks (k, v) (kb ++ b) ks'
| IBack ks k v d b ks' : (d < 128)%nat -> nth_error ks d = Some k -> body ks v b ks' ->
    item ks (k, v) (128 + Z.of_nat d :: b) ks'
with body : list bytes -> value -> bytes -> list bytes -> Prop :=
| BNull ks : body ks VNull [1] ks
| BUndef ks : body ks VUndef [2] ks
| BTrue ks : body ks (VBool true) [3] ks
| BFalse ks : body ks (VBool false) [4] ks
| BFloat ks s f : is_bytes s -> length s = 4%nat -> ieee 23 8 (little s) f -> body ks (VNum (read_double f)) (5 :: s) ks
| BDouble ks s f : is_bytes s -> length s = 8%nat -> ieee 52 11 (little s) f -> body ks (VNum (read_double f)) (6 :: s) ks
| BPositive ks n b : sized k_positive n b -> body ks (VNum (NUInt n)) b ks
| BNegative ks n b : sized k_negative n b -> n < 2 ^ 63 ->
    body ks (VNum (if n =? 0 then NUInt 0 else NInt (- n))) b ks
| BText ks s b : text k_text s b -> body ks (VStr None s) b ks
| BBinary ks s hd : is_bytes s -> sized k_binary (Z.of_nat (length s)) hd ->
    body ks (VStr (match s with [] => None | _ => Some pe end) s) (hd ++ s) ks
| BArray ks l hd b ks' : sized k_array (Z.of_nat (length l)) hd -> items ks l b ks' -> body ks (VArr l) (hd ++ b) ks'
| BObject ks l hd b ks' : sized k_object (Z.of_nat (length l)) hd -> items ks l b ks' -> body ks (VObj false l) (hd ++ b) ks'
| BDiff ks l hd b ks' : sized k_object (Z.of_nat (length l)) hd -> items ks l b ks' -> body ks (VObj true l) (15 :: hd ++ b) ks'
with items : list bytes -> list (bytes * value) -> bytes -> list bytes -> Prop :=
| ISnil ks : items ks [] [] ks
| IScons ks m l b b' ks1 ks' : item ks m b ks1 -> items ks1 l b' ks' -> items ks (m :: l) (b ++ b') ks'.
End Format.
