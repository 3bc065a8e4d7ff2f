(** What survives the binary form. *)
From Verif Require Import Base ModelValue ModelObject ModelBin.
Local Open Scope Z_scope.

(** Sizes must fit 64 bits, or 32 with [maintain32BitComp]. *)
Definition size_limit (F : bflags) : Z := if bf_32 F then 2 ^ 32 else 2 ^ 64.

(** Texts and keys: bytes, not starting inside a UTF-8 sequence. *)
Definition bin_text (F : bflags) (s : bytes) : Prop :=
  is_bytes s /\ Z.of_nat (length s) < size_limit F /\
  match s with c :: _ => ~ (128 <= c < 192) | [] => True end.

(** [m * 2^e] is a double nearest to the integer [n], half a unit of its last
    place away at most (both sides scaled by 2^52, as [e] may be negative). *)
Definition nearest_double (n : Z) (m : positive) (e : Z) : Prop :=
  2 ^ 52 <= Z.pos m < 2 ^ 53 /\ -52 <= e /\
  2 * Z.abs (n * 2 ^ 52 - Z.pos m * 2 ^ (e + 52)) <= 2 ^ (e + 52) /\
  (n <= 2 ^ 53 -> n * 2 ^ 52 = Z.pos m * 2 ^ (e + 52)).

(** Numbers in range; doubles are doubles. *)
Definition is_double (f : spec_float) : Prop := valid_binary 53 1024 f = true.
Definition bin_num (L : libm) (n : num) : Prop :=
  match n with
  | NUInt n | NPrec _ (PkUInt n) => 0 <= n < 2 ^ 64
  | NInt n | NPrec _ (PkInt n) => - 2 ^ 63 < n < 2 ^ 63
  | NDbl f => is_double f
  | NPrec t PkDbl => is_double (lm_strtod L t)
  end.

(** Values the binary form can carry. *)
Fixpoint bin_ok (L : libm) (F : bflags) (v : value) : Prop :=
  match v with
  | VUndef | VNull | VBool _ => True
  | VNum n => bin_num L n
  | VStr None s => bin_text F s
  | VStr (Some _) s => is_bytes s /\ Z.of_nat (length s) < size_limit F
  | VArr l | VObj _ l =>
    Z.of_nat (length l) < size_limit F /\
    (fix all (l : list (bytes * value)) : Prop :=
       match l with
       | [] => True
       | x :: l' => bin_text F (fst x) /\ bin_ok L F (snd x) /\ all l'
       end) l
  end.

(** How many members a value has at all levels. *)
Fixpoint members_in (v : value) : Z :=
  match v with
  | VArr l | VObj _ l => fold_right (fun x a => 1 + members_in (snd x) + a) 0 l
  | _ => 0
  end.

(** The value read back: numbers keep their value, a double zero and a
    non-negative [NInt] become unsigned, precise numbers lose their text; with
    [maintain32BitComp] an integer of 2^32 or more in magnitude becomes the
    nearest double of its magnitude.  Non-empty binary strings get the encoding
    [pe] of the parser.  The diff flag is lost. *)
Definition decoded_double (f : spec_float) : num :=
  match f with S754_zero _ => NUInt 0 | _ => NDbl f end.
Definition decoded_int (n : Z) : num := if n <? 0 then NInt n else NUInt n.
Definition decoded_num (L : libm) (F : bflags) (n : num) : num :=
  match n with
  | NUInt z | NInt z => if bf_32 F && (2 ^ 32 <=? Z.abs z) then NDbl (f_of_Z (Z.abs z)) else decoded_int z
  | NDbl f => decoded_double f
  | NPrec t PkDbl => decoded_double (lm_strtod L t)
  | NPrec _ (PkUInt z) | NPrec _ (PkInt z) => decoded_int z
  end.
Fixpoint decoded (L : libm) (F : bflags) (pe : enc) (v : value) : value :=
  match v with
  | VNum n => VNum (decoded_num L F n)
  | VStr (Some _) [] => VStr None []
  | VStr (Some _) s => VStr (Some pe) s
  | VArr l => VArr (map (fun x => (fst x, decoded L F pe (snd x))) l)
  | VObj _ l => VObj false (map (fun x => (fst x, decoded L F pe (snd x))) l)
  | v => v
  end.

(** Writer and reader in step: a reader in this state understands what a writer
    in that state produces. *)
Definition same_history (st : wstate) (p : pstate) : Prop :=
  ps_idx p = ws_next st - 256 /\ 256 <= ws_next st < 2 ^ 32 /\
  Z.of_nat (length (ps_hist p)) = Z.min (ps_idx p) 128 /\
  forall k, let id := key_id (ws_map st) k in
    id = 0 \/ (256 <= id < ws_next st /\
      (ws_next st - id <= 128 -> nth_error (ps_hist p) (Z.to_nat ((id - 256) mod 128)) = Some k)).

(** *** Sessions *)
(** What two sides do in turn: send a value from the serializer to the parser,
    preload a key on both sides, clear the keys on both sides. *)
Inductive bin_op := BSend (m : member) | BPreload (k : bytes) | BClear.

(** All that the serializer writes. *)
Fixpoint write_session (L : libm) (F : bflags) (ops : list bin_op) (st : wstate) : bytes * wstate :=
  match ops with
  | [] => ([], st)
  | BSend m :: ops' =>
    let '(b, st1) := write_item L F (fst m) (snd m) st in
    let '(b', st2) := write_session L F ops' st1 in (b ++ b', st2)
  | BPreload k :: ops' => write_session L F ops' (snd (preload_writer st k))
  | BClear :: ops' => write_session L F ops' (clear_writer st)
  end.
(** All that the parser reads. *)
Fixpoint read_session (J : nat -> bytes) (pe : option enc) (ops : list bin_op) (p : pstate) : res (list member * pstate) :=
  match ops with
  | [] => Ok ([], p)
  | BSend _ :: ops' =>
    do (m, p1) <- parse_item J pe (bin_fuel (ps_in p)) p;
    do (l, p2) <- read_session J pe ops' p1; Ok (m :: l, p2)
  | BPreload k :: ops' => read_session J pe ops' (preload_reader p k)
  | BClear :: ops' => read_session J pe ops' (clear_reader p)
  end.
Fixpoint sent (ops : list bin_op) : list member :=
  match ops with
  | [] => []
  | BSend m :: ops' => m :: sent ops'
  | _ :: ops' => sent ops'
  end.

(** Keys of a value at all levels. *)
Fixpoint keys_in (v : value) : list bytes :=
  match v with
  | VArr l | VObj _ l => flat_map (fun x => fst x :: keys_in (snd x)) l
  | _ => []
  end.
(** A key is preloaded only if it was not in use since the last clearing. *)
Fixpoint fresh_preloads (used : list bytes) (ops : list bin_op) : Prop :=
  match ops with
  | [] => True
  | BSend m :: ops' => fresh_preloads (fst m :: keys_in (snd m) ++ used) ops'
  | BPreload k :: ops' => ~ In k used /\ fresh_preloads (k :: used) ops'
  | BClear :: ops' => fresh_preloads [] ops'
  end.
(** Keys sent or preloaded. *)
Fixpoint session_keys (ops : list bin_op) : Z :=
  match ops with
  | [] => 0
  | BSend m :: ops' => 1 + members_in (snd m) + session_keys ops'
  | BPreload _ :: ops' => 1 + session_keys ops'
  | BClear :: ops' => session_keys ops'
  end.
