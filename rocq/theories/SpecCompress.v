(** Specification for the compression of texts; only [reached] refers to the model. *)
From Verif Require Import Base ModelCompress.
Local Open Scope Z_scope.
Local Open Scope list_scope.

(** The masks the documentation of the constant allows. *)
Definition mask (ext : Z) : Prop := In ext [128; 192; 224; 240; 248; 252; 254; 255].

(** Texts of printable characters: a byte from 32 to 127, or a leading byte with
    as many further bytes as it asks for (UTF-8 and its form of five bytes). *)
Definition further (b : Z) : Prop := 128 <= b < 192.
Definition lead (a : Z) (n : nat) : Prop :=
  192 <= a < 224 /\ n = 1%nat \/ 224 <= a < 240 /\ n = 2%nat \/ 240 <= a < 248 /\ n = 3%nat \/ 248 <= a < 252 /\ n = 4%nat.
Inductive printable : bytes -> Prop :=
| pr_nil : printable []
| pr_plain : forall b t, 32 <= b < 128 -> printable t -> printable (b :: t)
| pr_seq : forall a bs t, lead a (length bs) -> Forall further bs -> printable t -> printable (a :: bs ++ t).

(** A byte no text of this kind goes on with. *)
Definition stray (b : Z) : Prop := 0 <= b < 32 \/ 128 <= b < 192 \/ 252 <= b < 256.

(** A state of the decompressor after some number of calls on some bytes. *)
Definition reached (ext : Z) (s : dstate) : Prop := exists n inp l rest, Forall is_byte inp /\ decompress_calls ext n d_init inp = COk (l, s, rest).

(** A state of a compressor given whole texts and reset, in any order. *)
Inductive used (ext : Z) : cstate -> Prop :=
| used_new : used ext c_init
| used_text : forall s t s' o, used ext s -> printable t -> compress_text ext t s = COk (s', o) -> used ext s'
| used_reset : forall s, used ext s -> used ext (c_reset s).
