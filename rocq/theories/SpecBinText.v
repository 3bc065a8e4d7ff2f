(** Specification for C105: binary strings in JSON text. *)
From Verif Require Import Base SpecUtf8 ModelValue ModelEnc.
Local Open Scope Z_scope.

(** The bytes of a binary string which arrive when it is written with the UTF-8
    encoding, [p] bytes of text having been written before: a byte from 128 on
    takes two bytes of text and is lost when the first of them is the last of a
    block of 256. *)
Fixpoint kept (p : Z) (s : bytes) : bytes :=
  match s with
  | [] => []
  | c :: r => if c <? 128 then c :: kept (p + 1) r
              else if p mod 256 =? 255 then kept (p + 2) r else c :: kept (p + 2) r
  end.
Definition carried (e : enc) (s : bytes) : bytes := match e with EncUtf8 => kept 0 s | _ => s end.

(** No byte from 128 on begins at the end of a block. *)
Definition unbroken (s : bytes) : Prop :=
  forall a c b, s = a ++ c :: b -> 128 <= c -> Z.of_nat (length (utf8_encode a)) mod 256 <> 255.

(** The value with its binary strings replaced by plain strings, the texts of
    the bytes which arrive. *)
Fixpoint as_text (v : value) : value :=
  match v with
  | VStr (Some e) s => VStr None (concat (encode_chunks e (carried e s)))
  | VArr l => VArr (map (fun m => (fst m, as_text (snd m))) l)
  | VObj d l => VObj d (map (fun m => (fst m, as_text (snd m))) l)
  | _ => v
  end.

(** The binary strings inside the value consist of bytes. *)
Inductive bin_bytes : value -> Prop :=
| bb_bin : forall e s, is_bytes s -> bin_bytes (VStr (Some e) s)
| bb_str : forall s, bin_bytes (VStr None s)
| bb_arr : forall l, Forall (fun m => bin_bytes (snd m)) l -> bin_bytes (VArr l)
| bb_obj : forall d l, Forall (fun m => bin_bytes (snd m)) l -> bin_bytes (VObj d l)
| bb_other : forall v, match v with VStr _ _ | VArr _ | VObj _ _ => False | _ => True end -> bin_bytes v.
