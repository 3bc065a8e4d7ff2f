(** What the property of keys as text speaks about. *)
From Coq Require Import String.
From Verif Require Import Base ModelValue ModelEnc SpecEnc ModelJwtCrypto SpecJwtCrypto ModelJwtKeys.
Local Open Scope Z_scope.

(** The curves of the three sizes: P-256, P-384 and P-521, by their numbers in OpenSSL. *)
Definition curve (size c : Z) : Prop := (size = 256 /\ c = 415) \/ (size = 384 /\ c = 715) \/ (size = 512 /\ c = 716).
(** A key on the curve whose public point reads back as the key [p]. *)
Definition public_part {K} (O : eckeys K) (c : Z) (k p : K) : Prop :=
  is_bytes (ek_write O k) /\ ek_read O c (ek_write O k) = Some p.
(** The text of bytes: base64url, no padding. *)
Definition key_text (b text : bytes) : Prop := text = b64_text true false b.
