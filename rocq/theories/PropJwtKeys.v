(** C117: elliptic curve keys as text. *)
From Coq Require Import String.
From Verif Require Import Base ModelKeyed ModelValue ModelEnc SpecEnc ModelJwt ModelRpc ModelJwtCrypto SpecJwtCrypto ModelJwtKeys SpecJwtKeys ProofJwtKeys.
Local Open Scope Z_scope.
Local Open Scope list_scope.

(** An exported key is the base64url text of its point, and reads back as its public part. *)
Theorem C117_export : forall K (O : eckeys K) k, is_bytes (ek_write O k) -> key_text (ek_write O k) (export_public O k).
Proof. exact export_text. Qed.
Print Assumptions C117_export.
Theorem C117_round : forall K (O : eckeys K) size c k p, curve size c -> public_part O c k p ->
  import_public O size (export_public O k) = KKey p.
Proof. exact round. Qed.
Print Assumptions C117_round.

(** The text of any bytes is read as a point of the curve of the size; there is no key when
    OpenSSL refuses it or the size is none of the three. *)
Theorem C117_public : forall K (O : eckeys K) size b text, is_bytes b -> key_text b text ->
  (forall c, curve size c -> import_public O size text = match ek_read O c b with Some p => KKey p | None => KNull end) /\
  ((forall c, ~ curve size c) -> import_public O size text = KNull).
Proof. exact public_text. Qed.
Print Assumptions C117_public.

(** The text of a private key is read as the number its bytes spell; zeros in front change
    nothing; an empty text gives no key. *)
Theorem C117_private : forall K (O : eckeys K) size c b text, curve size c -> is_bytes b -> key_text b text -> b <> [] ->
  import_private O size text = match ek_mul O c (spells b) with Some k => KKey k | None => KNull end.
Proof. exact private_text. Qed.
Print Assumptions C117_private.
Theorem C117_zeros : forall K (O : eckeys K) size c n b text text', curve size c -> is_bytes b -> b <> [] ->
  key_text b text -> key_text (repeat 0 n ++ b) text' -> import_private O size text' = import_private O size text.
Proof. exact private_zeros. Qed.
Print Assumptions C117_zeros.
Theorem C117_empty : forall K (O : eckeys K) size, import_private O size [] = KNull.
Proof. exact private_none. Qed.
Print Assumptions C117_empty.

(** What a private key read from text exports is read back as its public part. *)
Theorem C117_pair : forall K (O : eckeys K) size c b text k p, curve size c -> is_bytes b -> key_text b text -> b <> [] ->
  ek_mul O c (spells b) = Some k -> public_part O c k p ->
  exists k', import_private O size text = KKey k' /\ import_public O size (export_public O k') = KKey p.
Proof. exact pair_round. Qed.
Print Assumptions C117_pair.

(** With any other size a private key is undefined behaviour, not a null key. *)
Theorem C117_size_refuted : exists text, forall K (O : eckeys K), import_private O 521 text = KBad /\ import_public O 521 text = KNull.
Proof. exists (txt "AQ"). intros K O. split; vm_compute; reflexivity. Qed.
Print Assumptions C117_size_refuted.
Theorem C117_sizes : forall K (O : eckeys K) size b text, (forall c, ~ curve size c) -> is_bytes b -> key_text b text -> b <> [] ->
  import_private O size text = KBad.
Proof. exact private_bad. Qed.
Print Assumptions C117_sizes.

(** A toy of OpenSSL whose keys are the curve, the point and maybe the private number. *)
Definition toy_keys : eckeys (Z * Z * option Z) := {|
  ek_read := fun c b => match b with [2; x] => Some (c, x, None) | _ => None end;
  ek_write := fun k => [2; snd (fst k)];
  ek_mul := fun c n => if 0 <? n then Some (c, (7 * n) mod 256, Some n) else None |}.
Example C117_case : export_public toy_keys (415, 255, None) = txt "Av8" /\
  import_public toy_keys 256 (txt "Av8") = KKey (415, 255, None) /\ import_public toy_keys 384 (txt "A_8") = KNull /\
  import_private toy_keys 512 (txt "AQI") = KKey (716, 14, Some 258) /\ import_private toy_keys 512 (txt "AAAAAQI") = KKey (716, 14, Some 258) /\
  import_private toy_keys 256 (txt "AAAA") = KNull.
Proof. vm_compute. repeat split. Qed.
Example C117_hyp : curve 384 715 /\ public_part toy_keys 715 (715, 14, Some 2) (715, 14, None) /\
  key_text [1; 2] (txt "AQI") /\ key_text (repeat 0 3 ++ [1; 2]) (txt "AAAAAQI") /\ spells [1; 2] = 258 /\ forall c, ~ curve 521 c.
Proof.
  split; [right; left; split; reflexivity|]. split; [split; [repeat constructor; discriminate|reflexivity]|].
  repeat (split; [reflexivity|]). intros c [[H _]|[[H _]|[H _]]]; discriminate.
Qed.
