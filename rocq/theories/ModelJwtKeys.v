(** Elliptic curve keys as text: /repo/src/imtjson/jwtcrypto.h 290-386.  The forms in PEM
    (387-401) are left to OpenSSL and not modelled. *)
From Coq Require Import String.
From Verif Require Import Base ModelKeyed ModelValue ModelEnc ModelJwt ModelRpc ModelJwtCrypto.
Local Open Scope Z_scope.
Local Open Scope list_scope.

(** The functions of OpenSSL used; a curve is given by its number.  [ek_read]:
    [o2i_ECPublicKey] into a new key; [ek_write]: [i2o_ECPublicKey], nothing when it
    fails; [ek_mul]: the key with this private number and the point [EC_POINT_mul] makes of
    it. *)
Record eckeys (K : Type) := mkEK {
  ek_read : Z -> bytes -> option K;
  ek_write : K -> bytes;
  ek_mul : Z -> Z -> option K
}.
Arguments ek_read {K}. Arguments ek_write {K}. Arguments ek_mul {K}.

(** What an import ends with; [KBad] is undefined behaviour. Model only. *)
Inductive kres (K : Type) := KKey (k : K) | KNull | KBad.
Arguments KKey {K}. Arguments KNull {K}. Arguments KBad {K}.

(** 296-303, [initKey]: NID_X9_62_prime256v1, NID_secp384r1, NID_secp521r1. *)
Definition init_key (size : Z) : option Z :=
  if size =? 256 then Some 415
  else if size =? 384 then Some 715
  else if size =? 512 then Some 716
  else None.

(** 312-331, [importPublicKey]; [o2i_ECPublicKey] refuses a null key. *)
Definition import_public {K} (O : eckeys K) (size : Z) (text : bytes) : kres K :=
  match b64url_binary text with
  | None => KNull
  | Some b =>
    match init_key size with
    | None => KNull
    | Some c => match ek_read O c b with Some k => KKey k | None => KNull end
    end
  end.

(** 334-351, [importPrivateKey] of bytes; [EC_KEY_get0_group] of a null key (340) is
    undefined behaviour.  The copies [EC_KEY_set_private_key] and [EC_KEY_set_public_key]
    make are not freed (347-348); the leak is not modelled. *)
Definition import_private_bytes {K} (O : eckeys K) (size : Z) (b : bytes) : kres K :=
  match init_key size with
  | None => KBad
  | Some c => match ek_mul O c (be_num b) with Some k => KKey k | None => KNull end
  end.
(** 353-361, of a text. *)
Definition import_private {K} (O : eckeys K) (size : Z) (text : bytes) : kres K :=
  match b64url_binary text with
  | None | Some [] => KNull
  | Some b => import_private_bytes O size b
  end.

(** 363-374, [exportPublicKey]. *)
Definition export_public {K} (O : eckeys K) (k : K) : bytes := concat (encode_chunks EncBase64Url (ek_write O k)).
