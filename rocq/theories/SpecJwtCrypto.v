(** What the properties of token signatures speak about. *)
From Coq Require Import String.
From Verif Require Import Base ModelValue ModelRpc ModelJwt ModelJwtCrypto.
Local Open Scope Z_scope.

(** The number a string of bytes spells, most significant byte first. *)
Fixpoint spells (b : bytes) : Z :=
  match b with
  | [] => 0
  | c :: b' => c * 256 ^ Z.of_nat (length b') + spells b'
  end.
(** JWA (RFC 7518, 3.4): a signature is the two numbers, each in [len] bytes. *)
Definition jwa_signature (len : nat) (rs : Z * Z) (b : bytes) : Prop :=
  exists x y, b = x ++ y /\ length x = len /\ length y = len /\ is_bytes b /\ spells x = fst rs /\ spells y = snd rs.

(** ECDSA with numbers below [2 ^ bits] that never fails. *)
Definition ecdsa_below (bits : Z) (O : ossl) : Prop :=
  forall i d, exists r s, os_ec_sign O i d = Some (r, s) /\ 0 <= r < 2 ^ bits /\ 0 <= s < 2 ^ bits.
(** What is signed is accepted. *)
Definition ecdsa_right (O : ossl) : Prop := forall i d rs, os_ec_sign O i d = Some rs -> os_ec_verify O d rs = true.
(** RSA that never fails, whose signatures fit [n] bytes and are accepted. *)
Definition rsa_right (n : nat) (O : ossl) : Prop :=
  (os_rsa_size O <= n)%nat /\
  forall h d, exists b, os_rsa_sign O h d = Some b /\ is_bytes b /\ os_rsa_verify O h d b = true.

(** The names of the methods. *)
Definition names (family : string) : list bytes :=
  [txt (String.append family "256"); txt (String.append family "384"); txt (String.append family "512")].
