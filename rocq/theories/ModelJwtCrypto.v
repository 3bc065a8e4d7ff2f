(** Signing and verifying tokens: /repo/src/imtjson/jwtcrypto.h. *)
From Coq Require Import String.
From Verif Require Import Base ModelKeyed ModelValue ModelJwt ModelRpc.
Local Open Scope Z_scope.
Local Open Scope list_scope.

(** The functions of OpenSSL used, for one key: the first argument chooses the
    hash (256, 384, 512).  [os_rsa_size] is the length in bytes of a signature
    (RSA_size); [os_rsa_sign] is [None] when RSA_sign fails; [os_ec_sign] gives
    the two numbers of ECDSA_do_sign for each call, [None] when it fails. *)
Record ossl := mkOS {
  os_sha : Z -> bytes -> bytes;
  os_hmac : Z -> bytes -> bytes -> bytes;
  os_rsa_size : nat;
  os_rsa_sign : Z -> bytes -> option bytes;
  os_rsa_verify : Z -> bytes -> bytes -> bool;
  os_ec_sign : nat -> bytes -> option (Z * Z);
  os_ec_verify : bytes -> Z * Z -> bool
}.

(** What a signing function ends with; [Undefined] is undefined behaviour. Model only. *)
Inductive sign_out := Signed (b : bytes) | Refused | Undefined.

(** The names of the methods, [family] being "RS", "HS" or "ES".
    jwtcrypto.h 213-215 and the like. *)
Definition alg_name (family : bytes) (size : Z) : bytes :=
  family ++ (if size =? 384 then txt "384" else if size =? 512 then txt "512" else txt "256").
(** 174-181, 210-217, 251-258: [getPreferredMethod]. *)
Definition preferred_alg (family : bytes) (size : Z) (kid : bytes) : sign_method := (alg_name family size, kid).
(** The chain of comparisons with the three names: 185-187, 192-194 and so on. *)
Definition which_alg (family alg : bytes) : option Z :=
  if beqb alg (alg_name family 256) then Some 256
  else if beqb alg (alg_name family 384) then Some 384
  else if beqb alg (alg_name family 512) then Some 512
  else None.

(** *** HMAC *)
(** 71-100 and 219-233.  The buffer (1024 bytes) is longer than any HMAC. *)
Definition hs_sign (O : ossl) (key message : bytes) (m : sign_method) : sign_out :=
  match which_alg (txt "HS") (fst m) with
  | Some h => Signed (os_hmac O h key message)
  | None => Signed []
  end.
Definition hs_verify (O : ossl) (key message : bytes) (m : sign_method) (signature : bytes) : bool :=
  match which_alg (txt "HS") (fst m) with
  | Some h => beqb signature (os_hmac O h key message)
  | None => false
  end.

(** *** RSA *)
(** 50-70 and 184-189: the result of RSA_sign is not looked at; [junk] is what the
    buffer, which is not initialised, holds. *)
Definition rs_sign (O : ossl) (junk message : bytes) (m : sign_method) : sign_out :=
  match which_alg (txt "RS") (fst m) with
  | Some h =>
    if (1024 <? os_rsa_size O)%nat then Undefined
    else match os_rsa_sign O h (os_sha O h message) with Some b => Signed b | None => Signed junk end
  | None => Signed []
  end.
(** 35-49 and 191-196 *)
Definition rs_verify (O : ossl) (message : bytes) (m : sign_method) (signature : bytes) : bool :=
  match which_alg (txt "RS") (fst m) with
  | Some h => os_rsa_verify O h (os_sha O h message) signature
  | None => false
  end.

(** *** Elliptic curves *)
(** BN_bn2binpad into [len] bytes, and BN_bin2bn; both are big-endian. *)
Definition be (len : nat) (n : Z) : bytes := map (fun i => (n / 256 ^ Z.of_nat i) mod 256) (rev (seq 0 len)).
Definition be_num (b : bytes) : Z := fold_left (fun a c => a * 256 + c) b 0.
Definition be_fits (len : nat) (n : Z) : bool := n <? 256 ^ Z.of_nat len.
(** 105-113, [storeESSign].  For a number that does not fit BN_bn2binpad returns
    -1, which moves the pointer back: before the buffer for the first number
    ([None]), into the first number for the second. *)
Definition es_store (len : nat) (rs : Z * Z) : option bytes :=
  if be_fits len (fst rs) then
    if be_fits len (snd rs) then Some (be len (fst rs) ++ be len (snd rs)) else Some (firstn (len - 1) (be len (fst rs)))
  else None.
(** 115-124, [parseESSign]. *)
Definition es_parse (signature : bytes) : Z * Z :=
  let h := Nat.div (List.length signature) 2 in (be_num (firstn h signature), be_num (skipn h signature)).
(** 126-143 *)
Definition es_check (O : ossl) (h : Z) (message signature : bytes) : bool :=
  os_ec_verify O (os_sha O h message) (es_parse signature).
(** 260-271, [signAndCheck], with 144-166; [n] attempts are left, [i] were made.
    A failed ECDSA_do_sign gives a null pointer, which is used. *)
Fixpoint es_attempts (O : ossl) (h : Z) (message : bytes) (n i : nat) : sign_out :=
  match n with
  | O => Refused
  | S n' =>
    match os_ec_sign O i (os_sha O h message) with
    | None => Undefined
    | Some rs =>
      match es_store (Z.to_nat (h / 8)) rs with
      | None => Undefined
      | Some sig => if es_check O h message sig then Signed sig else es_attempts O h message n' (S i)
      end
    end
  end.
(** 273-285: the size of the key has to be the one of the method. *)
Definition es_alg (size : Z) (m : sign_method) : option Z :=
  match which_alg (txt "ES") (fst m) with
  | Some h => if size =? h then Some h else None
  | None => None
  end.
Definition es_sign (O : ossl) (size : Z) (message : bytes) (m : sign_method) : sign_out :=
  match es_alg size m with
  | Some h => es_attempts O h message 99 0
  | None => Signed []
  end.
Definition es_verify (O : ossl) (size : Z) (message : bytes) (m : sign_method) (signature : bytes) : bool :=
  match es_alg size m with
  | Some h => es_check O h message signature
  | None => false
  end.

(** *** As crypto objects of tokens *)
(** [None] stands for both outcomes without a signature.
    The classes of jwtcrypto.h as the crypto object of ModelJwt. *)
Definition signature_of (o : sign_out) : option bytes := match o with Signed b => Some b | _ => None end.
Definition hs_crypto (O : ossl) (key : bytes) (size : Z) : jcrypto :=
  mkJC (preferred_alg (txt "HS") size) (fun msg m => signature_of (hs_sign O key msg m)) (fun msg m s => Some (hs_verify O key msg m s)).
Definition rs_crypto (O : ossl) (junk : bytes) (size : Z) : jcrypto :=
  mkJC (preferred_alg (txt "RS") size) (fun msg m => signature_of (rs_sign O junk msg m)) (fun msg m s => Some (rs_verify O msg m s)).
Definition es_crypto (O : ossl) (size : Z) : jcrypto :=
  mkJC (preferred_alg (txt "ES") size) (fun msg m => signature_of (es_sign O size msg m)) (fun msg m s => Some (es_verify O size msg m s)).
