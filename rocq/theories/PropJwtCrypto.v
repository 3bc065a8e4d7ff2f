(** C83, C84: signatures of tokens. *)
From Coq Require Import String.
From Verif Require Import Base ModelKeyed ModelValue ModelText SpecText ModelObject ModelEnc ModelJwt SpecJwt ModelRpc ModelJwtCrypto SpecJwtCrypto ProofJwtCrypto PropJwt.
Local Open Scope Z_scope.
Local Open Scope list_scope.

(** *** C83 *)
(** A pair of numbers that fit is stored as JWA says, in no other way, and read back. *)
Theorem C83_stored : forall len rs, 0 <= fst rs < 256 ^ Z.of_nat len -> 0 <= snd rs < 256 ^ Z.of_nat len ->
  exists b, es_store len rs = Some b /\ jwa_signature len rs b.
Proof. exact store_jwa. Qed.
Print Assumptions C83_stored.
Theorem C83_unique : forall len rs b, jwa_signature len rs b -> es_store len rs = Some b /\ es_parse b = rs.
Proof. intros len rs b H. split; [exact (jwa_unique len rs b H)|exact (parse_jwa len rs b H)]. Qed.
Print Assumptions C83_unique.

(** With numbers of the size of the key (all methods of the curves P-256 and
    P-384) signing is defined: it gives the JWA signature of the first pair, of
    at most 99 made, that OpenSSL itself accepts, or throws when none is. *)
Theorem C83_sign : forall O size msg m, es_alg size m = Some size -> ecdsa_below size O ->
  match es_sign O size msg m with
  | Signed b => exists j rs, (j < 99)%nat /\ os_ec_sign O j (os_sha O size msg) = Some rs /\ jwa_signature (Z.to_nat (size / 8)) rs b /\
      os_ec_verify O (os_sha O size msg) rs = true
  | Refused => forall j rs, (j < 99)%nat -> os_ec_sign O j (os_sha O size msg) = Some rs -> os_ec_verify O (os_sha O size msg) rs = false
  | Undefined => False
  end.
Proof. exact es_sign_defined. Qed.
Print Assumptions C83_sign.
Theorem C83_first : forall O size msg m, es_alg size m = Some size -> ecdsa_below size O -> ecdsa_right O ->
  exists b rs, es_sign O size msg m = Signed b /\ os_ec_sign O 0 (os_sha O size msg) = Some rs /\ jwa_signature (Z.to_nat (size / 8)) rs b.
Proof. exact es_sign_right. Qed.
Print Assumptions C83_first.

(** A signature the object gives for a method it knows is one it accepts. *)
Theorem C83_sound : forall O size msg m b, es_sign O size msg m = Signed b -> b = [] /\ es_alg size m = None \/ es_verify O size msg m b = true.
Proof. exact es_sign_sound. Qed.
Print Assumptions C83_sound.

(** Another method than the one of the size of the key: the signature is empty and
    nothing is accepted. *)
Theorem C83_wrong_method : forall O size msg m sg, (In size [256; 384; 512] -> fst m <> alg_name (txt "ES") size) ->
  es_sign O size msg m = Signed [] /\ es_verify O size msg m sg = false.
Proof. exact es_wrong. Qed.
Print Assumptions C83_wrong_method.

(** The numbers of ES512 belong to the curve P-521.  One that needs more than 512
    bits is written before the start of the buffer. *)
Theorem C83_es512 : forall O msg m r s, es_alg 512 m = Some 512 -> os_ec_sign O 0 (os_sha O 512 msg) = Some (r, s) -> 2 ^ 512 <= r ->
  es_sign O 512 msg m = Undefined.
Proof. exact es512_overrun. Qed.
Print Assumptions C83_es512.

(** A small stand-in for OpenSSL, which accepts exactly the pair it signs with. *)
Definition ex_ec (r s : Z) : ossl :=
  mkOS (fun h m => [h mod 256; Z.of_nat (List.length m)]) (fun h k m => [h mod 256; Z.of_nat (List.length k); Z.of_nat (List.length m)]) 128
       (fun h d => Some (42 :: d)) (fun h d sg => match sg with 42 :: d' => beqb d d' | _ => false end)
       (fun _ d => Some (r, s)) (fun d rs => (fst rs =? r) && (snd rs =? s)).
Definition es_method (size : Z) : sign_method := (alg_name (txt "ES") size, []).

Theorem C83_es512_refuted : exists O msg, ecdsa_below 521 O /\ ecdsa_right O /\ es_sign O 512 msg (es_method 512) = Undefined.
Proof.
  exists (ex_ec (2 ^ 520) 7), [1]. split; [|split; [|vm_compute; reflexivity]].
  - intros i d. exists (2 ^ 520), 7. split; [reflexivity|]. split; split; try (vm_compute; reflexivity); vm_compute; discriminate.
  - intros i d rs H. injection H as <-. vm_compute. reflexivity.
Qed.
Print Assumptions C83_es512_refuted.

(** A signature is not the only one for its numbers: longer and odd ones are accepted. *)
Theorem C83_one_signature_refuted : exists O msg a b c, a <> b /\ List.length c = 65%nat /\
  es_sign O 256 msg (es_method 256) = Signed a /\ es_verify O 256 msg (es_method 256) b = true /\ es_verify O 256 msg (es_method 256) c = true.
Proof.
  exists (ex_ec 77 300), [1], (be 32 77 ++ be 32 300), (be 33 77 ++ be 33 300), (be 32 77 ++ be 33 300).
  split; [vm_compute; discriminate|]. split; [reflexivity|]. split; [vm_compute; reflexivity|]. split; vm_compute; reflexivity.
Qed.
Print Assumptions C83_one_signature_refuted.

(** An object made with another size prefers a method it does not sign with. *)
Theorem C83_preferred_refuted : exists O size msg kid, es_sign O size msg (preferred_alg (txt "ES") size kid) = Signed [] /\
  es_verify O size msg (preferred_alg (txt "ES") size kid) [] = false.
Proof. exists (ex_ec 1 1), 521, [1], []. split; reflexivity. Qed.
Print Assumptions C83_preferred_refuted.

(** Tokens made with such an object are accepted by it. *)
Theorem C83_token : forall L E F utf8 O size payload kid token, precise F = false -> doc_ok utf8 payload -> text_ok utf8 kid ->
  ~ In kid [word_inf; word_neg_inf] -> In size [256; 384; 512] -> ecdsa_below size O ->
  serialize_jwt_kid E utf8 payload (es_crypto O size) kid = Some token ->
  exists v, same_json payload v /\ parse_jwt L F (Some (es_crypto O size)) None token = Ok v.
Proof. exact es_token. Qed.
Print Assumptions C83_token.

Example C83_case :
  es_alg 256 (es_method 256) = Some 256 /\ ecdsa_below 256 (ex_ec 77 300) /\ ecdsa_right (ex_ec 77 300) /\
  es_sign (ex_ec 77 300) 256 [5; 6] (es_method 256) = Signed (repeat 0 31 ++ [77] ++ repeat 0 30 ++ [1; 44]) /\
  es_verify (ex_ec 77 300) 256 [5; 6] (es_method 256) (repeat 0 31 ++ [78] ++ repeat 0 30 ++ [1; 44]) = false /\
  es_sign (ex_ec 77 300) 384 [5; 6] (es_method 256) = Signed [] /\
  es_sign (mkOS (fun _ m => m) (fun _ _ _ => []) 0 (fun _ _ => None) (fun _ _ _ => false) (fun i _ => Some (Z.of_nat i, 1)) (fun _ rs => fst rs =? 99)) 256 [5] (es_method 256) = Refused /\
  es_sign (mkOS (fun _ m => m) (fun _ _ _ => []) 0 (fun _ _ => None) (fun _ _ _ => false) (fun i _ => Some (Z.of_nat i, 1)) (fun _ rs => fst rs =? 98)) 256 [5] (es_method 256) =
    Signed (be 32 98 ++ be 32 1).
Proof.
  split; [reflexivity|]. split; [intros i d; exists 77, 300; split; [reflexivity|]; split; split; try (vm_compute; reflexivity); vm_compute; discriminate|].
  split; [intros i d rs H; injection H as <-; reflexivity|]. repeat split; vm_compute; reflexivity.
Qed.

(** *** C84 *)
(** An HMAC object accepts exactly the HMAC of the message under its key by the
    named method, one of the three. *)
Theorem C84_hmac : forall O key msg m sg, hs_verify O key msg m sg = true <->
  exists h, In h [256; 384; 512] /\ fst m = alg_name (txt "HS") h /\ sg = os_hmac O h key msg.
Proof. exact hs_accepts. Qed.
Print Assumptions C84_hmac.
Theorem C84_hmac_signs : forall O key msg m, In (fst m) (map (alg_name (txt "HS")) [256; 384; 512]) ->
  exists b, hs_sign O key msg m = Signed b /\ hs_verify O key msg m b = true.
Proof. exact hs_signs. Qed.
Print Assumptions C84_hmac_signs.

(** Any token accepted by it carries the HMAC of its first two parts. *)
Theorem C84_hmac_token : forall L F O key size token v, parse_jwt L F (Some (hs_crypto O key size)) None token = Ok v -> v <> VUndef ->
  exists h b s signed hdr n, jwt_parts token h b s signed /\ from_string L F (b64url_string b) = Ok v /\ from_string L F (b64url_string h) = Ok hdr /\
    In n [256; 384; 512] /\ get_string (value_member hdr (txt "alg")) = alg_name (txt "HS") n /\ b64url_string s = os_hmac O n key signed.
Proof. exact hs_only. Qed.
Print Assumptions C84_hmac_token.

(** No object accepts a token that names a method of another family (or none). *)
Theorem C84_family : forall L F O key junk size token v family c,
  In (family, c) [("HS"%string, hs_crypto O key size); ("RS"%string, rs_crypto O junk size); ("ES"%string, es_crypto O size)] ->
  parse_jwt L F (Some c) None token = Ok v -> v <> VUndef ->
  exists h b s signed hdr, jwt_parts token h b s signed /\ from_string L F (b64url_string h) = Ok hdr /\
    In (get_string (value_member hdr (txt "alg"))) (names family).
Proof. exact alg_only. Qed.
Print Assumptions C84_family.

(** Tokens made with an HMAC object, of any preferred size, are accepted by it. *)
Theorem C84_token : forall L E F utf8 O key size payload kid token, precise F = false -> doc_ok utf8 payload -> text_ok utf8 kid ->
  ~ In kid [word_inf; word_neg_inf] -> (forall h k m, is_bytes (os_hmac O h k m)) ->
  serialize_jwt_kid E utf8 payload (hs_crypto O key size) kid = Some token ->
  exists v, same_json payload v /\ parse_jwt L F (Some (hs_crypto O key size)) None token = Ok v.
Proof. exact hs_token. Qed.
Print Assumptions C84_token.

(** An RSA object accepts exactly what RSA accepts as signature of the hash of the message
    by the named method, and signs that hash; with keys of more than 8192 bits the buffer
    is overrun. *)
Theorem C84_rsa : forall O msg m sg, rs_verify O msg m sg = true <->
  exists h, In h [256; 384; 512] /\ fst m = alg_name (txt "RS") h /\ os_rsa_verify O h (os_sha O h msg) sg = true.
Proof. exact rs_accepts. Qed.
Print Assumptions C84_rsa.
Theorem C84_rsa_signs : forall O junk msg m h, In h [256; 384; 512] -> fst m = alg_name (txt "RS") h ->
  ((1024 < os_rsa_size O)%nat <-> rs_sign O junk msg m = Undefined) /\
  ((os_rsa_size O <= 1024)%nat -> forall b, os_rsa_sign O h (os_sha O h msg) = Some b -> rs_sign O junk msg m = Signed b).
Proof. exact rs_signs. Qed.
Print Assumptions C84_rsa_signs.
Theorem C84_rsa_token : forall L E F utf8 O junk size payload kid token, precise F = false -> doc_ok utf8 payload -> text_ok utf8 kid ->
  ~ In kid [word_inf; word_neg_inf] -> rsa_right 1024 O ->
  serialize_jwt_kid E utf8 payload (rs_crypto O junk size) kid = Some token ->
  exists v, same_json payload v /\ parse_jwt L F (Some (rs_crypto O junk size)) None token = Ok v.
Proof. exact rs_token. Qed.
Print Assumptions C84_rsa_token.

Definition ex_rsa : ossl :=
  mkOS (fun h m => [h mod 256; Z.of_nat (List.length m)]) (fun _ _ _ => []) 256
       (fun h d => Some [42; Z.of_nat (List.length d) mod 256]) (fun h d sg => beqb sg [42; Z.of_nat (List.length d) mod 256])
       (fun _ _ => None) (fun _ _ => false).
Example C84_rsa_case : rsa_right 1024 ex_rsa /\
  (exists token, serialize_jwt_kid (mkSer (fun _ _ => []) (fun _ _ => [])) true (VArr []) (rs_crypto ex_rsa [] 512) (txt "k1") = Some token) /\
  rs_sign (mkOS (fun _ m => m) (fun _ _ _ => []) 1025 (fun _ _ => None) (fun _ _ _ => false) (fun _ _ => None) (fun _ _ => false)) [] [1]
    (txt "RS512", []) = Undefined.
Proof.
  split; [|split; [eexists; vm_compute; reflexivity|vm_compute; reflexivity]]. split; [apply Nat.leb_le; reflexivity|].
  intros h d. eexists. split; [reflexivity|]. split; [|apply beqb_refl].
  constructor; [split; [discriminate|reflexivity]|]. constructor; [apply Z.mod_pos_bound; reflexivity|constructor].
Qed.

(** A failed RSA signature is not noticed: the token gets whatever was in the
    buffer, 1024 bytes of it. *)
Theorem C84_failure_refuted : exists O junk msg m, (forall h d, os_rsa_sign O h d = None) /\ (os_rsa_size O <= 1024)%nat /\ List.length junk = 1024%nat /\
  rs_sign O junk msg m = Signed junk.
Proof.
  exists (mkOS (fun _ m => m) (fun _ _ _ => []) 128 (fun _ _ => None) (fun _ _ _ => false) (fun _ _ => None) (fun _ _ => false)), (repeat 7 1024), [1], (txt "RS256", []).
  split; [reflexivity|]. split; [apply Nat.leb_le; reflexivity|]. split; [apply repeat_length|reflexivity].
Qed.
Print Assumptions C84_failure_refuted.

Example C84_case :
  let c := hs_crypto (ex_ec 1 1) (txt "key") 384 in
  exists token, serialize_jwt_kid (mkSer (fun _ _ => []) (fun _ _ => [])) true (VArr [([], VNum (NUInt 5))]) c (txt "k1") = Some token /\
    parse_jwt jwtL (mkPF false false) (Some c) None token = Ok (VArr [([], VNum (NUInt 5))]) /\
    parse_jwt jwtL (mkPF false false) (Some (rs_crypto (ex_ec 1 1) [] 384)) None token = Ok VUndef /\
    parse_jwt jwtL (mkPF false false) (Some (hs_crypto (ex_ec 1 1) (txt "other") 384)) None token = Ok VUndef /\
    hs_sign (ex_ec 1 1) (txt "key") [] (txt "none", []) = Signed [].
Proof. eexists. split; [vm_compute; reflexivity|]. repeat split; vm_compute; reflexivity. Qed.
