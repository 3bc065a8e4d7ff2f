(** C43, C44, C45, C54: JSON web tokens. *)
From Coq Require Import String Sorted Permutation.
From Verif Require Import Base ModelKeyed SpecKeyed ModelValue ModelText SpecText ModelObject ModelEnc ModelStd ModelRpc ModelJwt SpecJwt ProofJwt ProofJwt2.
Local Open Scope Z_scope.
Local Open Scope list_scope.

(** *** C43 *)
(** A payload is returned only after the crypto object has accepted the third
    part, decoded, as the signature of the first two parts and the dot between
    them, with the forced method or the one named by the first part; the payload
    is what the second part spells. *)
Theorem C43_verified : forall L F c force token v, parse_jwt L F (Some c) force token = Ok v -> v <> VUndef ->
  exists h b s signed m, jwt_parts token h b s signed /\ from_string L F (b64url_string b) = Ok v /\
    jc_verify c signed m (b64url_string s) = Some true /\
    match force with
    | Some m' => m = m'
    | None => exists hdr, from_string L F (b64url_string h) = Ok hdr /\
        m = (get_string (value_member hdr (txt "alg")), get_string (value_member hdr (txt "kid")))
    end.
Proof. exact verified. Qed.
Print Assumptions C43_verified.

(** No token makes it fail in another way than returning undefined. *)
Theorem C43_total : forall L F c force token, exists v, parse_jwt L F c force token = Ok v.
Proof. exact parse_jwt_total. Qed.
Print Assumptions C43_total.

(** A token made by the library gives the payload and the header back: without
    verification, with the method it was signed with, and with the method named
    in the header if that is the one. *)
Theorem C43_round_trip : forall L E F utf8 header payload c m token, precise F = false -> doc_ok utf8 header -> doc_ok utf8 payload ->
  (forall msg sign, jc_sign c msg m = Some sign -> is_bytes sign /\ jc_verify c msg m sign = Some true) ->
  serialize_jwt E utf8 header payload c m = Some token ->
  (exists v, same_json payload v /\ parse_jwt L F None None token = Ok v /\ parse_jwt L F (Some c) (Some m) token = Ok v /\
    (forall hdr, from_string L F (ser E utf8 header) = Ok hdr ->
       m = (get_string (value_member hdr (txt "alg")), get_string (value_member hdr (txt "kid"))) -> parse_jwt L F (Some c) None token = Ok v)) /\
  (exists h, same_json header h /\ parse_jwt_hdr L F token = Ok h /\ from_string L F (ser E utf8 header) = Ok h).
Proof. exact token_round_trip. Qed.
Print Assumptions C43_round_trip.

(** The header the library makes itself names the method. *)
Theorem C43_method_round_trip : forall L E F utf8 payload c m token, precise F = false -> doc_ok utf8 payload ->
  text_ok utf8 (fst m) -> text_ok utf8 (snd m) -> ~ In (fst m) [word_inf; word_neg_inf] -> ~ In (snd m) [word_inf; word_neg_inf] ->
  (forall msg sign, jc_sign c msg m = Some sign -> is_bytes sign /\ jc_verify c msg m sign = Some true) ->
  serialize_jwt_method E utf8 payload c m = Some token ->
  exists v, same_json payload v /\ parse_jwt L F (Some c) None token = Ok v /\ parse_jwt L F (Some c) (Some m) token = Ok v.
Proof. exact token_method_round_trip. Qed.
Print Assumptions C43_method_round_trip.

(** A token made for a key id is signed the way the crypto object prefers for
    that key id, and its header says so. *)
Theorem C43_kid : forall L E F utf8 payload c kid token, let m := jc_preferred c kid in precise F = false -> doc_ok utf8 payload ->
  text_ok utf8 (fst m) -> text_ok utf8 (snd m) -> ~ In (fst m) [word_inf; word_neg_inf] -> ~ In (snd m) [word_inf; word_neg_inf] ->
  (forall msg sign, jc_sign c msg m = Some sign -> is_bytes sign /\ jc_verify c msg m sign = Some true) ->
  serialize_jwt_kid E utf8 payload c kid = Some token ->
  (exists v, same_json payload v /\ parse_jwt L F (Some c) None token = Ok v /\ parse_jwt L F (Some c) (Some m) token = Ok v) /\
  exists h, parse_jwt_hdr L F token = Ok h /\ (get_string (value_member h (txt "alg")), get_string (value_member h (txt "kid"))) = m.
Proof. exact token_kid_round_trip. Qed.
Print Assumptions C43_kid.

(** A crypto object for the examples: the signature is the length of the message
    and the algorithm. *)
Definition toy : jcrypto := mkJC (fun kid => ([72], kid)) (fun msg m => Some (Z.of_nat (length msg) mod 256 :: map (fun c => c mod 256) (fst m)))
  (fun msg m sg => Some (beqb sg (Z.of_nat (length msg) mod 256 :: map (fun c => c mod 256) (fst m)))).
Definition jwtL : libm := mkLibm (fun a _ => a) (fun a => a) (fun _ => S754_zero false).
Example C43_case :
  (forall msg sign m, jc_sign toy msg m = Some sign -> is_bytes sign /\ jc_verify toy msg m sign = Some true) /\
  exists token, serialize_jwt_method (mkSer (fun _ _ => []) (fun _ _ => [])) true (VArr [([], VNum (NUInt 5))]) toy ([72], [107; 49]) = Some token /\
    parse_jwt jwtL (mkPF false false) (Some toy) None token = Ok (VArr [([], VNum (NUInt 5))]) /\
    (* the last character changed *)
    parse_jwt jwtL (mkPF false false) (Some toy) None (removelast token ++ [65]) = Ok VUndef.
Proof.
  split.
  - intros msg sign m H. cbn in H. injection H as <-. split; [|unfold toy; cbn [jc_verify]; rewrite beqb_refl; reflexivity]. constructor; [unfold is_byte; apply Z.mod_pos_bound; lia|].
    apply Forall_map, Forall_forall. intros x _. unfold is_byte. apply Z.mod_pos_bound. lia.
  - eexists. split; [vm_compute; reflexivity|]. split; vm_compute; reflexivity.
Qed.

Example C43_kid_case : jc_preferred toy [107; 49] = ([72], [107; 49]) /\ exists token,
  serialize_jwt_kid (mkSer (fun _ _ => []) (fun _ _ => [])) true (VArr [([], VNum (NUInt 5))]) toy [107; 49] = Some token /\
  parse_jwt_hdr jwtL (mkPF false false) token = Ok (VObj false [((txt "alg"), VStr None [72]); ((txt "kid"), VStr None [107; 49])]).
Proof. split; [reflexivity|]. eexists. split; [vm_compute; reflexivity|]. vm_compute. reflexivity. Qed.

(** *** C44 *)
(** [t] whole seconds and [r] nanoseconds after the epoch. *)
Theorem C44_window : forall L v t r, 0 <= t < 2 ^ 63 -> 0 <= r < 1000000000 ->
  limit_ok L (value_member v (txt "exp")) -> limit_ok L (value_member v (txt "nbf")) ->
  (check_jwt_time L v (t * 1000000000 + r) = Some v /\ not_after L t (value_member v (txt "exp")) /\ not_before L t (value_member v (txt "nbf"))) \/
  (check_jwt_time L v (t * 1000000000 + r) = Some VUndef /\ ~ (not_after L t (value_member v (txt "exp")) /\ not_before L t (value_member v (txt "nbf")))).
Proof. exact time_window. Qed.
Print Assumptions C44_window.

(** A negative end of validity is taken for a very late one. *)
Theorem C44_negative_refuted : exists v t, forall L, value_member v (txt "exp") = VNum (NInt (-1)) /\ 0 <= t /\
  check_jwt_time L v (t * 1000000000) = Some v /\ ~ not_after L t (value_member v (txt "exp")).
Proof.
  exists (VObj false [((txt "exp"), VNum (NInt (-1)))]), 100. intros L. split; [reflexivity|]. split; [lia|]. split; [reflexivity|].
  intros (d & H & K). change (Some (-1, 0) = Some d) in H. injection H as <-. unfold int_le in K. cbn in K. lia.
Qed.
Print Assumptions C44_negative_refuted.

Example C44_case : forall L, let v := VObj false [((txt "exp"), VNum (NUInt 2000)); ((txt "nbf"), VNum (NDbl (S754_finite false (2001 * 2 ^ 41) (-42))))] in
  limit_ok L (value_member v (txt "exp")) /\ limit_ok L (value_member v (txt "nbf")) /\
  map (fun t => check_jwt_time L v (t * 1000000000 + 7)) [999; 1000; 2000; 2001] = [Some VUndef; Some v; Some v; Some VUndef].
Proof.
  intros L. cbv zeta. split; [exists (2000, 0); split; [reflexivity|]; unfold int_le, dyadic_lt; cbn; lia|].
  split; [|vm_compute; reflexivity]. exists (2001 * 2 ^ 41, -42). split; [reflexivity|]. unfold int_le, dyadic_lt. cbn. lia.
Qed.

(** *** C45 *)
(** What [get] returns was stored for that token after the last clear, whatever
    the hash function does with short tokens. *)
Theorem C45_sound : forall lim ops j1 j2 t v, cache_get (cache_run lim ops) j1 j2 t = v -> v = VUndef \/ stored ops t v.
Proof. exact cache_sound. Qed.
Print Assumptions C45_sound.

(** A token of at least ten characters is found as long as fewer than [lim] (at
    least one) other tokens have been stored since. *)
Theorem C45_keeps : forall lim pre j t v later j1 j2, 0 <= lim -> ~ In CClear later ->
  Forall (fun x => (10 <= length x)%nat) (t :: tokens later) -> others t (tokens later) < Z.max 1 lim ->
  stored (pre ++ CStore j t v :: later) t (cache_get (cache_run lim (pre ++ CStore j t v :: later)) j1 j2 t).
Proof. exact cache_keeps. Qed.
Print Assumptions C45_keeps.

Theorem C45_size : forall lim ops, 0 <= lim ->
  Z.of_nat (length (c_cache1 (cache_run lim ops))) < Z.max 1 lim /\ Z.of_nat (length (c_cache2 (cache_run lim ops))) <= Z.max 1 lim.
Proof. exact cache_size. Qed.
Print Assumptions C45_size.

(** Storing different content for a known token need not have any effect. *)
Theorem C45_latest_refuted : exists lim t v1 v2 j, v1 <> v2 /\
  cache_get (cache_run lim [CStore j t v1; CStore j t v2]) j j t = v1.
Proof. exists 10, (repeat 65 12), VNull, (VBool true), []. split; [discriminate|]. vm_compute. reflexivity. Qed.
Print Assumptions C45_latest_refuted.

(** A token shorter than ten characters may be lost at once. *)
Theorem C45_short_refuted : exists lim t v j j', cache_get (cache_run lim [CStore j t v]) j' j' t <> v.
Proof. exists 10, [65; 46; 66], VNull, [1], [2]. vm_compute. discriminate. Qed.
Print Assumptions C45_short_refuted.

Example C45_case : let t n := repeat n 11 in
  Forall (fun x => (10 <= length x)%nat) (t 65 :: tokens [CStore [] (t 66) VNull; CStore [] (t 66) VNull]) /\
  others (t 65) (tokens [CStore [] (t 66) VNull; CStore [] (t 66) VNull]) = 1 /\
  let c := cache_run 2 [CStore [] (t 64) VNull; CStore [] (t 65) (VBool true); CStore [] (t 66) (VBool false)] in
  cache_get c [] [] (t 65) = VBool true /\ cache_get (cache_step c (CStore [] (t 67) VNull)) [] [] (t 65) = VUndef.
Proof. cbv zeta. split; [repeat constructor|]. vm_compute. auto. Qed.

(** *** C54 *)
(** A container of crypto objects passes everything to an object listed under the
    key id of the method, the one whose preferred algorithm comes first; with an
    unknown key id nothing verifies and the signature is empty. *)
Theorem C54_container : forall map cmap preferred m msg sg, container_built map cmap -> (forall kid, ~ In (kid, None) map) ->
  (~ In (snd m) (List.map fst map) /\ container_verify cmap msg m sg = Ok (Some false) /\ container_sign cmap msg m = Ok (Some []) /\
     container_preferred cmap preferred (snd m) = Ok preferred) \/
  (exists i c, In (snd m, Some (i, c)) map /\
     (forall j d, In (snd m, Some (j, d)) map -> j = i \/ ~ klt (fst (jc_preferred d [])) (fst (jc_preferred c []))) /\
     container_verify cmap msg m sg = Ok (jc_verify c msg m sg) /\ container_sign cmap msg m = Ok (jc_sign c msg m) /\
     container_preferred cmap preferred (snd m) = Ok (match snd m with [] => preferred | _ => (fst (jc_preferred c []), snd m) end)).
Proof. exact container_spec. Qed.
Print Assumptions C54_container.

Example C54_case : container_built [([107; 50], Some (2, toy)); ([107; 49], Some (1, toy))] [([107; 49], Some (1, toy)); ([107; 50], Some (2, toy))] /\
  container_verify [([107; 49], Some (1, toy)); ([107; 50], Some (2, toy))] [1; 2; 3] ([72], [107; 50]) [3; 72] = Ok (Some true) /\
  container_verify [([107; 49], Some (1, toy)); ([107; 50], Some (2, toy))] [1; 2; 3] ([72], [107; 51]) [3; 72] = Ok (Some false).
Proof. split; [split; [constructor|repeat constructor]|split; vm_compute; reflexivity]. Qed.
