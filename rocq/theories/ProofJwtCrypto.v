(** Proofs about token signatures. *)
From Coq Require Import String Lia ZifyBool ZArith.
From Verif Require Import Base ModelKeyed ProofKeyed ModelValue ModelText SpecText ModelObject ModelEnc ModelJwt SpecJwt ProofJwt ProofJwt2 ModelRpc ModelJwtCrypto SpecJwtCrypto.
Local Open Scope Z_scope.
Local Open Scope list_scope.
Notation length := List.length.

(** *** Big-endian numbers *)
Lemma be_length : forall len n, length (be len n) = len.
Proof. intros. unfold be. rewrite map_length, rev_length, seq_length. reflexivity. Qed.
Lemma be_bytes : forall len n, is_bytes (be len n).
Proof. intros. apply Forall_map, Forall_forall. intros i _. unfold is_byte. apply Z.mod_pos_bound. lia. Qed.
Lemma be_S : forall len n, be (S len) n = (n / 256 ^ Z.of_nat len) mod 256 :: be len n.
Proof. intros. unfold be. rewrite seq_S, rev_app_distr. reflexivity. Qed.
Lemma spells_be : forall len n, 0 <= n -> spells (be len n) = n mod 256 ^ Z.of_nat len.
Proof.
  induction len as [|len IH]; intros n N; [cbn; rewrite Z.mod_1_r; reflexivity|].
  rewrite be_S. cbn [spells]. rewrite be_length, (IH n N).
  assert (P : 0 < 256 ^ Z.of_nat len) by (apply Z.pow_pos_nonneg; lia).
  rewrite Nat2Z.inj_succ, Z.pow_succ_r by lia. rewrite (Z.mul_comm 256). rewrite Z.rem_mul_r by lia. lia.
Qed.
Lemma spells_app : forall a b, spells (a ++ b) = spells a * 256 ^ Z.of_nat (length b) + spells b.
Proof.
  induction a as [|c a IH]; intros b; [cbn; lia|]. cbn [app spells]. rewrite IH, app_length, Nat2Z.inj_add, Z.pow_add_r by lia. ring.
Qed.
Lemma be_num_from : forall b a, fold_left (fun a c => a * 256 + c) b a = a * 256 ^ Z.of_nat (length b) + spells b.
Proof.
  induction b as [|c b IH]; intros a; [cbn; lia|]. cbn [fold_left spells length]. rewrite IH, Nat2Z.inj_succ, Z.pow_succ_r by lia. ring.
Qed.
Lemma be_num_spells : forall b, be_num b = spells b.
Proof. intros b. unfold be_num. rewrite be_num_from. lia. Qed.

Lemma store_jwa : forall len rs, 0 <= fst rs < 256 ^ Z.of_nat len -> 0 <= snd rs < 256 ^ Z.of_nat len ->
  exists b, es_store len rs = Some b /\ jwa_signature len rs b.
Proof.
  intros len [r s] R S. cbn [fst snd] in *. unfold es_store, be_fits. cbn [fst snd].
  replace (r <? _) with true by lia. replace (s <? _) with true by lia. eexists. split; [reflexivity|].
  exists (be len r), (be len s). split; [reflexivity|]. rewrite !be_length, !spells_be, !Z.mod_small by lia.
  repeat (split; [reflexivity|]). split; [apply Forall_app; split; apply be_bytes|]. split; reflexivity.
Qed.
Lemma parse_jwa : forall len rs b, jwa_signature len rs b -> es_parse b = rs.
Proof.
  intros len [r s] b (x & y & -> & X & Y & _ & R & S). cbn [fst snd] in *. unfold es_parse. rewrite app_length, X, Y.
  replace (len + len)%nat with (len * 2)%nat by lia. rewrite Nat.div_mul by lia. rewrite !be_num_spells. subst len.
  rewrite firstn_app, Nat.sub_diag, firstn_O, app_nil_r, firstn_all, skipn_app, Nat.sub_diag, skipn_all, skipn_O. cbn. congruence.
Qed.
Lemma jwa_unique : forall len rs b, jwa_signature len rs b -> es_store len rs = Some b.
Proof.
  intros len rs b (x & y & -> & X & Y & B & R & S). apply Forall_app in B as (Bx & By).
  assert (U : forall z, is_bytes z -> 0 <= spells z < 256 ^ Z.of_nat (length z) /\ be (length z) (spells z) = z).
  { clear. induction z as [|c z IH]; intros Bz; [split; [cbn; lia|reflexivity]|]. inversion_clear Bz. destruct (IH H0) as (I1 & I2). unfold is_byte in H.
    cbn [spells length]. rewrite Nat2Z.inj_succ, Z.pow_succ_r by lia. set (P := 256 ^ Z.of_nat (length z)) in *. split; [nia|].
    rewrite be_S. fold P. assert (E : (c * P + spells z) / P = c) by (rewrite Z.div_add_l, Z.div_small by lia; lia).
    rewrite E, Z.mod_small by lia. f_equal. transitivity (be (length z) (spells z)); [|exact I2]. unfold be. apply map_ext_in. intros i I. rewrite <- in_rev in I. apply in_seq in I.
    assert (D : P = 256 ^ Z.of_nat (length z - i - 1) * 256 * 256 ^ Z.of_nat i).
    { unfold P. rewrite <- (Z.pow_1_r 256) at 3. rewrite <- !Z.pow_add_r by lia. f_equal. lia. }
    rewrite D, Z.mul_assoc, Z.div_add_l by (apply Z.pow_nonzero; lia).
    rewrite Z.mul_assoc, Z.add_comm, Z.mod_add by lia. reflexivity. }
  destruct (U x Bx) as (U1 & U2), (U y By) as (U3 & U4). subst len. rewrite Y in *. unfold es_store, be_fits. rewrite <- R, <- S.
  replace (spells x <? _) with true by lia. replace (spells y <? _) with true by lia. rewrite U2, U4. reflexivity.
Qed.

(** *** Names *)
Lemma in_names : forall family alg h, which_alg (txt family) alg = Some h -> In alg (names family).
Proof.
  intros family alg h. unfold which_alg, names, alg_name. cbn [Z.eqb Pos.eqb].
  assert (T : forall b, txt (String.append family b) = txt family ++ txt b).
  { intros b. unfold txt. rewrite <- map_app. f_equal. induction family; cbn; congruence. }
  rewrite !T. destruct (beqb alg (txt family ++ txt "256")) eqn:A; [apply beqb_eq in A; left; auto|].
  destruct (beqb alg (txt family ++ txt "384")) eqn:B; [apply beqb_eq in B; right; left; auto|].
  destruct (beqb alg (txt family ++ txt "512")) eqn:C; [apply beqb_eq in C; right; right; left; auto|]. discriminate.
Qed.
Lemma name_size : forall family h, In h [256; 384; 512] -> which_alg family (alg_name family h) = Some h.
Proof.
  intros family h H. unfold which_alg, alg_name.
  assert (Q : forall a b, beqb (family ++ a) (family ++ b) = beqb a b).
  { intros a b. destruct (beqb a b) eqn:E; [apply beqb_eq in E as ->; apply beqb_refl|]. apply beqb_neq. intros X. apply app_inv_head in X. subst. rewrite beqb_refl in E. discriminate. }
  rewrite !Q. destruct H as [<-|[<-|[<-|[]]]]; reflexivity.
Qed.
Lemma preferred_known : forall family size kid, exists h, In h [256; 384; 512] /\ which_alg family (fst (preferred_alg family size kid)) = Some h /\
  (In size [256; 384; 512] -> h = size).
Proof.
  intros family size kid. exists (if size =? 384 then 384 else if size =? 512 then 512 else 256).
  assert (E : alg_name family size = alg_name family (if size =? 384 then 384 else if size =? 512 then 512 else 256)).
  { unfold alg_name. destruct (size =? 384) eqn:A; [reflexivity|]. destruct (size =? 512) eqn:B; reflexivity. }
  split; [destruct (size =? 384); [right; left; reflexivity|]; destruct (size =? 512); [right; right; left; reflexivity|left; reflexivity]|].
  split.
  - cbn [fst preferred_alg]. rewrite E. apply name_size. destruct (size =? 384); [right; left; reflexivity|]; destruct (size =? 512); [right; right; left; reflexivity|left; reflexivity].
  - intros [<-|[<-|[<-|[]]]]; reflexivity.
Qed.

(** *** Elliptic curves *)
Lemma attempts_sound : forall O h msg n i b, es_attempts O h msg n i = Signed b -> es_check O h msg b = true.
Proof.
  induction n as [|n IH]; intros i b H; cbn [es_attempts] in H; [discriminate|]. destruct (os_ec_sign O i _); [|discriminate].
  destruct (es_store _ p) as [sg|]; [|discriminate]. destruct (es_check O h msg sg) eqn:E; [injection H as <-; exact E|]. exact (IH _ _ H).
Qed.
Lemma es_sign_sound : forall O size msg m b, es_sign O size msg m = Signed b -> b = [] /\ es_alg size m = None \/ es_verify O size msg m b = true.
Proof.
  intros O size msg m b H. unfold es_sign, es_verify in *. destruct (es_alg size m) as [h|]; [|injection H as <-; auto].
  right. exact (attempts_sound _ _ _ _ _ _ H).
Qed.
Lemma width : forall h, In h [256; 384; 512] -> 256 ^ Z.of_nat (Z.to_nat (h / 8)) = 2 ^ h.
Proof. intros h [<-|[<-|[<-|[]]]]; reflexivity. Qed.

Lemma attempts_defined : forall O h msg n i, In h [256; 384; 512] -> ecdsa_below h O ->
  match es_attempts O h msg n i with
  | Signed b => exists j rs, (i <= j < i + n)%nat /\ os_ec_sign O j (os_sha O h msg) = Some rs /\ jwa_signature (Z.to_nat (h / 8)) rs b /\
      os_ec_verify O (os_sha O h msg) rs = true
  | Refused => forall j rs, (i <= j < i + n)%nat -> os_ec_sign O j (os_sha O h msg) = Some rs -> os_ec_verify O (os_sha O h msg) rs = false
  | Undefined => False
  end.
Proof.
  intros O h msg n i Hh Hb. revert i. induction n as [|n IH]; intros i; cbn [es_attempts]; [intros j rs J; lia|].
  destruct (Hb i (os_sha O h msg)) as (r & s & E & R & Hs). rewrite E.
  destruct (store_jwa (Z.to_nat (h / 8)) (r, s)) as (b & B & Jb); [rewrite width by exact Hh; exact R|rewrite width by exact Hh; exact Hs|].
  rewrite B. unfold es_check. rewrite (parse_jwa _ _ _ Jb). destruct (os_ec_verify O _ (r, s)) eqn:V.
  - exists i, (r, s). split; [lia|]. auto.
  - specialize (IH (S i)). destruct (es_attempts O h msg n (S i)) as [b'| |]; [| |exact IH].
    + destruct IH as (j & rs & J & IH). exists j, rs. split; [lia|exact IH].
    + intros j rs J Ej. destruct (Nat.eq_dec j i) as [->|N]; [congruence|]. apply (IH j rs); [lia|exact Ej].
Qed.
Lemma es_alg_size : forall size m h, es_alg size m = Some h -> h = size /\ In h [256; 384; 512].
Proof.
  intros size m h H. unfold es_alg, which_alg in H. cbn [alg_name] in H.
  destruct (beqb _ _); [destruct (size =? 256) eqn:E; [injection H as <-; split; [lia|left; reflexivity]|discriminate]|].
  destruct (beqb _ _); [destruct (size =? 384) eqn:E; [injection H as <-; split; [lia|right; left; reflexivity]|discriminate]|].
  destruct (beqb _ _); [destruct (size =? 512) eqn:E; [injection H as <-; split; [lia|right; right; left; reflexivity]|discriminate]|]. discriminate.
Qed.
Lemma es_sign_defined : forall O size msg m, es_alg size m = Some size -> ecdsa_below size O ->
  match es_sign O size msg m with
  | Signed b => exists j rs, (j < 99)%nat /\ os_ec_sign O j (os_sha O size msg) = Some rs /\ jwa_signature (Z.to_nat (size / 8)) rs b /\
      os_ec_verify O (os_sha O size msg) rs = true
  | Refused => forall j rs, (j < 99)%nat -> os_ec_sign O j (os_sha O size msg) = Some rs -> os_ec_verify O (os_sha O size msg) rs = false
  | Undefined => False
  end.
Proof.
  intros O size msg m Ha Hb. destruct (es_alg_size _ _ _ Ha) as (_ & Hs). unfold es_sign. rewrite Ha.
  pose proof (attempts_defined O size msg 99 0 Hs Hb) as D. destruct (es_attempts O size msg 99 0) as [b| |]; [| |exact D].
  - destruct D as (j & rs & J & D). exists j, rs. split; [lia|exact D].
  - intros j rs J. apply D. lia.
Qed.
Lemma es_sign_right : forall O size msg m, es_alg size m = Some size -> ecdsa_below size O -> ecdsa_right O ->
  exists b rs, es_sign O size msg m = Signed b /\ os_ec_sign O 0 (os_sha O size msg) = Some rs /\ jwa_signature (Z.to_nat (size / 8)) rs b.
Proof.
  intros O size msg m Ha Hb Hr. destruct (es_alg_size _ _ _ Ha) as (_ & Hh). unfold es_sign. rewrite Ha.
  change 99%nat with (S 98). cbn [es_attempts]. destruct (Hb 0%nat (os_sha O size msg)) as (r & s & E & R & Hs). rewrite E.
  destruct (store_jwa (Z.to_nat (size / 8)) (r, s)) as (b & B & Jb); [rewrite width by exact Hh; exact R|rewrite width by exact Hh; exact Hs|].
  rewrite B. unfold es_check. rewrite (parse_jwa _ _ _ Jb), (Hr _ _ _ E). exists b, (r, s). auto.
Qed.
Lemma es512_overrun : forall O msg m r s, es_alg 512 m = Some 512 -> os_ec_sign O 0 (os_sha O 512 msg) = Some (r, s) -> 2 ^ 512 <= r ->
  es_sign O 512 msg m = Undefined.
Proof.
  intros O msg m r s Ha E R. unfold es_sign. rewrite Ha. change 99%nat with (S 98). cbn [es_attempts]. rewrite E. unfold es_store, be_fits. cbn [fst].
  change (256 ^ Z.of_nat (Z.to_nat (512 / 8))) with (2 ^ 512). replace (r <? 2 ^ 512) with false by lia. reflexivity.
Qed.
Lemma es_wrong : forall O size msg m sg, (In size [256; 384; 512] -> fst m <> alg_name (txt "ES") size) ->
  es_sign O size msg m = Signed [] /\ es_verify O size msg m sg = false.
Proof.
  intros O size msg m sg H. assert (N : es_alg size m = None).
  { destruct (es_alg size m) as [h|] eqn:E; [|reflexivity]. destruct (es_alg_size _ _ _ E) as (-> & I). destruct (H I). unfold es_alg, which_alg in E.
    destruct (beqb (fst m) (alg_name (txt "ES") 256)) eqn:A; [apply beqb_eq in A; destruct (size =? 256) eqn:X; [replace size with 256 by lia; exact A|discriminate]|].
    destruct (beqb (fst m) (alg_name (txt "ES") 384)) eqn:B; [apply beqb_eq in B; destruct (size =? 384) eqn:X; [replace size with 384 by lia; exact B|discriminate]|].
    destruct (beqb (fst m) (alg_name (txt "ES") 512)) eqn:C; [apply beqb_eq in C; destruct (size =? 512) eqn:X; [replace size with 512 by lia; exact C|discriminate]|].
    discriminate. }
  unfold es_sign, es_verify. rewrite N. auto.
Qed.
Lemma es_alg_right : forall size kid, In size [256; 384; 512] -> es_alg size (alg_name (txt "ES") size, kid) = Some size.
Proof. intros size kid H. unfold es_alg. cbn [fst]. rewrite (name_size _ _ H), Z.eqb_refl. reflexivity. Qed.
Lemma es_numbers : forall O size msg m a b, es_parse a = es_parse b -> es_verify O size msg m a = es_verify O size msg m b.
Proof. intros O size msg m a b H. unfold es_verify, es_check. rewrite H. reflexivity. Qed.

(** *** HMAC and RSA *)
Lemma hs_accepts : forall O key msg m sg, hs_verify O key msg m sg = true <->
  exists h, In h [256; 384; 512] /\ fst m = alg_name (txt "HS") h /\ sg = os_hmac O h key msg.
Proof.
  intros O key msg m sg. split.
  - unfold hs_verify, which_alg. intros H.
    destruct (beqb (fst m) (alg_name (txt "HS") 256)) eqn:A; [apply beqb_eq in A, H; exists 256; split; [left; reflexivity|auto]|].
    destruct (beqb (fst m) (alg_name (txt "HS") 384)) eqn:B; [apply beqb_eq in B, H; exists 384; split; [right; left; reflexivity|auto]|].
    destruct (beqb (fst m) (alg_name (txt "HS") 512)) eqn:C; [apply beqb_eq in C, H; exists 512; split; [right; right; left; reflexivity|auto]|].
    discriminate.
  - intros (h & H & E & ->). unfold hs_verify. rewrite E, (name_size _ _ H). apply beqb_refl.
Qed.
Lemma hs_signs : forall O key msg m, In (fst m) (map (alg_name (txt "HS")) [256; 384; 512]) ->
  exists b, hs_sign O key msg m = Signed b /\ hs_verify O key msg m b = true.
Proof.
  intros O key msg m H. apply in_map_iff in H as (h & E & H). unfold hs_sign, hs_verify. rewrite <- E, (name_size _ _ H). eexists. split; [reflexivity|apply beqb_refl].
Qed.

Lemma alg_plain : forall family size, In family ["HS"; "RS"; "ES"]%string -> text_ok true (alg_name (txt family) size) /\ text_ok false (alg_name (txt family) size) /\
  ~ In (alg_name (txt family) size) [word_inf; word_neg_inf].
Proof.
  intros family size H. unfold alg_name.
  assert (W : forall s, In s [txt "256"; txt "384"; txt "512"] -> text_ok true (txt family ++ s) /\ text_ok false (txt family ++ s) /\ ~ In (txt family ++ s) [word_inf; word_neg_inf]).
  { intros s Hs. destruct H as [<-|[<-|[<-|[]]]]; destruct Hs as [<-|[<-|[<-|[]]]];
      (split; [|split; [|intros [X|[X|[]]]; discriminate X]]);
      (match goal with |- text_ok _ ?x => exists x end; split; [|reflexivity]; repeat constructor; vm_compute; try (intros X; discriminate X); auto). }
  destruct (size =? 384); [apply W; right; left; reflexivity|]. destruct (size =? 512); apply W; [right; right; left|left]; reflexivity.
Qed.

(** *** Tokens *)
Lemma hs_token : forall L E F utf8 O key size payload kid token, precise F = false -> doc_ok utf8 payload -> text_ok utf8 kid ->
  ~ In kid [word_inf; word_neg_inf] -> (forall h k m, is_bytes (os_hmac O h k m)) ->
  serialize_jwt_kid E utf8 payload (hs_crypto O key size) kid = Some token ->
  exists v, same_json payload v /\ parse_jwt L F (Some (hs_crypto O key size)) None token = Ok v.
Proof.
  intros L E F utf8 O key size payload kid token HF Hp Hk Hn Hb H. unfold serialize_jwt_kid in H.
  destruct (alg_plain "HS" size (or_introl eq_refl)) as (T1 & T2 & T3).
  destruct (token_method_round_trip L E F utf8 payload (hs_crypto O key size) (preferred_alg (txt "HS") size kid) token) as (v & A & B & _);
    [exact HF|exact Hp|destruct utf8; assumption|exact Hk|exact T3|exact Hn| |exact H|exists v; auto].
  intros msg sign Hs. cbn [jc_sign hs_crypto jc_verify] in *. destruct (preferred_known (txt "HS") size kid) as (h & _ & W & _).
  unfold hs_sign, hs_verify in *. rewrite W in *. cbn [signature_of] in Hs. injection Hs as <-. split; [apply Hb|]. rewrite beqb_refl. reflexivity.
Qed.
Lemma es_token : forall L E F utf8 O size payload kid token, precise F = false -> doc_ok utf8 payload -> text_ok utf8 kid ->
  ~ In kid [word_inf; word_neg_inf] -> In size [256; 384; 512] -> ecdsa_below size O ->
  serialize_jwt_kid E utf8 payload (es_crypto O size) kid = Some token ->
  exists v, same_json payload v /\ parse_jwt L F (Some (es_crypto O size)) None token = Ok v.
Proof.
  intros L E F utf8 O size payload kid token HF Hp Hk Hn Hs Hb H. unfold serialize_jwt_kid in H.
  destruct (alg_plain "ES" size (or_intror (or_intror (or_introl eq_refl)))) as (T1 & T2 & T3).
  destruct (token_method_round_trip L E F utf8 payload (es_crypto O size) (preferred_alg (txt "ES") size kid) token) as (v & A & B & _);
    [exact HF|exact Hp|destruct utf8; assumption|exact Hk|exact T3|exact Hn| |exact H|exists v; auto].
  intros msg sign Hg. cbn [jc_sign es_crypto jc_verify] in *. pose proof (es_sign_defined O size msg (preferred_alg (txt "ES") size kid) (es_alg_right size kid Hs) Hb) as D.
  destruct (es_sign O size msg _) as [b| |] eqn:Es; cbn [signature_of] in Hg; try discriminate. injection Hg as <-.
  destruct D as (j & rs & _ & _ & J & _). split; [destruct J as (x & y & _ & _ & _ & J & _); exact J|].
  destruct (es_sign_sound _ _ _ _ _ Es) as [(_ & X)|X]; [pose proof (es_alg_right size kid Hs) as Q; unfold preferred_alg in X; congruence|]. rewrite X. reflexivity.
Qed.
Lemma rs_accepts : forall O msg m sg, rs_verify O msg m sg = true <->
  exists h, In h [256; 384; 512] /\ fst m = alg_name (txt "RS") h /\ os_rsa_verify O h (os_sha O h msg) sg = true.
Proof.
  intros O msg m sg. split.
  - unfold rs_verify, which_alg. intros H.
    destruct (beqb (fst m) (alg_name (txt "RS") 256)) eqn:A; [apply beqb_eq in A; exists 256; split; [left; reflexivity|auto]|].
    destruct (beqb (fst m) (alg_name (txt "RS") 384)) eqn:B; [apply beqb_eq in B; exists 384; split; [right; left; reflexivity|auto]|].
    destruct (beqb (fst m) (alg_name (txt "RS") 512)) eqn:C; [apply beqb_eq in C; exists 512; split; [right; right; left; reflexivity|auto]|].
    discriminate.
  - intros (h & H & E & V). unfold rs_verify. rewrite E.
    replace (which_alg (txt "RS") (alg_name (txt "RS") h)) with (Some h) by (destruct H as [<-|[<-|[<-|[]]]]; reflexivity). exact V.
Qed.
Lemma rs_signs : forall O junk msg m h, In h [256; 384; 512] -> fst m = alg_name (txt "RS") h ->
  ((1024 < os_rsa_size O)%nat <-> rs_sign O junk msg m = Undefined) /\
  ((os_rsa_size O <= 1024)%nat -> forall b, os_rsa_sign O h (os_sha O h msg) = Some b -> rs_sign O junk msg m = Signed b).
Proof.
  intros O junk msg m h H E. unfold rs_sign. rewrite E.
  replace (which_alg (txt "RS") (alg_name (txt "RS") h)) with (Some h) by (destruct H as [<-|[<-|[<-|[]]]]; reflexivity).
  destruct (Nat.ltb_spec 1024 (os_rsa_size O)) as [K|K].
  - split; [split; auto|]. intros X. exfalso. apply (Nat.lt_irrefl 1024). eapply Nat.lt_le_trans; eauto.
  - split.
    + split; [intros X; exfalso; apply (Nat.lt_irrefl 1024); eapply Nat.lt_le_trans; eauto|]. destruct (os_rsa_sign O h _); discriminate.
    + intros _ b ->. reflexivity.
Qed.
Lemma rs_token : forall L E F utf8 O junk size payload kid token, precise F = false -> doc_ok utf8 payload -> text_ok utf8 kid ->
  ~ In kid [word_inf; word_neg_inf] -> rsa_right 1024 O ->
  serialize_jwt_kid E utf8 payload (rs_crypto O junk size) kid = Some token ->
  exists v, same_json payload v /\ parse_jwt L F (Some (rs_crypto O junk size)) None token = Ok v.
Proof.
  intros L E F utf8 O junk size payload kid token HF Hp Hk Hn (Hs & Hb) H. unfold serialize_jwt_kid in H.
  destruct (alg_plain "RS" size (or_intror (or_introl eq_refl))) as (T1 & T2 & T3).
  destruct (token_method_round_trip L E F utf8 payload (rs_crypto O junk size) (preferred_alg (txt "RS") size kid) token) as (v & A & B & _);
    [exact HF|exact Hp|destruct utf8; assumption|exact Hk|exact T3|exact Hn| |exact H|exists v; auto].
  intros msg sign Hg. cbn [jc_sign rs_crypto jc_verify] in *. destruct (preferred_known (txt "RS") size kid) as (h & _ & W & _).
  unfold rs_sign, rs_verify in *. rewrite W in *. destruct (Hb h (os_sha O h msg)) as (b & Sb & Bb & Vb).
  destruct (Nat.ltb_spec 1024 (os_rsa_size O)) as [K|K]; [discriminate|]. rewrite Sb in Hg. cbn [signature_of] in Hg. injection Hg as <-.
  split; [exact Bb|]. rewrite Vb. reflexivity.
Qed.
Lemma hs_only : forall L F O key size token v, parse_jwt L F (Some (hs_crypto O key size)) None token = Ok v -> v <> VUndef ->
  exists h b s signed hdr n, jwt_parts token h b s signed /\ from_string L F (b64url_string b) = Ok v /\ from_string L F (b64url_string h) = Ok hdr /\
    In n [256; 384; 512] /\ get_string (value_member hdr key_alg) = alg_name (txt "HS") n /\ b64url_string s = os_hmac O n key signed.
Proof.
  intros L F O key size token v H Hv. apply verified in H as (h & b & s & signed & m & P & B & V & hdr & Hh & Hm); [|exact Hv].
  cbn [jc_verify hs_crypto] in V. injection V as V. apply hs_accepts in V as (n & N & A & Sg). exists h, b, s, signed, hdr, n.
  repeat (split; [assumption|]). split; [|exact Sg]. rewrite Hm in A. exact A.
Qed.
Lemma alg_only : forall L F O key junk size token v family c,
  In (family, c) [("HS"%string, hs_crypto O key size); ("RS"%string, rs_crypto O junk size); ("ES"%string, es_crypto O size)] ->
  parse_jwt L F (Some c) None token = Ok v -> v <> VUndef ->
  exists h b s signed hdr, jwt_parts token h b s signed /\ from_string L F (b64url_string h) = Ok hdr /\
    In (get_string (value_member hdr key_alg)) (names family).
Proof.
  intros L F O key junk size token v family c I H Hv. apply verified in H as (h & b & s & signed & m & P & B & V & hdr & Hh & Hm); [|exact Hv].
  exists h, b, s, signed, hdr. split; [exact P|]. split; [exact Hh|].
  assert (W : exists x, which_alg (txt family) (fst m) = Some x).
  { destruct I as [I|[I|[I|[]]]]; injection I as <- <-; cbn [jc_verify hs_crypto rs_crypto es_crypto] in V; injection V as V;
      unfold hs_verify, rs_verify, es_verify, es_alg in V; (destruct (which_alg _ (fst m)) as [x|]; [exists x; reflexivity|discriminate]). }
  destruct W as (x & W). rewrite Hm in W. exact (in_names _ _ _ W).
Qed.
