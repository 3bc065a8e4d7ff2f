(** The binary form: key history, round trip of values, termination. *)
From Coq Require Import ZifyBool.
From Verif Require Import Base ModelUtf8 ModelKeyed ModelValue ModelObject ModelEq ModelEnc ModelBin SpecEnc SpecBin
  ProofUtf8 ProofValue ProofEnc ProofFloat ProofBin.
Local Open Scope Z_scope.

(** *** Key history *)
Lemma land127 : forall x, Z.land x 0x7F = x mod 128.
Proof. intros. apply (Z.land_ones x 7). lia. Qed.

Lemma short_tag : forall c, 0 <= c < 128 -> Z.lor 0x80 c = 128 + c /\ Z.land (Z.lor 0x80 c) 0x80 = 0x80 /\
  forall t, In t (0 :: tag_types) -> (Z.land (Z.lor 0x80 c) 0xF0 =? t) = false.
Proof.
  intros c H.
  assert (S : forallb (fun c => (Z.lor 0x80 c =? 128 + c) && (Z.land (Z.lor 0x80 c) 0x80 =? 0x80) &&
    forallb (fun t => negb (Z.land (Z.lor 0x80 c) 0xF0 =? t)) (0 :: tag_types)) (zrange 0 128) = true) by (vm_compute; reflexivity).
  pose proof (sweep _ 0 128 S c H) as P. cbv beta in P. apply andb_true_iff in P as [P P3]. rewrite forallb_forall in P3.
  split; [lia|]. split; [lia|]. intros t Ht. specialize (P3 t Ht). lia.
Qed.

Lemma history_hit : forall st p k c st', same_history st p -> k <> [] -> try_compress_key st k = (Some c, st') ->
  st' = st /\ 0 <= c < 128 /\ history_key p (Z.lor 0x80 c) = k.
Proof.
  intros st p k c st' (Hi & Hn & Hl & Hk) Hne E. unfold try_compress_key in E. specialize (Hk k). cbv zeta in Hk.
  set (id := key_id (ws_map st) k) in *. unfold u32 in E.
  destruct Hk as [Hz|[Hid Hk]].
  { rewrite Hz, Z.mod_small in E by lia. replace (ws_next st - 0 - 1 <? 128) with false in E by lia. discriminate. }
  rewrite Z.mod_small in E by lia. destruct (ws_next st - id - 1 <? 128) eqn:Ed; [|discriminate]. inversion E; subst.
  split; [reflexivity|]. split; [lia|]. unfold history_key. destruct (short_tag (ws_next st' - id - 1)) as [-> _]; [lia|].
  rewrite land127. rewrite Hi. unfold u32.
  replace ((ws_next st' - 256 - 1 - (128 + (ws_next st' - id - 1))) mod 2 ^ 32 mod 128) with ((id - 256) mod 128).
  { apply nth_error_nth. apply Hk. lia. }
  rewrite <- (Znumtheory.Zmod_div_mod 128 (2 ^ 32)); [|lia|lia|exists (2 ^ 25); reflexivity].
  replace (ws_next st' - 256 - 1 - (128 + (ws_next st' - id - 1))) with (id - 256 + (-1) * 128) by lia.
  rewrite Z.mod_add by lia. reflexivity.
Qed.

Lemma key_id_cons : forall k i l k', key_id ((k, i) :: l) k' = if beqb k k' then i else key_id l k'.
Proof. reflexivity. Qed.

Lemma nth_error_replace : forall (A : Type) (l : list A) n x m, (n < length l)%nat ->
  nth_error (firstn n l ++ x :: skipn (S n) l) m = if (m =? n)%nat then Some x else nth_error l m.
Proof.
  intros A l n x m Hn. assert (Hf : length (firstn n l) = n) by (rewrite firstn_length; lia).
  destruct (m =? n)%nat eqn:E.
  - apply Nat.eqb_eq in E. subst m. rewrite nth_error_app2 by lia. rewrite Hf, Nat.sub_diag. reflexivity.
  - apply Nat.eqb_neq in E. destruct (Nat.lt_ge_cases m n) as [H|H].
    + rewrite nth_error_app1 by lia. rewrite <- (firstn_skipn n l) at 2. rewrite nth_error_app1 by lia. reflexivity.
    + rewrite nth_error_app2 by lia. rewrite Hf. replace (m - n)%nat with (S (m - S n)) by lia. cbn [nth_error].
      rewrite <- (firstn_skipn (S n) l) at 2. rewrite nth_error_app2 by (rewrite firstn_length; lia).
      f_equal. rewrite firstn_length. lia.
Qed.

Lemma history_miss : forall st p k st', same_history st p -> try_compress_key st k = (None, st') -> ws_next st + 1 < 2 ^ 32 ->
  same_history st' (store_key p k) /\ ws_next st' = ws_next st + 1.
Proof.
  intros st p k st' (Hi & Hn & Hl & Hk) E Hb. unfold try_compress_key in E.
  destruct (u32 (ws_next st - key_id (ws_map st) k - 1) <? 128) eqn:Ed; [discriminate|]. inversion E; subst st'. clear E.
  assert (U : forall x, 0 <= x < 2 ^ 32 -> u32 x = x) by (intros; unfold u32; apply Z.mod_small; auto).
  assert (Hnk : key_id (ws_map st) k = 0 \/ 128 < ws_next st - key_id (ws_map st) k).
  { destruct (Hk k) as [H|[H _]]; [left; exact H|right]. rewrite U in Ed by lia. lia. }
  cbn [ws_next]. rewrite (U (ws_next st + 1)) by lia. split; [|reflexivity].
  unfold store_key, same_history. cbn [ws_next ws_map ps_idx ps_hist]. rewrite land127.
  rewrite (U (ps_idx p + 1)) by lia. split; [lia|]. split; [lia|].
  set (ix := Z.to_nat (ps_idx p mod 128)).
  assert (Hp0 : 0 <= ps_idx p) by lia.
  assert (Hm : 0 <= ps_idx p mod 128 < 128) by (apply Z.mod_pos_bound; lia).
  (* the new history *)
  set (h := if (length (ps_hist p) =? ix)%nat then ps_hist p ++ [k] else firstn ix (ps_hist p) ++ k :: skipn (S ix) (ps_hist p)).
  assert (Hh : Z.of_nat (length h) = Z.min (ps_idx p + 1) 128 /\
    forall n, (n < 128)%nat -> nth_error h n = if (n =? ix)%nat then Some k else nth_error (ps_hist p) n).
  { unfold h. destruct (Z_lt_le_dec (ps_idx p) 128) as [Hlt|Hge].
    - assert (ix = length (ps_hist p)) as E by (unfold ix; rewrite Z.mod_small by lia; lia).
      rewrite E, Nat.eqb_refl. rewrite app_length. cbn [length]. split; [lia|]. intros n Hn'.
      destruct (n =? length (ps_hist p))%nat eqn:En.
      + apply Nat.eqb_eq in En. subst n. rewrite nth_error_app2, Nat.sub_diag by lia. reflexivity.
      + apply Nat.eqb_neq in En. destruct (Nat.lt_ge_cases n (length (ps_hist p))).
        * rewrite nth_error_app1 by lia. reflexivity.
        * rewrite (proj2 (nth_error_None (ps_hist p) n)) by lia. apply nth_error_None. rewrite app_length. cbn [length]. lia.
    - assert (Hl' : length (ps_hist p) = 128%nat) by lia.
      replace (length (ps_hist p) =? ix)%nat with false by (unfold ix; lia).
      assert (ix < length (ps_hist p))%nat by (unfold ix; lia).
      split; [rewrite app_length, firstn_length; cbn [length]; rewrite skipn_length; lia|].
      intros n Hn'. apply nth_error_replace. auto. }
  destruct Hh as [Hh1 Hh2]. split; [lia|].
  intros k'. cbv zeta. rewrite key_id_cons. destruct (beqb k k') eqn:Ek.
  - apply beqb_eq in Ek. subst k'. right. split; [lia|]. intros _.
    rewrite Hh2 by (pose proof (Z.mod_pos_bound (ws_next st - 256) 128); lia).
    replace (Z.to_nat ((ws_next st - 256) mod 128) =? ix)%nat with true; [reflexivity|].
    symmetry. apply Nat.eqb_eq. unfold ix. rewrite Hi. reflexivity.
  - destruct (Hk k') as [H|[H H']]; [left; exact H|right]. set (id := key_id (ws_map st) k') in *. split; [lia|]. intros Hd.
    rewrite Hh2 by (pose proof (Z.mod_pos_bound (id - 256) 128); lia).
    replace (Z.to_nat ((id - 256) mod 128) =? ix)%nat with false; [apply H'; lia|].
    symmetry. apply Nat.eqb_neq. intros E. unfold ix in E.
    apply Z2Nat.inj in E; [|apply Z.mod_pos_bound; lia|lia]. rewrite Hi in E.
    pose proof (Z.div_mod (id - 256) 128 ltac:(lia)) as D1. pose proof (Z.div_mod (ws_next st - 256) 128 ltac:(lia)) as D2. lia.
Qed.

Lemma history_init : forall s, same_history ws_init (ps_init s).
Proof. intros s. unfold same_history. cbn. split; [lia|]. split; [lia|]. split; [lia|]. intros k. left. reflexivity. Qed.

Lemma same_history_in : forall st s s' h i, same_history st (mkPS s h i) -> same_history st (mkPS s' h i).
Proof. intros st s s' h i H. exact H. Qed.

(** *** Values *)
Definition write_items (L : libm) (F : bflags) : list member -> wstate -> bytes * wstate :=
  fix items (l : list member) (st : wstate) {struct l} : bytes * wstate :=
    match l with
    | [] => ([], st)
    | x :: l' =>
      let '(b, st') := write_item L F (fst x) (snd x) st in
      let '(b', st'') := items l' st' in (b ++ b', st'')
    end.
Definition write_value (L : libm) (F : bflags) (v : value) (st1 : wstate) : bytes * wstate :=
  match v with
  | VUndef => ([op_undefined], st1)
  | VNull => ([op_null], st1)
  | VBool b => ([if b then op_true else op_false], st1)
  | VNum n => (write_number L F n, st1)
  | VStr (Some _) s => (write_string_bin F s op_binstring, st1)
  | VStr None s => (write_string_bin F s op_string, st1)
  | VArr l =>
    let '(b, st2) := write_items L F l st1 in (write_integer F (Z.of_nat (length l)) op_array ++ b, st2)
  | VObj _ l =>
    let '(b, st2) := write_items L F l st1 in (write_integer F (Z.of_nat (length l)) op_object ++ b, st2)
  end.
Lemma write_item_eq : forall L F k v st, write_item L F k v st =
  let '(kb, st1) := write_key F k st in let '(vb, st2) := write_value L F v st1 in (kb ++ vb, st2).
Proof. intros L F k v st. destruct v; reflexivity. Qed.

Definition all_ok (L : libm) (F : bflags) : list member -> Prop :=
  fix all (l : list member) : Prop :=
    match l with
    | [] => True
    | x :: l' => bin_text F (fst x) /\ bin_ok L F (snd x) /\ all l'
    end.
Definition members_of_list (l : list member) : Z := fold_right (fun x a => 1 + members_in (snd x) + a) 0 l.
Lemma members_nonneg : forall v, 0 <= members_in v.
Proof.
  intros v. assert (H : forall l, Forall (fun m : member => 0 <= members_in (snd m)) l -> 0 <= members_of_list l).
  { intros l H. induction H; cbn [members_of_list fold_right]; [lia|]. fold (members_of_list l). lia. }
  induction v using value_ind'; cbn [members_in]; try lia; apply H; auto.
Qed.

Section RoundTrip.
Variables (J : nat -> bytes) (L : libm) (F : bflags) (pe : enc).
Hypothesis HJ : forall n, is_bytes (J n).

Definition in_step (st : wstate) (h : list bytes) (i : Z) : Prop := bf_keys F = true -> same_history st (mkPS [] h i).

Notation item := (parse_item J (Some pe)).
Notation items := (parse_items J (Some pe)).

Definition reads (b rest : bytes) (h : list bytes) (i : Z) (m : member) (h' : list bytes) (i' : Z) : Prop :=
  exists f0, forall f, (f0 <= f)%nat -> item f (mkPS (b ++ rest) h i) = Ok (m, mkPS rest h' i').

Lemma read1_cons : forall c s h i, read1 (mkPS (c :: s) h i) = (c, mkPS s h i).
Proof. reflexivity. Qed.

(** Dispatch on the tag of each kind of item. *)
Lemma item_array : forall f tag s h i, Z.land tag 0xF0 = op_array ->
  item (S f) (mkPS (tag :: s) h i) = let '(n, p2) := parse_integer tag (mkPS s h i) in
    do (l, p3) <- items f n p2; Ok (([], VArr l), p3).
Proof. intros f tag s h i H. cbn [parse_item]. rewrite read1_cons, H. reflexivity. Qed.
Lemma item_object : forall f tag s h i, Z.land tag 0xF0 = op_object ->
  item (S f) (mkPS (tag :: s) h i) = let '(n, p2) := parse_integer tag (mkPS s h i) in
    do (l, p3) <- items f n p2; Ok (([], VObj false l), p3).
Proof. intros f tag s h i H. cbn [parse_item]. rewrite read1_cons, H. reflexivity. Qed.
Lemma item_string : forall f tag s h i, Z.land tag 0xF0 = op_string ->
  item (S f) (mkPS (tag :: s) h i) = let r := parse_string_bin J None tag (mkPS s h i) in Ok (([], fst r), snd r).
Proof. intros f tag s h i H. cbn [parse_item]. rewrite read1_cons, H. reflexivity. Qed.
Lemma item_binstring : forall f tag s h i, Z.land tag 0xF0 = op_binstring ->
  item (S f) (mkPS (tag :: s) h i) = let r := parse_string_bin J (Some pe) tag (mkPS s h i) in Ok (([], fst r), snd r).
Proof. intros f tag s h i H. cbn [parse_item]. rewrite read1_cons, H. reflexivity. Qed.
Lemma item_posint : forall f tag s h i, Z.land tag 0xF0 = op_posint ->
  item (S f) (mkPS (tag :: s) h i) = let '(n, p2) := parse_integer tag (mkPS s h i) in Ok (([], VNum (NUInt n)), p2).
Proof. intros f tag s h i H. cbn [parse_item]. rewrite read1_cons, H. reflexivity. Qed.
Lemma item_negint : forall f tag s h i, Z.land tag 0xF0 = op_negint ->
  item (S f) (mkPS (tag :: s) h i) = let '(n, p2) := parse_integer tag (mkPS s h i) in Ok (([], value_of_int (- s64 n)), p2).
Proof. intros f tag s h i H. cbn [parse_item]. rewrite read1_cons, H. reflexivity. Qed.
Lemma item_key : forall f tag s h i, Z.land tag 0xF0 = op_key ->
  item (S f) (mkPS (tag :: s) h i) = let '(k, p2) := parse_string_bin J None tag (mkPS s h i) in
    do (m, p3) <- item f (store_key p2 (str_content k)); Ok ((str_content k, snd m), p3).
Proof. intros f tag s h i H. cbn [parse_item]. rewrite read1_cons, H. reflexivity. Qed.
Lemma item_short : forall f c s h i, 0 <= c < 128 ->
  item (S f) (mkPS (Z.lor 0x80 c :: s) h i) =
    do (m, p2) <- item f (mkPS s h i); Ok ((history_key (mkPS s h i) (Z.lor 0x80 c), snd m), p2).
Proof.
  intros f c s h i H. cbn [parse_item]. rewrite read1_cons. destruct (short_tag c H) as (_ & _ & T).
  rewrite !T by (unfold tag_types; cbn [In]; tauto). reflexivity.
Qed.

(** The key in front of an item. *)
Lemma key_ok : forall k st h i, bin_text F k -> in_step st h i -> (bf_keys F = true -> ws_next st + 1 < 2 ^ 32) ->
  let '(kb, st1) := write_key F k st in
  ws_next st <= ws_next st1 <= ws_next st + 1 /\
  exists h1 i1, in_step st1 h1 i1 /\
    forall vb rest v h2 i2, reads vb rest h1 i1 ([], v) h2 i2 -> reads (kb ++ vb) rest h i (k, v) h2 i2.
Proof.
  intros k st h i Hk Hs Hb. unfold write_key.
  destruct k as [|c0 k0]; [|assert (Hk0 : c0 :: k0 <> []) by discriminate; set (k := c0 :: k0) in *].
  { split; [lia|]. exists h, i. split; [exact Hs|]. intros vb rest v h2 i2 H. exact H. }
  destruct (string_ok J F HJ k op_key) as (tag & tl & Ew & Hg & Hp); [unfold tag_types; cbn [In]; tauto|discriminate|exact Hk|].
  assert (Hlong : forall h1 i1, store_key (mkPS [] h i) k = mkPS [] h1 i1 ->
    forall vb rest v h2 i2, reads vb rest h1 i1 ([], v) h2 i2 -> reads (write_string_bin F k op_key ++ vb) rest h i (k, v) h2 i2).
  { intros h1 i1 Es vb rest v h2 i2 [f0 H]. exists (S f0). intros [|f] Hf; [lia|]. rewrite Ew. cbn [app].
    rewrite item_key by exact Hg. rewrite <- app_assoc, Hp. cbn [str_content].
    assert (store_key (mkPS (vb ++ rest) h i) k = mkPS (vb ++ rest) h1 i1) as ->.
    { unfold store_key in *. cbn [ps_in ps_hist ps_idx] in *. inversion Es. reflexivity. }
    rewrite H by lia. reflexivity. }
  unfold in_step in *. destruct (bf_keys F).
  - specialize (Hs eq_refl). specialize (Hb eq_refl). destruct (try_compress_key st k) as [[c|] st1] eqn:Ec.
    + destruct (history_hit _ _ _ _ _ Hs Hk0 Ec) as (-> & Hc & Hh). split; [lia|].
      exists h, i. split; [intros _; exact Hs|]. intros vb rest v h2 i2 [f0 H]. exists (S f0). intros [|f] Hf; [lia|].
      cbn [app]. rewrite item_short by exact Hc. rewrite H by lia. cbn [bind snd].
      assert (history_key (mkPS (vb ++ rest) h i) (Z.lor 0x80 c) = k) as -> by (rewrite <- Hh; reflexivity). reflexivity.
    + destruct (history_miss _ _ _ _ Hs Ec Hb) as [Hs1 Hn]. split; [lia|].
      destruct (store_key (mkPS [] h i) k) as [s1 h1 i1] eqn:Es. assert (s1 = []) as -> by (unfold store_key in Es; inversion Es; reflexivity).
      exists h1, i1. split; [intros _; exact Hs1|]. apply Hlong. reflexivity.
  - split; [lia|]. destruct (store_key (mkPS [] h i) k) as [s1 h1 i1] eqn:Es.
    assert (s1 = []) as -> by (unfold store_key in Es; inversion Es; reflexivity).
    exists h1, i1. split; [discriminate|]. apply Hlong. reflexivity.
Qed.

(** Numbers. *)
Lemma double_ok : forall f rest h i, is_double f ->
  reads (op_double :: le_bytes 8 (dbl_bits f)) rest h i ([], VNum (decoded_double f)) h i.
Proof.
  intros f rest h i Hf. destruct (bits_round_trip f Hf) as [B1 B2]. exists 1%nat. intros [|n] Hn; [lia|].
  cbn [app parse_item]. rewrite read1_cons. change (Z.land op_double 0xF0 =? 0) with true. cbv iota zeta.
  change (op_double =? op_null) with false. change (op_double =? op_false) with false. change (op_double =? op_true) with false.
  change (op_double =? op_undefined) with false. change (op_double =? op_double) with true. cbv iota.
  rewrite read_le_app by (change (256 ^ Z.of_nat 8) with (2 ^ 64); lia). rewrite B1. cbn [fst snd].
  destruct f; reflexivity.
Qed.
Lemma posint_ok : forall n rest h i, 0 <= n < size_limit F -> reads (write_integer F n op_posint) rest h i ([], VNum (NUInt n)) h i.
Proof.
  intros n rest h i Hn. destruct (integer_ok F n op_posint) as (tag & tl & -> & Hg & Hp); [unfold tag_types; cbn [In]; tauto|auto|].
  exists 1%nat. intros [|f] Hf; [lia|]. cbn [app]. rewrite item_posint, Hp by exact Hg. reflexivity.
Qed.
Lemma s64_small : forall n, - 2 ^ 63 <= n < 2 ^ 63 -> s64 n = n.
Proof.
  intros n H. unfold s64. destruct (Z_lt_le_dec n 0) as [Hl|Hl].
  - replace (n mod 2 ^ 64) with (n + 2 ^ 64) by (apply Z.mod_unique with (-1); lia).
    replace (n + 2 ^ 64 <? 2 ^ 63) with false by lia. lia.
  - rewrite Z.mod_small by lia. replace (n <? 2 ^ 63) with true by lia. reflexivity.
Qed.
Lemma negint_ok : forall n rest h i, - 2 ^ 63 < n < 0 -> - n < size_limit F ->
  reads (write_integer F (- n) op_negint) rest h i ([], VNum (NInt n)) h i.
Proof.
  intros n rest h i Hn Hl. destruct (integer_ok F (- n) op_negint) as (tag & tl & -> & Hg & Hp); [unfold tag_types; cbn [In]; tauto|lia|].
  exists 1%nat. intros [|f] Hf; [lia|]. cbn [app]. rewrite item_negint, Hp by exact Hg.
  rewrite s64_small by lia. unfold value_of_int. replace (- - n) with n by lia. replace (n =? 0) with false by lia. reflexivity.
Qed.
Lemma pos64_ok : forall n rest h i, 0 <= n < 2 ^ 64 -> reads (write_64bit n op_posint) rest h i ([], VNum (NUInt n)) h i.
Proof.
  intros n rest h i Hn. destruct (int64_ok n op_posint) as (tag & tl & -> & Hg & Hp); [unfold tag_types; cbn [In]; tauto|auto|].
  exists 1%nat. intros [|f] Hf; [lia|]. cbn [app]. rewrite item_posint, Hp by exact Hg. reflexivity.
Qed.
Lemma neg64_ok : forall n rest h i, - 2 ^ 63 < n < 0 -> reads (write_64bit (- n) op_negint) rest h i ([], VNum (NInt n)) h i.
Proof.
  intros n rest h i Hn. destruct (int64_ok (- n) op_negint) as (tag & tl & -> & Hg & Hp); [unfold tag_types; cbn [In]; tauto|lia|].
  exists 1%nat. intros [|f] Hf; [lia|]. cbn [app]. rewrite item_negint, Hp by exact Hg.
  rewrite s64_small by lia. unfold value_of_int. replace (- - n) with n by lia. replace (n =? 0) with false by lia. reflexivity.
Qed.
(** Integers beyond 32 bits under [maintain32BitComp]. *)
Lemma big32_ok : forall n type rest h i, bf_32 F = true -> 2 ^ 32 <= n < 2 ^ 64 ->
  reads (write_integer F n type) rest h i ([], VNum (NDbl (f_of_Z n))) h i.
Proof.
  intros n type rest h i HF Hn. unfold write_integer.
  replace (n <? 10) with false by lia. replace (n <=? 255) with false by lia. replace (n <=? 65535) with false by lia.
  replace (n <=? 4294967295) with false by lia. rewrite HF.
  destruct (f_of_Z_double n) as [Hd (m & e & E)]; [lia|].
  pose proof (double_ok (f_of_Z n) rest h i Hd) as D. rewrite E in *. exact D.
Qed.

Lemma number_ok : forall n rest h i, bin_num L n -> reads (write_number L F n) rest h i ([], VNum (decoded_num L F n)) h i.
Proof.
  intros n rest h i Hn. unfold size_limit. destruct n as [n|n|f|t [|n|n]]; cbn [write_number bin_num decoded_num get_number] in *.
  - replace (Z.abs n) with n by lia. unfold decoded_int. replace (n <? 0) with false by lia.
    destruct (bf_32 F) eqn:E32; [destruct (2 ^ 32 <=? n) eqn:E; cbn [andb]|cbn [andb]].
    + apply big32_ok; auto; lia.
    + apply posint_ok. unfold size_limit. rewrite E32. lia.
    + apply posint_ok. unfold size_limit. rewrite E32. lia.
  - unfold decoded_int. destruct (n <? 0) eqn:En.
    + replace (Z.abs n) with (- n) by lia.
      destruct (bf_32 F) eqn:E32; [destruct (2 ^ 32 <=? - n) eqn:E; cbn [andb]|cbn [andb]].
      * apply big32_ok; auto; lia.
      * apply negint_ok; unfold size_limit; rewrite ?E32; lia.
      * apply negint_ok; unfold size_limit; rewrite ?E32; lia.
    + replace (Z.abs n) with n by lia.
      destruct (bf_32 F) eqn:E32; [destruct (2 ^ 32 <=? n) eqn:E; cbn [andb]|cbn [andb]].
      * apply big32_ok; auto; lia.
      * apply posint_ok. unfold size_limit. rewrite E32. lia.
      * apply posint_ok. unfold size_limit. rewrite E32. lia.
  - apply double_ok; auto.
  - apply double_ok; auto.
  - unfold decoded_int. replace (n <? 0) with false by lia. apply pos64_ok; auto.
  - unfold decoded_int. destruct (n <? 0) eqn:E; [apply neg64_ok; lia|apply pos64_ok; lia].
Qed.

Definition P_value (v : value) : Prop := forall st h i rest,
  bin_ok L F v -> in_step st h i -> (bf_keys F = true -> ws_next st + members_in v < 2 ^ 32) ->
  let '(b, st') := write_value L F v st in
  ws_next st <= ws_next st' <= ws_next st + members_in v /\
  exists h' i', in_step st' h' i' /\ reads b rest h i ([], decoded L F pe v) h' i'.

Lemma item_of_value : forall v k st h i rest, P_value v -> bin_text F k -> bin_ok L F v -> in_step st h i ->
  (bf_keys F = true -> ws_next st + 1 + members_in v < 2 ^ 32) ->
  let '(b, st') := write_item L F k v st in
  ws_next st <= ws_next st' <= ws_next st + 1 + members_in v /\
  exists h' i', in_step st' h' i' /\ reads b rest h i (k, decoded L F pe v) h' i'.
Proof.
  intros v k st h i rest HP Hk Hv Hs Hb. rewrite write_item_eq. pose proof (members_nonneg v) as Hm.
  pose proof (key_ok k st h i Hk Hs ltac:(lia)) as K. destruct (write_key F k st) as [kb st1].
  destruct K as (Hn1 & h1 & i1 & Hs1 & K). pose proof (HP st1 h1 i1 rest Hv Hs1 ltac:(lia)) as V.
  destruct (write_value L F v st1) as [vb st2]. destruct V as (Hn2 & h2 & i2 & Hs2 & V). split; [lia|].
  exists h2, i2. split; [exact Hs2|]. apply K. exact V.
Qed.

Definition reads_items (n : nat) (b rest : bytes) (h : list bytes) (i : Z) (l : list member) (h' : list bytes) (i' : Z) : Prop :=
  exists f0, forall f, (f0 <= f)%nat -> items f (Z.of_nat n) (mkPS (b ++ rest) h i) = Ok (l, mkPS rest h' i').

Lemma items_ok : forall l st h i rest, Forall (fun m => P_value (snd m)) l -> all_ok L F l -> in_step st h i ->
  (bf_keys F = true -> ws_next st + members_of_list l < 2 ^ 32) ->
  let '(b, st') := write_items L F l st in
  ws_next st <= ws_next st' <= ws_next st + members_of_list l /\
  exists h' i', in_step st' h' i' /\
    reads_items (length l) b rest h i (map (fun x => (fst x, decoded L F pe (snd x))) l) h' i'.
Proof.
  induction l as [|x l IH]; intros st h i rest HP Hl Hs Hb; cbn [write_items members_of_list fold_right map length] in *.
  - split; [lia|]. exists h, i. split; [exact Hs|]. exists 1%nat. intros [|f] Hf; [lia|]. reflexivity.
  - inversion_clear HP as [|? ? Hx HP']. destruct Hl as (Hk & Hv & Hl). fold (members_of_list l) in *.
    pose proof (members_nonneg (snd x)) as Hm.
    assert (Hml : 0 <= members_of_list l).
    { clear -l. induction l as [|y l IH]; cbn [members_of_list fold_right]; [lia|]. pose proof (members_nonneg (snd y)). fold (members_of_list l). lia. }
    pose proof (fun r => item_of_value (snd x) (fst x) st h i r Hx Hk Hv Hs ltac:(lia)) as I.
    destruct (write_item L F (fst x) (snd x) st) as [b st1].
    destruct (I []) as (Hn1 & h1 & i1 & Hs1 & _).
    pose proof (IH st1) as IH'. fold (write_items L F) in *.
    destruct (write_items L F l st1) as [b' st2] eqn:Eb.
    destruct (I (b' ++ rest)) as (_ & h2 & i2 & Hs2 & [f1 R1]).
    destruct (IH' h2 i2 rest HP' Hl Hs2 ltac:(lia)) as (Hn2 & h3 & i3 & Hs3 & [f2 R2]).
    split; [lia|]. exists h3, i3. split; [exact Hs3|]. exists (S (Nat.max f1 f2)). intros [|f] Hf; [lia|].
    cbn [parse_items]. replace (Z.of_nat (S (length l)) <=? 0) with false by lia. rewrite <- app_assoc, R1 by lia. cbn [bind].
    replace (Z.of_nat (S (length l)) - 1) with (Z.of_nat (length l)) by lia. rewrite R2 by lia. reflexivity.
Qed.

Lemma container_ok : forall l, Z.of_nat (length l) < size_limit F -> forall type, type = op_array \/ type = op_object ->
  forall b rest h i h' i', reads_items (length l) b rest h i (map (fun x => (fst x, decoded L F pe (snd x))) l) h' i' ->
  reads (write_integer F (Z.of_nat (length l)) type ++ b) rest h i
    ([], (if type =? op_array then VArr else VObj false) (map (fun x => (fst x, decoded L F pe (snd x))) l)) h' i'.
Proof.
  intros l Hl type Ht b rest h i h' i' [f0 R].
  destruct (integer_ok F (Z.of_nat (length l)) type) as (tag & tl & -> & Hg & Hp);
    [destruct Ht; subst; unfold tag_types; cbn [In]; tauto|lia|].
  exists (S f0). intros [|f] Hf; [lia|]. cbn [app]. rewrite <- !app_assoc.
  destruct Ht as [->| ->].
  - rewrite item_array, Hp by exact Hg. rewrite R by lia. reflexivity.
  - rewrite item_object, Hp by exact Hg. rewrite R by lia. reflexivity.
Qed.

Lemma value_ok : forall v, P_value v.
Proof.
  induction v as [| |b|n|e s|l IH|d l IH] using value_ind'; intros st h i rest Hv Hs Hb; cbn [write_value members_in decoded] in *.
  - split; [lia|]. exists h, i. split; [exact Hs|]. exists 1%nat. intros [|f] Hf; [lia|]. reflexivity.
  - split; [lia|]. exists h, i. split; [exact Hs|]. exists 1%nat. intros [|f] Hf; [lia|]. reflexivity.
  - split; [lia|]. exists h, i. split; [exact Hs|]. exists 1%nat. intros [|f] Hf; [lia|]. destruct b; reflexivity.
  - split; [lia|]. exists h, i. split; [exact Hs|]. apply number_ok. exact Hv.
  - destruct e as [e|]; (split; [lia|]); exists h, i; (split; [exact Hs|]).
    + destruct Hv as [Hs1 Hs2]. destruct (binstring_ok J F s pe Hs1 Hs2) as (tag & tl & -> & Hg & Hp).
      exists 1%nat. intros [|f] Hf; [lia|]. cbn [app]. rewrite item_binstring, Hp by exact Hg. destruct s; reflexivity.
    + destruct (string_ok J F HJ s op_string) as (tag & tl & -> & Hg & Hp); [unfold tag_types; cbn [In]; tauto|discriminate|exact Hv|].
      exists 1%nat. intros [|f] Hf; [lia|]. cbn [app]. rewrite item_string, Hp by exact Hg. reflexivity.
  - destruct Hv as [Hl Ha]. pose proof (items_ok l st h i rest IH Ha Hs Hb) as I.
    destruct (write_items L F l st) as [b st']. destruct I as (Hn & h' & i' & Hs' & R). split; [exact Hn|].
    exists h', i'. split; [exact Hs'|]. apply (container_ok l Hl op_array); auto.
  - destruct Hv as [Hl Ha]. pose proof (items_ok l st h i rest IH Ha Hs Hb) as I.
    destruct (write_items L F l st) as [b st']. destruct I as (Hn & h' & i' & Hs' & R). split; [exact Hn|].
    exists h', i'. split; [exact Hs'|]. apply (container_ok l Hl op_object); auto.
Qed.

Lemma item_ok : forall v k st h i rest, bin_text F k -> bin_ok L F v -> in_step st h i ->
  (bf_keys F = true -> ws_next st + 1 + members_in v < 2 ^ 32) ->
  let '(b, st') := write_item L F k v st in
  ws_next st <= ws_next st' <= ws_next st + 1 + members_in v /\
  exists h' i', in_step st' h' i' /\ reads b rest h i (k, decoded L F pe v) h' i'.
Proof. intros. apply item_of_value; auto. apply value_ok. Qed.
End RoundTrip.
