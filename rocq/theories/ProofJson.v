(** Proofs for C104. *)
From Coq Require Import ZifyBool.
From Verif Require Import Base ModelUtf8 SpecUtf8 ProofUtf8 ModelKeyed SpecKeyed ModelValue ProofValue ModelText SpecText
  ProofText1 SpecJson.
Local Open Scope Z_scope.
Ltac Zify.zify_post_hook ::= Z.div_mod_to_equations.

(** *** Characters *)
Lemma hex_digit_hex : forall x, is_hex (hex_digit (Z.land x 0xF)).
Proof.
  intros x. rewrite land_15. unfold hex_digit, is_hex.
  pose proof (Z.mod_pos_bound x 16 ltac:(lia)). destruct (x mod 16 <? 10) eqn:E; lia.
Qed.
Lemma escape_char : forall uni u, json_char uni (92 :: 117 :: map (fun i => hex_digit (Z.land (Z.shiftr u ((3 - i) * 4)) 0xF)) [0; 1; 2; 3]).
Proof. intros. cbn [map]. apply jc_hex; apply hex_digit_hex. Qed.

Lemma direct_char : forall (uni : Z -> Prop) c o, (32 <= c < 128 -> uni c) -> write_direct c = Some o -> json_char uni o.
Proof.
  intros uni c o Hu E. unfold write_direct in E.
  destruct ((c =? 92) || (c =? 34)) eqn:E1.
  { injection E as <-. apply jc_esc. assert (c = 92 \/ c = 34) as [->| ->] by lia; cbn; tauto. }
  destruct (c =? 12) eqn:E2; [injection E as <-; apply jc_esc; cbn; tauto|].
  destruct (c =? 8) eqn:E3; [injection E as <-; apply jc_esc; cbn; tauto|].
  destruct (c =? 13) eqn:E4; [injection E as <-; apply jc_esc; cbn; tauto|].
  destruct (c =? 10) eqn:E5; [injection E as <-; apply jc_esc; cbn; tauto|].
  destruct (c =? 9) eqn:E6; [injection E as <-; apply jc_esc; cbn; tauto|].
  destruct ((c <? 32) || (128 <=? c)) eqn:E7; [discriminate|]. injection E as <-.
  assert (B : utf8_bytes c = [c]) by (unfold utf8_bytes; replace (c <? 0x80) with true by lia; reflexivity).
  rewrite <- B. apply jc_self; [apply Hu; lia|lia|lia|lia].
Qed.

(** *** Escaped strings: any bytes *)
Lemma body_escaped : forall t st, exists l, Forall (json_char ascii) l /\ write_body false st t = concat l.
Proof.
  induction t as [|c t IH]; intros st; cbn [write_body]; [exists []; auto|].
  destruct (write_direct c) as [o|] eqn:E.
  - destruct (IH st) as (l & Hl & El). exists (o :: l). split; [|cbn [concat]; rewrite El; reflexivity].
    constructor; [|exact Hl]. apply (direct_char ascii c); [unfold ascii; lia|exact E].
  - destruct (utf8_step st c) as [st1 ws]. destruct (IH st1) as (l & Hl & El).
    exists (map (write_unicode false) ws ++ l). split.
    + apply Forall_app. split; [|exact Hl]. apply Forall_map, Forall_forall. intros w _. apply escape_char.
    + rewrite concat_app, <- flat_map_concat_map, El. reflexivity.
Qed.

(** *** UTF-8 strings: any bytes, fewer than 2^32 *)
Definition room (st : ustate) (n : Z) : Prop :=
  0 <= uchar st < 2 ^ 32 /\ n < 2 ^ 32 /\
  (pend st = 0 \/ n < pend st < 2 ^ 32 \/
   (pend st = 1 /\ uchar st < 2 ^ 15) \/ (pend st = 2 /\ uchar st < 2 ^ 9) \/ (pend st = 3 /\ uchar st < 2 ^ 3)).
Lemma lor_bound : forall a b k, 0 < k -> 0 <= a < 2 ^ k -> 0 <= b < 2 ^ k -> 0 <= Z.lor a b < 2 ^ k.
Proof.
  intros a b k Hk Ha Hb. assert (0 <= Z.lor a b) as H0 by (apply Z.lor_nonneg; lia). split; [exact H0|].
  destruct (Z.eq_dec (Z.lor a b) 0) as [->|N]; [apply Z.pow_pos_nonneg; lia|].
  apply Z.log2_lt_pow2; [lia|]. rewrite Z.log2_lor by lia.
  assert (forall x, 0 <= x < 2 ^ k -> Z.log2 x < k) as Hl.
  { intros x Hx. destruct (Z.eq_dec x 0) as [->|Nx]; [exact Hk|]. apply Z.log2_lt_pow2; lia. }
  apply Z.max_lub_lt; apply Hl; assumption.
Qed.
(** What the decoder hands over. *)
Lemma room_step : forall st n c, room st (n + 1) -> 0 <= n -> is_byte c ->
  let '(st1, ws) := utf8_step st c in room st1 n /\ Forall (fun w => 0 <= w < 2 ^ 21) ws.
Proof.
  intros st n c (Hu & Hn & Hp) H0 Hc. unfold is_byte in Hc. unfold utf8_step.
  destruct (Z.land c 0xC0 =? 0x80) eqn:E1.
  - rewrite land63. assert (Hm : 0 <= c mod 64 < 64) by lia.
    assert (Ha : 0 <= u32 (Z.shiftl (uchar st) 6) < 2 ^ 32) by (unfold u32; lia).
    pose proof (lor_bound _ (c mod 64) 32 ltac:(lia) Ha ltac:(lia)) as Hl.
    assert (Hs : forall k, 6 <= k <= 21 -> uchar st < 2 ^ (k - 6) -> 0 <= Z.lor (u32 (Z.shiftl (uchar st) 6)) (c mod 64) < 2 ^ k).
    { intros k Hk Hx. apply lor_bound; [lia| |].
      - assert (Hx' : uchar st * 2 ^ 6 < 2 ^ (k - 6) * 2 ^ 6) by lia. rewrite <- Z.pow_add_r in Hx' by lia. replace (k - 6 + 6) with k in Hx' by lia.
        assert (2 ^ k <= 2 ^ 21) by (apply Z.pow_le_mono_r; lia).
        unfold u32. rewrite Z.shiftl_mul_pow2 by lia. rewrite Z.mod_small by lia. lia.
      - assert (2 ^ 6 <= 2 ^ k) by (apply Z.pow_le_mono_r; lia). lia. }
    split.
    + unfold room. cbn [uchar pend]. split; [exact Hl|]. split; [lia|].
      destruct Hp as [P|[P|[[P Q]|[[P Q]|[P Q]]]]].
      * right. left. rewrite P. change (u32 (0 - 1)) with (2 ^ 32 - 1). lia.
      * assert (Eu : u32 (pend st - 1) = pend st - 1) by (unfold u32; apply Z.mod_small; lia). rewrite Eu. right. left. lia.
      * rewrite P. change (u32 (1 - 1)) with 0. left. reflexivity.
      * rewrite P. change (u32 (2 - 1)) with 1. right. right. left. split; [reflexivity|]. apply (Hs 15); [lia|exact Q].
      * rewrite P. change (u32 (3 - 1)) with 2. right. right. right. left. split; [reflexivity|]. apply (Hs 9); [lia|exact Q].
    + destruct (u32 (pend st - 1) =? 0) eqn:Eb; [|constructor]. constructor; [|constructor].
      destruct Hp as [P|[P|[[P Q]|[[P Q]|[P Q]]]]].
      * rewrite P in Eb. vm_compute in Eb. discriminate.
      * assert (Eu : u32 (pend st - 1) = pend st - 1) by (unfold u32; apply Z.mod_small; lia). rewrite Eu in Eb. lia.
      * specialize (Hs 21 ltac:(lia) Q). rewrite s32_small by lia. lia.
      * rewrite P in Eb. vm_compute in Eb. discriminate.
      * rewrite P in Eb. vm_compute in Eb. discriminate.
  - destruct (Z.land c 0xE0 =? 0xC0); [rewrite land31|destruct (Z.land c 0xF0 =? 0xE0); [rewrite land15|destruct (Z.land c 0xF8 =? 0xF0); [rewrite land7|]]].
    4: { split; [|constructor; [lia|constructor]]. split; [exact Hu|]. split; [lia|]. destruct Hp as [P|[P|[[P Q]|[[P Q]|[P Q]]]]]; [left|right; left|right; right; left|right; right; right; left|right; right; right; right]; lia. }
    all: split; [|constructor]; unfold room; cbn [uchar pend]; split; [lia|]; split; [lia|].
    + right. right. left. lia.
    + right. right. right. left. lia.
    + right. right. right. right. lia.
Qed.
Lemma unicode_utf8 : forall w, 0 <= w < 2 ^ 21 -> exists l, Forall (json_char is_cp) l /\ write_unicode true w = concat l.
Proof.
  intros w H. unfold write_unicode. rewrite u32_small by lia. rewrite s32_small by lia. cbn [andb].
  destruct ((128 <=? w) && negb (w =? 8232) && negb (w =? 8233)) eqn:E.
  - cbn [wide_to_utf8]. replace (w =? -1) with false by lia. rewrite app_nil_r.
    destruct (Z_le_gt_dec w 0x10FFFF) as [L|G].
    + assert (Hc : is_cp w) by (unfold is_cp; lia). rewrite wide_to_utf8_1_spec by exact Hc. exists [utf8_bytes w].
      split; [|cbn [concat]; rewrite app_nil_r; reflexivity]. constructor; [|constructor]. apply jc_self; [exact Hc|lia|lia|lia].
    + exists []. split; [constructor|]. unfold wide_to_utf8_1. replace (w <? 128) with false by lia.
      replace ((128 <=? w) && (w <=? 2047)) with false by lia. replace ((2048 <=? w) && (w <=? 65535)) with false by lia.
      replace ((65536 <=? w) && (w <=? 1114111)) with false by lia. reflexivity.
  - eexists [_]. split; [constructor; [apply escape_char|constructor]|]. cbn [concat]. rewrite app_nil_r. reflexivity.
Qed.
Lemma codes_utf8 : forall ws, Forall (fun w => 0 <= w < 2 ^ 21) ws -> exists l, Forall (json_char is_cp) l /\ flat_map (write_unicode true) ws = concat l.
Proof.
  induction 1 as [|w ws Hw _ (l & Hl & El)]; [exists []; auto|]. destruct (unicode_utf8 w Hw) as (k & Hk & Ek).
  exists (k ++ l). split; [apply Forall_app; auto|]. cbn [flat_map]. rewrite Ek, El, concat_app. reflexivity.
Qed.
Lemma body_utf8 : forall t st, is_bytes t -> room st (Z.of_nat (length t)) -> exists l, Forall (json_char is_cp) l /\ write_body true st t = concat l.
Proof.
  induction t as [|c t IH]; intros st Hb Hr; cbn [write_body]; [exists []; auto|].
  inversion_clear Hb as [|? ? Hc Ht].
  replace (Z.of_nat (length (c :: t))) with (Z.of_nat (length t) + 1) in Hr by (cbn [length]; lia).
  pose proof (room_step st (Z.of_nat (length t)) c Hr ltac:(lia) Hc) as Hs.
  destruct (write_direct c) as [o|] eqn:E.
  - destruct (IH st Ht) as (l & Hl & El).
    { destruct Hr as (R1 & R2 & R3). split; [exact R1|]. split; [lia|]. destruct R3 as [P|[P|[[P Q]|[[P Q]|[P Q]]]]]; [left|right; left|right; right; left|right; right; right; left|right; right; right; right]; lia. }
    exists (o :: l). split; [|cbn [concat]; rewrite El; reflexivity].
    constructor; [|exact Hl]. apply (direct_char is_cp c); [unfold is_cp; lia|exact E].
  - destruct (utf8_step st c) as [st1 ws]. destruct Hs as (Hs & Hw). destruct (IH st1 Ht Hs) as (l & Hl & El).
    destruct (codes_utf8 ws Hw) as (k & Hk & Ek). exists (k ++ l). split; [apply Forall_app; auto|]. rewrite Ek, El, concat_app. reflexivity.
Qed.
Lemma room_init : forall n, n < 2 ^ 32 -> room u_init n.
Proof. intros n H. unfold room, u_init. cbn [uchar pend]. split; [lia|]. split; [exact H|]. left. reflexivity. Qed.

(** *** Proper UTF-8 *)
Lemma body_scalar : forall cs, Forall scalar cs -> forall st, exists l, Forall (json_char scalar) l /\ write_body true st (utf8_encode cs) = concat l.
Proof.
  induction 1 as [|c cs Hc Hcs IH]; intros st; [exists []; auto|].
  assert (Hcp : is_cp c) by (unfold scalar, is_cp in *; lia).
  change (utf8_encode (c :: cs)) with (utf8_bytes c ++ utf8_encode cs).
  assert (W : forall st', exists l, Forall (json_char scalar) l /\ (128 <= c \/ c < 32 -> write_unicode true c ++ write_body true st' (utf8_encode cs) = concat l)).
  { intros st'. destruct (IH st') as (l & Hl & El). unfold write_unicode. unfold is_cp in Hcp. rewrite u32_small by lia. rewrite s32_small by lia. cbn [andb].
    destruct ((128 <=? c) && negb (c =? 8232) && negb (c =? 8233)) eqn:E.
    - cbn [wide_to_utf8]. replace (c =? -1) with false by lia. rewrite app_nil_r, wide_to_utf8_1_spec by exact Hcp. exists (utf8_bytes c :: l).
      split; [|intros _; cbn [concat]; rewrite El; reflexivity]. constructor; [|exact Hl]. apply jc_self; [exact Hc|lia|lia|lia].
    - eexists (_ :: l). split; [constructor; [apply escape_char|exact Hl]|]. intros _. cbn [concat]. rewrite El. reflexivity. }
  destruct (Z_lt_le_dec c 128) as [L|L].
  - assert (B : utf8_bytes c = [c]) by (unfold utf8_bytes; replace (c <? 0x80) with true by lia; reflexivity).
    rewrite B. cbn [app write_body]. destruct (write_direct c) as [o|] eqn:E.
    + destruct (IH st) as (l & Hl & El). exists (o :: l). split; [|cbn [concat]; rewrite El; reflexivity]. constructor; [|exact Hl].
      apply (direct_char scalar c); [unfold scalar; lia|exact E].
    + assert (Hlow : c < 32).
      { unfold write_direct in E. repeat (match type of E with (if ?b then _ else _) = _ => destruct b eqn:?; try discriminate end). lia. }
      unfold is_cp in Hcp. pose proof (step_ascii false st c ltac:(lia)) as Hs. simpl as_source in Hs. rewrite Hs. cbn [flat_map]. rewrite app_nil_r.
      destruct (W st) as (l & Hl & El). exists l. split; [exact Hl|]. apply El. lia.
  - rewrite write_body_run by (apply utf8_bytes_high; auto). pose proof (decode_cp false c st Hcp) as [st' Hd].
    replace (map (as_source false) (utf8_bytes c)) with (utf8_bytes c) in Hd by (symmetry; apply map_id).
    rewrite Hd. cbn [flat_map]. rewrite app_nil_r. destruct (W st') as (l & Hl & El). exists l. split; [exact Hl|]. apply El. lia.
Qed.

(** *** Numbers *)
Lemma digit_same : forall t, Forall digit_char t -> Forall is_digit t.
Proof. intros t H. exact H. Qed.
Lemma unsigned_int : forall n, 0 <= n < 2 ^ 64 -> json_int (write_unsigned n).
Proof.
  intros n H. destruct (write_unsigned_spec n H) as (_ & D & _ & [E|(c & t & E & N)]); [left; exact E|right].
  exists c, t. rewrite E in D. inversion_clear D as [|? ? Hc Ht]. unfold digit_char in Hc. split; [exact E|]. split; [lia|exact Ht].
Qed.
Lemma unsigned_num : forall n, 0 <= n < 2 ^ 64 -> json_num (write_unsigned n).
Proof.
  intros n H. exists [], (write_unsigned n), [], []. rewrite !app_nil_r. split; [reflexivity|]. split; [auto|].
  split; [apply unsigned_int; exact H|]. split; left; reflexivity.
Qed.
Lemma signed_num : forall n, - 2 ^ 63 < n < 2 ^ 63 -> json_num (write_signed n).
Proof.
  intros n H. unfold write_signed. destruct (n <? 0) eqn:E; [|apply unsigned_num; lia].
  assert (Eu : u64 (- n) = - n) by (unfold u64; apply Z.mod_small; lia). rewrite Eu.
  exists [45], (write_unsigned (- n)), [], []. rewrite !app_nil_r. split; [reflexivity|]. split; [auto|].
  split; [apply unsigned_int; lia|]. split; left; reflexivity.
Qed.

(** *** Documents *)
Lemma ws_nil : no_ws [].
Proof. reflexivity. Qed.
Section Ser.
Variables (E : serenv) (utf8 : bool) (uni : Z -> Prop) (D : spec_float -> Prop) (Tx : bytes -> Prop) (B : enc -> bytes -> Prop).
Hypothesis HT : forall s, Tx s -> json_string uni (write_string utf8 s).
Hypothesis HW : forall s, In s [str_undefined; inf_word; neg_inf_word] -> json_string uni (write_string utf8 s).
Hypothesis HB : forall e s, B e s -> json_string uni (34 :: flat_map (write_string_body utf8) (se_binary E e s) ++ [34]).
Hypothesis HD : forall f, f_isfinite f = true -> D f -> json_num (se_double E utf8 f).
Lemma elems_json : forall l, l <> [] -> Forall (json_value no_ws uni json_num) l -> json_elems no_ws uni json_num (with_commas l).
Proof.
  induction l as [|x l IH]; intros N H; [contradiction|]. inversion_clear H as [|? ? Hx Hl].
  destruct l as [|y l].
  - cbn [with_commas]. replace x with ([] ++ x ++ []) by (cbn [app]; apply app_nil_r). apply j_one; auto using ws_nil.
  - change (with_commas (x :: y :: l)) with ([] ++ x ++ [] ++ 44 :: with_commas (y :: l)). apply j_more; auto using ws_nil. apply IH; [discriminate|exact Hl].
Qed.
Lemma members_json : forall (l : list (bytes * bytes)), l <> [] ->
  Forall (fun m => json_string uni (fst m) /\ json_value no_ws uni json_num (snd m)) l ->
  json_members no_ws uni json_num (with_commas (map (fun m => fst m ++ 58 :: snd m) l)).
Proof.
  induction l as [|[k x] l IH]; intros N H; [contradiction|]. inversion_clear H as [|? ? [Hk Hx] Hl]. cbn [fst snd] in Hk, Hx.
  destruct l as [|y l].
  - cbn [map with_commas fst snd]. replace (k ++ 58 :: x) with ([] ++ k ++ [] ++ 58 :: [] ++ x ++ []) by (cbn [app]; rewrite app_nil_r; reflexivity).
    apply j_mone; auto using ws_nil.
  - replace (with_commas (map (fun m => fst m ++ 58 :: snd m) ((k, x) :: y :: l)))
      with ([] ++ k ++ [] ++ 58 :: [] ++ x ++ [] ++ 44 :: with_commas (map (fun m => fst m ++ 58 :: snd m) (y :: l))).
    2: { change (with_commas (map (fun m => fst m ++ 58 :: snd m) ((k, x) :: y :: l)))
           with ((k ++ 58 :: x) ++ 44 :: with_commas (map (fun m => fst m ++ 58 :: snd m) (y :: l))).
         rewrite <- app_assoc. reflexivity. }
    apply j_mmore; auto using ws_nil. apply IH; [discriminate|exact Hl].
Qed.
Lemma ser_json : forall v, writable D Tx B v -> json_value no_ws uni json_num (ser E utf8 v).
Proof.
  induction v as [| |b|n|e s|l IH|d l IH] using value_ind'; intros H; inversion H; subst; cbn [ser].
  - apply j_str, HW. cbn; tauto.
  - apply j_null.
  - destruct b; [apply j_true|apply j_false].
  - apply j_num. cbn [ser_num]. apply unsigned_num; assumption.
  - apply j_num. cbn [ser_num]. apply signed_num; assumption.
  - cbn [ser_num]. destruct (f_isfinite f) eqn:Ef; [apply j_num, HD; auto|].
    apply j_str, HW. destruct (f_lt f (S754_zero false)); cbn; tauto.
  - apply j_num. assumption.
  - apply j_str, HT. assumption.
  - apply j_str, HB. assumption.
  - destruct l as [|m l]; [apply (j_arr0 _ _ _ []), ws_nil|]. apply j_arr, elems_json; [discriminate|].
    apply Forall_map. rewrite Forall_forall in IH, H1. apply Forall_forall. intros x Hx. apply IH; auto.
  - destruct l as [|m l]; [apply (j_obj0 _ _ _ []), ws_nil|]. apply j_obj.
    replace (map (fun m0 => write_string utf8 (fst m0) ++ 58 :: ser E utf8 (snd m0)) (m :: l))
      with (map (fun m0 => fst m0 ++ 58 :: snd m0) (map (fun m0 => (write_string utf8 (fst m0), ser E utf8 (snd m0))) (m :: l))) by (rewrite map_map; reflexivity).
    apply members_json; [discriminate|]. apply Forall_map. rewrite Forall_forall in IH, H1. apply Forall_forall. intros x Hx. cbn [fst snd].
    destruct (H1 x Hx) as [H2 H3]. split; [apply HT; exact H2|apply IH; auto].
Qed.
End Ser.

(** *** The three forms *)
Lemma string_of_body : forall uni utf8 s, (exists l, Forall (json_char uni) l /\ write_body utf8 u_init s = concat l) -> json_string uni (write_string utf8 s).
Proof. intros uni utf8 s (l & Hl & E). exists l. split; [exact Hl|]. unfold write_string, write_string_body. rewrite E. reflexivity. Qed.
Lemma pieces_string : forall uni utf8 ps, Forall (fun p => exists l, Forall (json_char uni) l /\ write_body utf8 u_init p = concat l) ps ->
  json_string uni (34 :: flat_map (write_string_body utf8) ps ++ [34]).
Proof.
  intros uni utf8 ps H. assert (exists l, Forall (json_char uni) l /\ flat_map (write_string_body utf8) ps = concat l) as (l & Hl & E).
  { induction H as [|p ps (k & Hk & Ek) _ (l & Hl & E)]; [exists []; auto|]. exists (k ++ l). split; [apply Forall_app; auto|].
    cbn [flat_map]. unfold write_string_body at 1. rewrite Ek, E, concat_app. reflexivity. }
  exists l. split; [exact Hl|]. rewrite E. reflexivity.
Qed.
Lemma escaped_json : forall E v, writable (fun f => json_num (se_double E false f)) (fun _ => True) (fun _ _ => True) v ->
  json_value no_ws ascii json_num (ser E false v).
Proof.
  intros E v. apply ser_json; auto.
  - intros s _. apply string_of_body, body_escaped.
  - intros s _. apply string_of_body, body_escaped.
  - intros e s _. apply pieces_string, Forall_forall. intros p _. apply body_escaped.
Qed.
Lemma short_body : forall s, short s -> exists l, Forall (json_char is_cp) l /\ write_body true u_init s = concat l.
Proof. intros s (Hb & Hl). apply body_utf8; [exact Hb|]. apply room_init. exact Hl. Qed.
Lemma utf8_json : forall E v, writable (fun f => json_num (se_double E true f)) short (fun e s => Forall short (se_binary E e s)) v ->
  json_value no_ws is_cp json_num (ser E true v).
Proof.
  intros E v. apply ser_json; auto.
  - intros s H. apply string_of_body, short_body, H.
  - intros s H. apply string_of_body, short_body. unfold short, is_bytes, is_byte.
    destruct H as [<-|[<-|[<-|[]]]]; (split; [repeat constructor; lia|vm_compute; reflexivity]).
  - intros e s H. apply pieces_string. eapply Forall_impl; [|exact H]. intros p. apply short_body.
Qed.
Lemma scalar_body : forall s, proper s -> exists l, Forall (json_char scalar) l /\ write_body true u_init s = concat l.
Proof. intros s (cs & Hc & ->). apply body_scalar, Hc. Qed.
Lemma scalar_json : forall E v, writable (fun f => json_num (se_double E true f)) proper (fun e s => Forall proper (se_binary E e s)) v ->
  json_value no_ws scalar json_num (ser E true v).
Proof.
  intros E v. apply ser_json; auto.
  - intros s H. apply string_of_body, scalar_body, H.
  - intros s H. apply string_of_body, scalar_body. unfold proper, scalar.
    destruct H as [<-|[<-|[<-|[]]]]; [exists str_undefined|exists [0x221E]|exists [45; 0x221E]];
      (split; [repeat (apply Forall_cons; [lia|]); apply Forall_nil|vm_compute; reflexivity]).
  - intros e s H. apply pieces_string. eapply Forall_impl; [|exact H]. intros p. apply scalar_body.
Qed.

(** *** Nothing below the space, and no white space *)
Scheme json_value_mut := Induction for json_value Sort Prop
  with json_elems_mut := Induction for json_elems Sort Prop
  with json_members_mut := Induction for json_members Sort Prop.
Lemma ws_weaken : forall (w1 w2 : bytes -> Prop) (u1 u2 : Z -> Prop) (n1 n2 : bytes -> Prop) t,
  (forall x, w1 x -> w2 x) -> (forall c, u1 c -> u2 c) -> (forall x, n1 x -> n2 x) -> json_value w1 u1 n1 t -> json_value w2 u2 n2 t.
Proof.
  intros w1 w2 u1 u2 n1 n2 t Hw Hu Hn H.
  assert (Hc : forall x, json_char u1 x -> json_char u2 x) by (intros x [c A B C D| |]; [apply jc_self|apply jc_esc|apply jc_hex]; auto).
  assert (Hs : forall x, json_string u1 x -> json_string u2 x) by (intros x (l & Hl & E); exists l; split; [eapply Forall_impl; [exact Hc|exact Hl]|exact E]).
  induction H using json_value_mut with
    (P0 := fun t _ => json_elems w2 u2 n2 t) (P1 := fun t _ => json_members w2 u2 n2 t); try (constructor; auto; fail).
Qed.
Lemma printable_concat : forall lo l, Forall (Forall (fun c => 32 <= c < lo)) l -> Forall (fun c => 32 <= c < lo) (concat l).
Proof. induction 1; cbn [concat]; [constructor|]. apply Forall_app. auto. Qed.
Lemma digits_printable : forall t, Forall is_digit t -> Forall (fun c => 32 <= c < 128) t.
Proof. intros t H. eapply Forall_impl; [|exact H]. unfold is_digit. intros; lia. Qed.
Lemma num_printable : forall t, json_num t -> Forall (fun c => 32 <= c < 128) t.
Proof.
  intros t (sg & ip & fp & ep & -> & Hs & Hi & Hf & He). rewrite !Forall_app. split; [|split; [|split]].
  - destruct Hs as [->| ->]; repeat constructor; lia.
  - destruct Hi as [->|(c & t' & -> & Hc & Ht)]; constructor; try lia; [constructor|apply digits_printable, Ht].
  - destruct Hf as [->|(ds & -> & _ & Hd)]; constructor; [lia|apply digits_printable, Hd].
  - destruct He as [->|(e & s & ds & -> & H1 & H2 & _ & Hd)]; constructor; [lia|]. apply Forall_app. split; [|apply digits_printable, Hd].
    destruct H2 as [->|[->| ->]]; repeat constructor; lia.
Qed.
Lemma one_line : forall (uni : Z -> Prop) hi t, 128 <= hi -> (forall c, uni c -> 32 <= c -> Forall (fun b => 32 <= b < hi) (utf8_bytes c)) ->
  json_value no_ws uni json_num t -> Forall (fun c => 32 <= c < hi) t.
Proof.
  intros uni hi t Hh Hu H.
  assert (Hn : forall t, json_num t -> Forall (fun c => 32 <= c < hi) t).
  { intros x Hx. eapply Forall_impl; [|apply num_printable, Hx]. cbv beta. intros; lia. }
  assert (Hs : forall t, json_string uni t -> Forall (fun c => 32 <= c < hi) t).
  { intros x (l & Hl & ->). constructor; [lia|]. apply Forall_app. split; [|repeat constructor; lia]. apply printable_concat.
    eapply Forall_impl; [|exact Hl]. intros y [c A B _ _|e He|a b c d Ha Hb Hc Hd].
    - apply Hu; auto.
    - cbn in He. repeat constructor; lia.
    - unfold is_hex in *. repeat constructor; lia. }
  induction H using json_value_mut with
    (P0 := fun t _ => Forall (fun c => 32 <= c < hi) t) (P1 := fun t _ => Forall (fun c => 32 <= c < hi) t); unfold no_ws in *; subst; cbn [app];
    repeat (first [apply Forall_app; split | constructor | apply Hn; assumption | apply Hs; assumption | assumption]); lia.
Qed.
Lemma one_line_utf8 : forall t, json_value no_ws is_cp json_num t -> Forall (fun c => 32 <= c < 256) t.
Proof.
  intros t. apply one_line; [lia|]. intros c Hc H. destruct (Z_lt_le_dec c 128) as [L|L].
  - unfold utf8_bytes. replace (c <? 0x80) with true by lia. repeat constructor; lia.
  - pose proof (utf8_bytes_high c Hc L) as H1. pose proof (utf8_bytes_range c Hc) as H2. unfold is_bytes in H2. rewrite Forall_forall in *. intros b Hb.
    specialize (H1 b Hb). specialize (H2 b Hb). unfold is_byte in H2. cbv beta in *. lia.
Qed.
Lemma one_line_ascii : forall t, json_value no_ws ascii json_num t -> Forall (fun c => 32 <= c < 128) t.
Proof.
  intros t. apply one_line; [lia|]. intros c Hc H. unfold ascii in Hc.
  unfold utf8_bytes. replace (c <? 0x80) with true by lia. repeat constructor; lia.
Qed.
