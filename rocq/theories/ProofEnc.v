(** Lemmas about the binary encodings. *)
From Verif Require Import Base ModelUtf8 SpecUtf8 ProofUtf8 ModelValue ModelEnc SpecEnc.
From Coq Require Import ZifyBool.
Local Open Scope Z_scope.
Ltac Zify.zify_post_hook ::= Z.div_mod_to_equations.

(** *** Tables *)
Lemma b64_char_digit : forall url i, 0 <= i < 64 -> b64_char url i = b64_digit url i.
Proof.
  intros url i H. apply Z.eqb_eq. revert i H. destruct url;
  apply (sweep (fun i => b64_char _ i =? b64_digit _ i) 0 64); vm_compute; reflexivity.
Qed.
Lemma b64_table_digit : forall url i, 0 <= i < 64 -> b64_table url (b64_digit url i) = i.
Proof.
  intros url i H. apply Z.eqb_eq. revert i H. destruct url;
  apply (sweep (fun i => b64_table _ (b64_digit _ i) =? i) 0 64); vm_compute; reflexivity.
Qed.
Lemma b64_digit_letter : forall i, 0 <= i < 64 -> b64_letter (b64_digit false i) /\ b64url_letter (b64_digit true i).
Proof.
  intros i H. unfold b64_letter, b64url_letter, letter_or_digit, b64_digit.
  destruct (i <? 26) eqn:E1; [lia|]. destruct (i <? 52) eqn:E2; [lia|]. destruct (i <? 62) eqn:E3; [lia|].
  destruct (i =? 62); lia.
Qed.
Lemma b64_digit_pad : forall url i, 0 <= i < 64 -> b64_digit url i <> 61.
Proof.
  intros url i H. destruct (b64_digit_letter i H) as [H1 H2]. unfold b64_letter, b64url_letter, letter_or_digit in *. destruct url; lia.
Qed.

(** *** Encoding *)
Fixpoint b64_stream (url tail : bool) (padd : nat) (data : bytes) (rd nx : Z) : bytes :=
  match data with
  | [] => (if rd mod 3 =? 0 then [] else [b64_char url nx]) ++ (if tail then repeat 61 padd else [])
  | c :: data' => let '(o, nx1) := b64_turn url rd nx c in o ++ b64_stream url tail padd data' (rd + 1) nx1
  end.

Lemma b64_loop_stream : forall url tail padd data rd nx buff,
  concat (b64_loop url tail padd data rd nx buff) = buff ++ b64_stream url tail padd data rd nx.
Proof.
  intros url tail padd. induction data as [|c data IH]; intros rd nx buff; cbn [b64_loop b64_stream].
  - cbn [concat]. rewrite app_nil_r. destruct (rd mod 3 =? 0), tail; cbn [app]; rewrite ?app_nil_r, <- ?app_assoc; reflexivity.
  - destruct (b64_turn url rd nx c) as [o nx1]. destruct (250 <? length (buff ++ o))%nat.
    + cbn [concat]. rewrite IH. cbn [app]. rewrite app_assoc. reflexivity.
    + rewrite IH, app_assoc. reflexivity.
Qed.

Lemma b64_turn_length : forall url rd nx c, (length (fst (b64_turn url rd nx c)) <= 2)%nat.
Proof. intros. unfold b64_turn. destruct (rd mod 3 =? 0); [|destruct (rd mod 3 =? 1)]; cbn; lia. Qed.

Lemma b64_loop_chunks : forall url tail padd data rd nx buff, (padd <= 2)%nat -> (length buff <= 250)%nat ->
  Forall (fun s => (length s <= 253)%nat) (b64_loop url tail padd data rd nx buff).
Proof.
  intros url tail padd data rd nx buff Hp. revert rd nx buff. induction data as [|c data IH]; intros rd nx buff Hb; cbn [b64_loop].
  - constructor; [|constructor]. destruct (rd mod 3 =? 0), tail; rewrite ?app_length, ?repeat_length; cbn [length]; lia.
  - pose proof (b64_turn_length url rd nx c) as Ht. destruct (b64_turn url rd nx c) as [o nx1]. cbn [fst] in Ht.
    destruct (Nat.ltb_spec 250 (length (buff ++ o))).
    + constructor; [rewrite app_length; lia|]. apply IH. cbn; lia.
    + apply IH. auto.
Qed.

Lemma shr2 : forall x, Z.shiftr x 2 = x / 4.
Proof. intros. rewrite Z.shiftr_div_pow2 by lia. reflexivity. Qed.
Lemma shr4 : forall x, Z.shiftr x 4 = x / 16.
Proof. intros. rewrite Z.shiftr_div_pow2 by lia. reflexivity. Qed.
Lemma shl2 : forall x, Z.shiftl x 2 = x * 4.
Proof. intros. rewrite Z.shiftl_mul_pow2 by lia. reflexivity. Qed.
Lemma shl4 : forall x, Z.shiftl x 4 = x * 16.
Proof. intros. rewrite Z.shiftl_mul_pow2 by lia. reflexivity. Qed.
Lemma shl6 : forall x, Z.shiftl x 6 = x * 64.
Proof. intros. rewrite Z.shiftl_mul_pow2 by lia. reflexivity. Qed.
Lemma lor16 : forall x y, 0 <= y < 16 -> Z.lor (x * 16) y = x * 16 + y.
Proof. intros. pose proof (lor_shift_add x y 4) as L. rewrite shl4 in L. change (2 ^ 4) with 16 in L. apply L; lia. Qed.
Lemma lor4 : forall x y, 0 <= y < 4 -> Z.lor (x * 4) y = x * 4 + y.
Proof. intros. pose proof (lor_shift_add x y 2) as L. rewrite shl2 in L. change (2 ^ 2) with 4 in L. apply L; lia. Qed.
Lemma lor64 : forall x y, 0 <= y < 64 -> Z.lor (x * 64) y = x * 64 + y.
Proof. intros. pose proof (lor_shift_add x y 6) as L. rewrite shl6 in L. change (2 ^ 6) with 64 in L. apply L; lia. Qed.

Lemma turn0 : forall url rd nx a, is_byte a -> rd mod 3 = 0 ->
  b64_turn url rd nx a = ([b64_digit url (a / 4)], a mod 4 * 16).
Proof.
  unfold is_byte. intros url rd nx a Ha Hr. unfold b64_turn. rewrite Hr. cbn [Z.eqb]. rewrite shr2, shl4, land63, b64_char_digit by lia.
  unfold to_byte. f_equal. lia.
Qed.
Lemma turn1 : forall url rd x b, is_byte b -> rd mod 3 = 1 -> 0 <= x < 4 ->
  b64_turn url rd (x * 16) b = ([b64_digit url (x * 16 + b / 16)], b mod 16 * 4).
Proof.
  unfold is_byte. intros url rd x b Hb Hr Hx. unfold b64_turn. rewrite Hr. cbn [Z.eqb Pos.eqb].
  rewrite shr4, shl2, land63, lor16, b64_char_digit by lia. unfold to_byte. f_equal. lia.
Qed.
Lemma turn2 : forall url rd x c, is_byte c -> rd mod 3 = 2 -> 0 <= x < 16 ->
  b64_turn url rd (x * 4) c = ([b64_digit url (x * 4 + c / 64); b64_digit url (c mod 64)], x * 4).
Proof.
  unfold is_byte. intros url rd x c Hc Hr Hx. unfold b64_turn. rewrite Hr. cbn [Z.eqb Pos.eqb].
  rewrite shr6, land63, lor4, !b64_char_digit by lia. reflexivity.
Qed.

(** Induction by groups of three. *)
Lemma three_ind : forall (A : Type) (P : list A -> Prop), P [] -> (forall a, P [a]) -> (forall a b, P [a; b]) ->
  (forall a b c s, P s -> P (a :: b :: c :: s)) -> forall s, P s.
Proof.
  intros A P H0 H1 H2 H3 s. enough (P s /\ (forall a, P (a :: s)) /\ (forall a b, P (a :: b :: s))) by tauto.
  induction s as [|x s (I1 & I2 & I3)]; auto.
Qed.

Lemma cons_eq : forall (A : Type) (a b : A) l m, a = b -> l = m -> a :: l = b :: m.
Proof. intros; subst; reflexivity. Qed.

Definition pad_of (n : nat) : nat := ((n + 2) / 3 * 3 - n)%nat.
Lemma pad_of_3 : forall n, pad_of (S (S (S n))) = pad_of n.
Proof.
  intros n. unfold pad_of. replace (S (S (S n)) + 2)%nat with ((n + 2) + 1 * 3)%nat by lia. rewrite Nat.div_add by lia. lia.
Qed.

Lemma b64_stream_spec : forall url tail s rd nx, is_bytes s -> rd mod 3 = 0 ->
  b64_stream url tail (pad_of (length s)) s rd nx = b64_text url tail s.
Proof.
  intros url tail s. induction s as [| a | a b | a b c s IH] using three_ind; intros rd nx Hs Hr.
  - cbn [b64_stream b64_text length]. rewrite Hr. destruct tail; reflexivity.
  - inversion Hs; subst. cbn [b64_stream]. rewrite (turn0 url rd nx a) by auto.
    replace ((rd + 1) mod 3 =? 0) with false by lia. unfold is_byte in *. rewrite b64_char_digit by lia.
    cbn [app b64_text length]. unfold padding. apply cons_eq; [f_equal; lia|]. apply cons_eq; [f_equal; lia|]. reflexivity.
  - inversion Hs as [|? ? Ha Hs']; subst. inversion Hs' as [|? ? Hb _]; subst. cbn [b64_stream]. rewrite (turn0 url rd nx a) by auto.
    rewrite (turn1 url (rd + 1)) by (auto; lia).
    replace ((rd + 1 + 1) mod 3 =? 0) with false by lia. unfold is_byte in *. rewrite b64_char_digit by lia.
    cbn [app b64_text length]. unfold padding. apply cons_eq; [f_equal; lia|]. apply cons_eq; [f_equal; lia|]. apply cons_eq; [f_equal; lia|]. reflexivity.
  - inversion Hs as [|? ? Ha Hs']; subst. inversion Hs' as [|? ? Hb Hs'']; subst. inversion Hs'' as [|? ? Hc Hs3]; subst.
    cbn [b64_stream]. rewrite (turn0 url rd nx a) by auto.
    rewrite (turn1 url (rd + 1)) by (auto; lia). rewrite (turn2 url (rd + 1 + 1)) by (auto; lia).
    cbn [length]. rewrite pad_of_3, IH by (auto; lia). unfold is_byte in *.
    cbn [app b64_text]. apply cons_eq; [f_equal; lia|]. apply cons_eq; [f_equal; lia|]. apply cons_eq; [f_equal; lia|]. apply cons_eq; [f_equal; lia|]. reflexivity.
Qed.

Lemma b64_encode_spec : forall url tail s, is_bytes s -> concat (b64_encode_core url tail s) = b64_text url tail s.
Proof.
  intros url tail s Hs. destruct s as [|a s]; [reflexivity|]. unfold b64_encode_core. rewrite b64_loop_stream. cbn [app].
  change ((length (a :: s) + 2) / 3 * 3 - length (a :: s))%nat with (pad_of (length (a :: s))). apply b64_stream_spec; auto.
Qed.

Lemma b64_encode_chunks : forall url tail s, Forall (fun c => (length c <= 256)%nat) (b64_encode_core url tail s).
Proof.
  intros url tail s. destruct s as [|a s]; [constructor|]. unfold b64_encode_core.
  eapply Forall_impl; [|apply b64_loop_chunks; cbn [length]; [|lia]]. { cbn. intros; lia. }
  pose proof (Nat.div_mod (S (length s) + 2) 3). lia.
Qed.

(** *** Decoding *)
Lemma land3 : forall x, Z.land x 3 = x mod 4.
Proof. intros. apply (Z.land_ones x 2). lia. Qed.

Definition quad (url : bool) (d0 d1 d2 d3 : Z) : bytes := map (b64_digit url) [d0; d1; d2; d3].

Lemma decode_quad : forall url d0 d1 d2 d3 s rd out cur, rd mod 4 = 0 ->
  0 <= d0 < 64 -> 0 <= d1 < 64 -> 0 <= d2 < 64 -> 0 <= d3 < 64 ->
  b64_decode_loop url (quad url d0 d1 d2 d3 ++ s) rd out cur =
  b64_decode_loop url s (rd + 4) (out ++ [d0 * 4 + d1 / 16; d1 mod 16 * 16 + d2 / 4; d2 mod 4 * 64 + d3]) 0.
Proof.
  intros url d0 d1 d2 d3 s rd out cur Hr H0 H1 H2 H3. unfold quad. cbn [map app b64_decode_loop]. rewrite !land3, !b64_table_digit by auto.
  replace (rd mod 4 =? 0) with true by lia. replace ((rd + 1) mod 4) with 1 by lia. replace ((rd + 1 + 1) mod 4) with 2 by lia.
  replace ((rd + 1 + 1 + 1) mod 4) with 3 by lia. cbn [Z.eqb Pos.eqb]. rewrite <- !app_assoc. cbn [app].
  rewrite shl2, !shl4, shl6, shr4, shr2. unfold to_byte.
  replace (d0 * 4 mod 256) with (d0 * 4) by lia. replace (d1 * 16 mod 256) with (d1 mod 16 * 16) by lia.
  replace (d2 * 64 mod 256) with (d2 mod 4 * 64) by lia. rewrite lor4, lor16, lor64 by lia. f_equal. lia.
Qed.

Lemma decode_text : forall url s rd out cur, is_bytes s -> rd mod 4 = 0 -> exists junk,
  b64_decode_loop url (b64_text url false s) rd out cur = out ++ s ++ junk.
Proof.
  intros url s. induction s as [| a | a b | a b c s IH] using three_ind; intros rd out cur Hs Hr.
  - exists []. cbn [b64_text b64_decode_loop]. rewrite Hr. cbn [Z.eqb]. rewrite app_nil_r. reflexivity.
  - inversion Hs as [|? ? Ha _]; subst. unfold is_byte in Ha. cbn [b64_text padding app]. cbn [b64_decode_loop].
    rewrite !land3, !b64_table_digit by lia.
    replace (rd mod 4 =? 0) with true by lia. replace ((rd + 1) mod 4) with 1 by lia. replace ((rd + 1 + 1) mod 4) with 2 by lia.
    cbn [Z.eqb Pos.eqb]. eexists. rewrite <- app_assoc. cbn [app]. f_equal. f_equal.
    rewrite shl2, shr4. unfold to_byte. replace (a * 16 / 64 * 4 mod 256) with (a * 16 / 64 * 4) by lia. rewrite lor4 by lia. lia.
  - inversion Hs as [|? ? Ha Hs']; subst. inversion Hs' as [|? ? Hb _]; subst. unfold is_byte in *. cbn [b64_text padding app].
    cbn [b64_decode_loop]. set (n := (a * 256 + b) * 4). assert (0 <= n < 262144) by lia.
    rewrite !land3, !b64_table_digit by lia.
    replace (rd mod 4 =? 0) with true by lia. replace ((rd + 1) mod 4) with 1 by lia. replace ((rd + 1 + 1) mod 4) with 2 by lia.
    replace ((rd + 1 + 1 + 1) mod 4) with 3 by lia.
    cbn [Z.eqb Pos.eqb]. eexists. rewrite <- !app_assoc. cbn [app]. f_equal.
    rewrite shl2, shl4, shr4, shr2. unfold to_byte. replace (n / 4096 * 4 mod 256) with (n / 4096 * 4) by lia.
    replace (n / 64 mod 64 * 16 mod 256) with (n / 64 mod 16 * 16) by lia.
    rewrite lor4, lor16 by lia. apply cons_eq; [lia|]. apply cons_eq; [lia|reflexivity].
  - inversion Hs as [|? ? Ha Hs']; subst. inversion Hs' as [|? ? Hb Hs'']; subst. inversion Hs'' as [|? ? Hc Hs3]; subst.
    unfold is_byte in *. cbn [b64_text]. set (n := (a * 256 + b) * 256 + c). assert (0 <= n < 16777216) by lia.
    change (exists junk, b64_decode_loop url (quad url (n / 262144) (n / 4096 mod 64) (n / 64 mod 64) (n mod 64) ++ b64_text url false s) rd out cur
      = out ++ (a :: b :: c :: s) ++ junk).
    rewrite decode_quad by lia. destruct (IH (rd + 4) (out ++ [n / 262144 * 4 + n / 4096 mod 64 / 16; n / 4096 mod 64 mod 16 * 16 + n / 64 mod 64 / 4; n / 64 mod 64 mod 4 * 64 + n mod 64]) 0)
      as [junk ->]; auto; [lia|]. exists junk. rewrite <- app_assoc. cbn [app]. f_equal. apply cons_eq; [lia|]. apply cons_eq; [lia|]. apply cons_eq; [lia|reflexivity].
Qed.

Lemma text_length : forall url s, length (b64_text url false s) = (length s + (length s + 2) / 3)%nat.
Proof.
  intros url s. induction s as [| a | a b | a b c s IH] using three_ind; auto. cbn [b64_text app length]. rewrite IH.
  replace (S (S (S (length s))) + 2)%nat with ((length s + 2) + 1 * 3)%nat by lia. rewrite Nat.div_add by lia. lia.
Qed.

Lemma text_pad : forall url s, b64_text url true s = b64_text url false s ++ repeat 61 (pad_of (length s)).
Proof.
  intros url s. induction s as [| a | a b | a b c s IH] using three_ind; auto.
  cbn [b64_text length]. rewrite IH, pad_of_3, app_assoc. reflexivity.
Qed.

Lemma text_letters : forall url s, is_bytes s ->
  Forall (fun c => exists d, 0 <= d < 64 /\ c = b64_digit url d) (b64_text url false s).
Proof.
  intros url s. induction s as [| a | a b | a b c s IH] using three_ind; intros Hs; [constructor| | |];
    repeat match goal with H : is_bytes (_ :: _) |- _ => inversion H; clear H; subst | H : Forall is_byte (_ :: _) |- _ => inversion H; clear H; subst end;
    unfold is_byte in *; cbn [b64_text padding app]; repeat (constructor; [eexists; split; [|reflexivity]; lia|]); try constructor. auto.
Qed.

Lemma nth_last_app : forall (l : bytes) x d, nth (length (l ++ [x]) - 1) (l ++ [x]) d = x.
Proof.
  intros. rewrite app_length. cbn [length]. replace (length l + 1 - 1)%nat with (length l) by lia.
  rewrite app_nth2, Nat.sub_diag by lia. reflexivity.
Qed.

Lemma strip_pad : forall (l : bytes) p n, (forall c, In c l -> c <> 61) -> l <> [] -> (p <= 2)%nat ->
  (let '(f, len) := if nth (length (l ++ repeat 61%Z p) - 1) (l ++ repeat 61%Z p) 0 =? 61 then (n - 1, length (l ++ repeat 61%Z p) - 1)%nat else (n, length (l ++ repeat 61%Z p)) in
   if nth (len - 1) (l ++ repeat 61%Z p) 0 =? 61 then (f - 1, len - 1)%nat else (f, len)) = ((n - p)%nat, length l).
Proof.
  intros l p n Hl Hn Hp.
  destruct (exists_last Hn) as (l' & x & ->).
  assert (Hx : x <> 61) by (apply Hl, in_or_app; right; left; reflexivity).
  assert (Hlast : forall r, nth (length (l' ++ [x]) - 1) ((l' ++ [x]) ++ r) 0 =? 61 = false).
  { intros r. rewrite app_nth1 by (rewrite app_length; cbn [length]; lia). rewrite nth_last_app. lia. }
  destruct p as [|[|[|p]]]; [| | |lia]; cbn [repeat].
  - rewrite app_nil_r. pose proof (Hlast []) as E. rewrite app_nil_r in E. rewrite E, E. f_equal. lia.
  - rewrite nth_last_app. cbn [Z.eqb Pos.eqb]. rewrite app_length. cbn [length].
    replace (length (l' ++ [x]) + 1 - 1)%nat with (length (l' ++ [x])) by lia. rewrite Hlast. reflexivity.
  - change [61; 61] with ([61] ++ [61]). rewrite app_assoc, nth_last_app. cbn [Z.eqb Pos.eqb]. rewrite !app_length. cbn [length].
    replace (length l' + 1 + 1 + 1 - 1 - 1)%nat with (length (l' ++ [x])) by (rewrite app_length; cbn [length]; lia).
    rewrite <- app_assoc, app_nth2, Nat.sub_diag by lia. cbn [app nth Z.eqb Pos.eqb]. rewrite app_length. cbn [length]. f_equal; lia.
Qed.

Lemma third : forall n, ((n + (n + 2) / 3) * 3 / 4 = n)%nat.
Proof.
  intros n. pose proof (Nat.div_mod (n + 2) 3 ltac:(lia)). pose proof (Nat.mod_upper_bound (n + 2) 3 ltac:(lia)).
  set (q := ((n + 2) / 3)%nat) in *. pose proof (Nat.div_mod ((n + q) * 3) 4 ltac:(lia)).
  pose proof (Nat.mod_upper_bound ((n + q) * 3) 4 ltac:(lia)). lia.
Qed.

Lemma b64url_round_trip : forall s, is_bytes s -> b64url_decode (concat (b64_encode_core true false s)) = VStr (Some EncBase64) s.
Proof.
  intros s Hs. rewrite b64_encode_spec by auto. unfold b64url_decode, b64_decoder_core.
  destruct (decode_text true s 0 [] 0 Hs eq_refl) as [junk ->]. cbn [app]. rewrite text_length, third.
  rewrite firstn_app, Nat.sub_diag, firstn_all. cbn [firstn]. rewrite app_nil_r. reflexivity.
Qed.

Lemma b64_round_trip : forall s, is_bytes s -> s <> [] -> b64_decode (concat (b64_encode_core false true s)) = VStr (Some EncBase64) s.
Proof.
  intros s Hs Hn. rewrite b64_encode_spec by auto. unfold b64_decode, b64_decoder_core. rewrite text_pad.
  set (l := b64_text false false s). set (p := pad_of (length s)).
  assert (Hl : length l = (length s + (length s + 2) / 3)%nat) by apply text_length.
  assert (Hsn : (length s <> 0)%nat) by (destruct s; [congruence|cbn; lia]).
  pose proof (Nat.div_mod (length s + 2) 3 ltac:(lia)) as Hq. pose proof (Nat.mod_upper_bound (length s + 2) 3 ltac:(lia)) as Hm.
  set (q := ((length s + 2) / 3)%nat) in *. assert (Hp : p = (q * 3 - length s)%nat) by reflexivity.
  assert (Htot : length (l ++ repeat 61%Z p) = (4 * q)%nat) by (rewrite app_length, repeat_length; lia).
  assert (Hln : l <> []) by (intros E; rewrite E in Hl; cbn [length] in Hl; lia).
  replace (length (l ++ repeat 61%Z p) mod 4 =? 0)%nat with true.
  2:{ symmetry. apply Nat.eqb_eq. rewrite Htot, Nat.mul_comm. apply Nat.mod_mul. lia. }
  replace (length (l ++ repeat 61%Z p) =? 0)%nat with false by (symmetry; apply Nat.eqb_neq; lia). cbn [negb orb].
  pose proof (strip_pad l p (length (l ++ repeat 61%Z p) * 3 / 4) ) as Hst.
  destruct (if nth (length (l ++ repeat 61%Z p) - 1) (l ++ repeat 61%Z p) 0 =? 61
        then ((length (l ++ repeat 61%Z p) * 3 / 4 - 1)%nat, (length (l ++ repeat 61%Z p) - 1)%nat)
        else ((length (l ++ repeat 61%Z p) * 3 / 4)%nat, length (l ++ repeat 61%Z p))) as [f len].
  cbv beta iota in Hst. rewrite Hst; auto; [| |lia].
  - rewrite firstn_app, Nat.sub_diag, firstn_all. cbn [firstn]. rewrite app_nil_r.
    destruct (decode_text false s 0 [] 0 Hs eq_refl) as [junk Hj]. fold l in Hj. rewrite Hj. cbn [app].
    replace (length (l ++ repeat 61%Z p) * 3 / 4 - p)%nat with (length s).
    + rewrite firstn_app, Nat.sub_diag, firstn_all. cbn [firstn]. rewrite app_nil_r. reflexivity.
    + rewrite Htot. replace (4 * q * 3)%nat with ((q * 3) * 4)%nat by lia. rewrite Nat.div_mul by lia. lia.
  - intros c Hc. pose proof (text_letters false s Hs) as Ht. rewrite Forall_forall in Ht. destruct (Ht c Hc) as (d & Hd & ->).
    apply b64_digit_pad; auto.
Qed.

Lemma b64_shape : forall s, is_bytes s -> exists body,
  concat (b64_encode_core false true s) = body ++ repeat 61 (pad_of (length s)) /\ Forall b64_letter body /\
  (length (concat (b64_encode_core false true s)) = 4 * ((length s + 2) / 3))%nat.
Proof.
  intros s Hs. rewrite b64_encode_spec by auto. exists (b64_text false false s). split; [apply text_pad|]. split.
  - eapply Forall_impl; [|apply text_letters; auto]. intros c (d & Hd & ->). apply b64_digit_letter; auto.
  - rewrite text_pad, app_length, repeat_length, text_length. unfold pad_of.
    pose proof (Nat.div_mod (length s + 2) 3 ltac:(lia)). pose proof (Nat.mod_upper_bound (length s + 2) 3 ltac:(lia)). lia.
Qed.

Lemma b64url_letters : forall s, is_bytes s -> Forall b64url_letter (concat (b64_encode_core true false s)).
Proof.
  intros s Hs. rewrite b64_encode_spec by auto. eapply Forall_impl; [|apply text_letters; auto].
  intros c (d & Hd & ->). apply b64_digit_letter; auto.
Qed.

(** The decoder stays inside its buffer, whatever the text. *)
Lemma decode_loop_length : forall url str rd out cur, 0 <= rd ->
  (length (b64_decode_loop url str rd out cur) <= length out + (if (rd mod 4 =? 0)%Z then 0 else 1) + length str)%nat.
Proof.
  intros url. induction str as [|z str IH]; intros rd out cur Hr; cbn [b64_decode_loop].
  - destruct (rd mod 4 =? 0); rewrite ?app_length; cbn [length]; lia.
  - rewrite !land3. set (w := b64_table url z).
    destruct (rd mod 4 =? 0) eqn:E0; [|destruct (rd mod 4 =? 1) eqn:E1; [|destruct (rd mod 4 =? 2) eqn:E2]];
    (etransitivity; [apply IH; lia|]); rewrite ?app_length; cbn [length].
    + replace ((rd + 1) mod 4 =? 0) with false by lia. lia.
    + replace ((rd + 1) mod 4 =? 0) with false by lia. lia.
    + replace ((rd + 1) mod 4 =? 0) with false by lia. lia.
    + replace ((rd + 1) mod 4 =? 0) with true by lia. lia.
Qed.
Lemma decoder_core_length : forall url str, (length (b64_decoder_core url str) <= length str)%nat.
Proof. intros. unfold b64_decoder_core. pose proof (decode_loop_length url str 0 [] 0). cbn in H. lia. Qed.

(** *** Percent encoding *)
Lemma hexchar_digit : forall d, hexchar d = hex_digit d.
Proof. intros. unfold hexchar, hex_digit. destruct (d <? 10); lia. Qed.
Lemma unhex_digit : forall d, 0 <= d < 16 -> unhexchar (hex_digit d) = d.
Proof.
  intros d H. apply Z.eqb_eq. revert d H. apply (sweep (fun d => unhexchar (hex_digit d) =? d) 0 16). vm_compute. reflexivity.
Qed.

Lemma plain_test : forall c, is_byte c ->
  (negb (c =? 0) && (is_alnum c || existsb (Z.eqb c) url_marks) = true <-> unreserved c).
Proof.
  unfold is_byte. intros c H. unfold unreserved, letter_or_digit, is_alnum, url_marks. cbn [existsb In]. lia.
Qed.

Lemma url_encode_percent : forall s, is_bytes s -> percent s (concat (url_encode s)).
Proof.
  induction s as [|c s IH]; intros Hs; [constructor|]. inversion Hs as [|? ? Hc Hs']; subst. unfold url_encode. cbn [map concat].
  unfold url_encode1. pose proof (plain_test c Hc) as Hp. destruct (negb (c =? 0) && (is_alnum c || existsb (Z.eqb c) url_marks)).
  - cbn [app]. constructor; [tauto|apply IH; auto].
  - cbn [app]. rewrite shr4, land15, !hexchar_digit. constructor; [intros K; apply Hp in K; discriminate|apply IH; auto].
Qed.

Lemma unreserved_plain : forall c, unreserved c -> c <> 37 /\ c <> 43.
Proof. unfold unreserved, letter_or_digit. cbn [In]. lia. Qed.

Lemma url_decode_percent : forall s t, percent s t -> is_bytes s ->
  url_decode_loop t = (s, false) /\ url_count t 0 = length s.
Proof.
  intros s t H. induction H as [|c s t Hc H IH|c s t Hc H IH]; intros Hs; [split; reflexivity| |];
    inversion Hs as [|? ? Hb Hs']; subst; destruct (IH Hs') as [I1 I2].
  - apply unreserved_plain in Hc. cbn [url_decode_loop url_count length]. destruct (Z.eqb_spec c 37); [lia|].
    destruct (Z.eqb_spec c 43); [lia|]. rewrite I1, I2. auto.
  - unfold is_byte in Hb. cbn [url_decode_loop url_count length]. cbn [Z.eqb Pos.eqb]. rewrite I1. cbn [url_count]. rewrite I2. split; auto.
    f_equal. f_equal. rewrite !unhex_digit, shl4, land15 by lia. rewrite lor16 by lia. unfold to_byte. lia.
Qed.

Lemma url_round_trip : forall s, is_bytes s -> url_decode (concat (url_encode s)) = VStr (Some EncUrl) s.
Proof.
  intros s Hs. destruct (url_decode_percent _ _ (url_encode_percent s Hs) Hs) as [H1 H2]. unfold url_decode. rewrite H1, H2, firstn_all. reflexivity.
Qed.

(** The size computed in advance always fits what is written. *)
Lemma list_pairs : forall (P : bytes -> Prop), (forall s, (forall t, (length t < length s)%nat -> P t) -> P s) -> forall s, P s.
Proof. intros P H s. apply (well_founded_induction (Wf_nat.well_founded_ltof _ (@length Z))). exact H. Qed.

Lemma url_decode_size : forall t, is_bytes t -> let '(o, cut) := url_decode_loop t in
  length o = (if cut then url_count t 0 - 1 else url_count t 0)%nat /\ (cut = true -> url_count t 0 <> 0%nat).
Proof.
  intros t. induction t as [t IH] using list_pairs. intros Ht. destruct t as [|c t]; [cbn; split; [reflexivity|discriminate]|].
  inversion Ht as [|? ? Hc Ht']; subst. cbn [url_decode_loop url_count]. destruct (Z.eqb_spec c 37) as [->|Hn].
  - destruct t as [|h1 [|h2 t]]; [cbn; split; [reflexivity|discriminate]|cbn; split; [reflexivity|discriminate]|].
    inversion Ht' as [|? ? _ Ht2]; subst. inversion Ht2 as [|? ? _ Ht3]; subst.
    specialize (IH t ltac:(cbn; lia) Ht3). destruct (url_decode_loop t) as [o cut]. cbn [url_count length].
    destruct IH as [I1 I2]. split; [destruct cut; [specialize (I2 eq_refl)|]; lia|lia].
  - specialize (IH t ltac:(cbn; lia) Ht'). destruct (url_decode_loop t) as [o cut]. destruct IH as [I1 I2]. cbn [length].
    split; [destruct cut; [specialize (I2 eq_refl)|]; lia|lia].
Qed.

(** *** Bytes as UTF-8 *)
Lemma bytes_cp : forall s, is_bytes s -> Forall is_cp s.
Proof. intros s H. eapply Forall_impl; [|exact H]. unfold is_byte, is_cp. intros; lia. Qed.

Lemma blocks_concat : forall s buff, concat (blocks s buff) = buff ++ s.
Proof.
  induction s as [|c s IH]; intros buff; cbn [blocks].
  - destruct buff; cbn [concat]; rewrite ?app_nil_r; reflexivity.
  - destruct (length (buff ++ [c]) =? 256)%nat; cbn [concat]; rewrite IH, <- app_assoc; reflexivity.
Qed.

Lemma utf8_round_trip : forall s, is_bytes s ->
  concat (utf8_encode_blocks s) = utf8_encode s /\ utf8_encode_value s = VStr None (utf8_encode s) /\
  utf8_decode (utf8_encode s) = Some (VStr (Some EncUtf8) s).
Proof.
  intros s Hs. pose proof (bytes_cp s Hs) as Hc. unfold utf8_encode_blocks, utf8_encode_value. rewrite blocks_concat. cbn [app].
  rewrite wide_to_utf8_spec by auto. split; [reflexivity|]. split; [reflexivity|]. unfold utf8_decode.
  assert (Hd : forall st, exists st', utf8_to_wide st (utf8_encode s) = (st', s)).
  { intros st. pose proof (decode_encode false s st Hc) as H. replace (map (as_source false) (utf8_encode s)) with (utf8_encode s) in H
      by (symmetry; apply map_id). destruct (utf8_to_wide st (utf8_encode s)) as [st' o]. exists st'. cbn [snd] in H. congruence. }
  destruct (Hd u_init) as [st1 ->]. destruct (Hd st1) as [st2 ->]. rewrite Nat.eqb_refl. f_equal. f_equal.
  rewrite <- (map_id s) at 2. apply map_ext_in. intros a Ha. unfold is_bytes in Hs. rewrite Forall_forall in Hs. specialize (Hs a Ha). unfold is_byte, to_byte in *. lia.
Qed.

Lemma utf8_decode_valid : forall cs, Forall is_cp cs -> utf8_decode (utf8_encode cs) = Some (VStr (Some EncUtf8) (map to_byte cs)).
Proof.
  intros s Hc. unfold utf8_decode.
  assert (Hd : forall st, exists st', utf8_to_wide st (utf8_encode s) = (st', s)).
  { intros st. pose proof (decode_encode false s st Hc) as H. replace (map (as_source false) (utf8_encode s)) with (utf8_encode s) in H
      by (symmetry; apply map_id). destruct (utf8_to_wide st (utf8_encode s)) as [st' o]. exists st'. cbn [snd] in H. congruence. }
  destruct (Hd u_init) as [st1 ->]. destruct (Hd st1) as [st2 ->]. rewrite Nat.eqb_refl. reflexivity.
Qed.

(** *** The statements of PropEnc *)
Lemma base64_value : forall s, is_bytes s -> exists t, encode_value EncBase64 s = VStr None t /\ t = b64_text false true s /\
  get_binary EncBase64 (VStr None t) = Some s.
Proof.
  intros s Hs. exists (b64_text false true s). unfold encode_value. cbn [encode_chunks]. rewrite b64_encode_spec by auto.
  split; auto. split; auto. destruct s as [|a s]; [reflexivity|].
  pose proof (b64_round_trip (a :: s) Hs ltac:(discriminate)) as H. rewrite b64_encode_spec in H by auto.
  cbn [get_binary]. destruct (b64_text false true (a :: s)) eqn:E; [cbn in H; inversion H|]. cbn [decode_value]. rewrite H. reflexivity.
Qed.

Lemma base64url_value : forall s, is_bytes s -> exists t, encode_value EncBase64Url s = VStr None t /\ t = b64_text true false s /\
  get_binary EncBase64Url (VStr None t) = Some s.
Proof.
  intros s Hs. exists (b64_text true false s). unfold encode_value. cbn [encode_chunks]. rewrite b64_encode_spec by auto.
  split; auto. split; auto. pose proof (b64url_round_trip s Hs) as H. rewrite b64_encode_spec in H by auto.
  cbn [get_binary]. destruct (b64_text true false s) eqn:E; [cbn in H; inversion H; reflexivity|]. cbn [decode_value]. rewrite H. reflexivity.
Qed.

Lemma url_value : forall s, is_bytes s -> exists t, encode_value EncUrl s = VStr None t /\ percent s t /\
  get_binary EncUrl (VStr None t) = Some s.
Proof.
  intros s Hs. exists (concat (url_encode s)). split; auto. split; [apply url_encode_percent; auto|].
  pose proof (url_round_trip s Hs) as H. cbn [get_binary]. destruct (concat (url_encode s)) eqn:E; [cbn in H; inversion H; reflexivity|].
  cbn [decode_value]. rewrite H. reflexivity.
Qed.

Lemma utf8_value : forall s, is_bytes s -> exists t, encode_value EncUtf8 s = VStr None t /\ utf8_encode_value s = VStr None t /\
  t = utf8_encode s /\ get_binary EncUtf8 (VStr None t) = Some s.
Proof.
  intros s Hs. destruct (utf8_round_trip s Hs) as (H1 & H2 & H3). exists (utf8_encode s). unfold encode_value. cbn [encode_chunks].
  rewrite H1, H2. split; auto. split; auto. split; auto. cbn [get_binary].
  destruct (utf8_encode s) eqn:E; [cbn in H3; inversion H3; reflexivity|]. cbn [decode_value]. rewrite H3. reflexivity.
Qed.

Lemma base64_bad_length : forall t, (length t mod 4 <> 0)%nat -> b64_decode t = VStr None [].
Proof.
  intros t H. unfold b64_decode. destruct (Nat.eqb_spec (length t mod 4) 0); [contradiction|]. reflexivity.
Qed.

Lemma base64url_retag : forall s, is_bytes s -> decode_value EncBase64Url (b64_text true false s) = Some (VStr (Some EncBase64) s).
Proof.
  intros s Hs. cbn [decode_value]. f_equal. rewrite <- b64_encode_spec by auto. apply b64url_round_trip. auto.
Qed.

Lemma utf8_overflow : exists t, is_bytes t /\ decode_value EncUtf8 t = None.
Proof. exists [128; 195]. split; [repeat constructor; unfold is_byte; lia|reflexivity]. Qed.

(** Any text in the form notation. *)
Lemma hex_value_spec : forall h d, hex_value h d -> unhexchar h = d /\ 0 <= d < 16.
Proof.
  intros h d H. unfold unhexchar. inversion H; subst.
  - replace ((48 <=? 48 + d) && (48 + d <=? 57))%bool with true by lia. lia.
  - replace ((48 <=? 65 + (d - 10)) && (65 + (d - 10) <=? 57))%bool with false by lia.
    replace ((65 <=? 65 + (d - 10)) && (65 + (d - 10) <=? 70))%bool with true by lia. lia.
  - replace ((48 <=? 97 + (d - 10)) && (97 + (d - 10) <=? 57))%bool with false by lia.
    replace ((65 <=? 97 + (d - 10)) && (97 + (d - 10) <=? 70))%bool with false by lia.
    replace ((97 <=? 97 + (d - 10)) && (97 + (d - 10) <=? 102))%bool with true by lia. lia.
Qed.
Lemma url_decode_form : forall t s, form_text t s -> decode_value EncUrl t = Some (VStr (Some EncUrl) s).
Proof.
  intros t s H. cbn [decode_value]. f_equal. unfold url_decode.
  assert (E : url_decode_loop t = (s, false) /\ url_count t 0 = length s).
  { induction H as [|c t s H1 H2 H [I1 I2]|t s H [I1 I2]|h1 h2 a b t s H1 H2 H [I1 I2]]; [split; reflexivity| | |].
    - cbn [url_decode_loop url_count length]. destruct (Z.eqb_spec c 37); [lia|]. destruct (Z.eqb_spec c 43); [lia|]. rewrite I1, I2. auto.
    - cbn [url_decode_loop url_count length]. cbn [Z.eqb Pos.eqb]. rewrite I1, I2. auto.
    - apply hex_value_spec in H1 as [<- Ha]. apply hex_value_spec in H2 as [<- Hb].
      cbn [url_decode_loop url_count length]. cbn [Z.eqb Pos.eqb]. rewrite I1. cbn [url_count]. rewrite I2. split; auto.
      f_equal. f_equal. rewrite shl4, land15 by lia. rewrite lor16 by lia. unfold to_byte. lia. }
  destruct E as [-> ->]. rewrite firstn_all. reflexivity.
Qed.

(** Decoding once is enough: a decoded value gives its bytes under any encoding. *)
Lemma decoded_once : forall e e' s, is_bytes s -> exists t v, encode_value e s = VStr None t /\ decode_value e t = Some v /\ get_binary e' v = Some s.
Proof.
  intros e e' s Hs.
  assert (G : forall q, get_binary e' (VStr (Some q) s) = Some s) by (intros q; destruct s; reflexivity).
  destruct e.
  - destruct (base64_value s Hs) as (t & E & Et & H). exists t. destruct s as [|a s].
    + subst t. eexists. split; [exact E|]. split; reflexivity.
    + eexists. split; [exact E|]. cbn [decode_value]. split; [reflexivity|].
      pose proof (b64_round_trip (a :: s) Hs ltac:(discriminate)) as R. rewrite b64_encode_spec in R by auto. rewrite Et, R. apply G.
  - exists (b64_text true false s). eexists. split; [destruct (base64url_value s Hs) as (t & E & Et & _); rewrite E, Et; reflexivity|].
    split; [apply base64url_retag; auto|]. apply G.
  - destruct (url_value s Hs) as (t & E & Hp & _). exists t. eexists. split; [exact E|]. split; [reflexivity|].
    destruct (url_decode_percent _ _ Hp Hs) as [H1 H2]. unfold url_decode. rewrite H1, H2, firstn_all. apply G.
  - destruct (utf8_value s Hs) as (t & E & _ & Et & _). exists t. eexists. split; [exact E|].
    split; [rewrite Et; apply utf8_decode_valid, bytes_cp; auto|].
    replace (map to_byte s) with s; [apply G|]. rewrite <- (map_id s) at 1. apply map_ext_in.
    intros c Hc. unfold is_bytes in Hs. rewrite Forall_forall in Hs. specialize (Hs c Hc). unfold is_byte in Hs. unfold to_byte. rewrite Z.mod_small by lia. reflexivity.
Qed.
