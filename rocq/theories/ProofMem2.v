(** Proofs about blocks of memory: the decoders, binary documents, containers. *)
From Coq Require Import ZArith List Bool Lia ZifyBool ZifyNat.
From Verif Require Import Base ModelUtf8 ModelValue ModelEnc ModelBin ModelString ModelMem SpecString SpecMem ProofEnc ProofString ProofMem.
Import ListNotations.
Local Open Scope list_scope.
Local Open Scope Z_scope.
Ltac Zify.zify_post_hook ::= Z.div_mod_to_equations.

(** *** Base64 *)
Definition wr_of (rd : Z) : Z := 3 * (rd / 4) + (if rd mod 4 =? 0 then 0 else rd mod 4 - 1).
Definition out_of (rd : Z) : Z := 3 * (rd / 4) + rd mod 4.

Lemma nth_snoc : forall (l : bytes) x k, (k < S (length l))%nat -> nth k (l ++ [x]) 0 = if (k =? length l)%nat then x else nth k l 0.
Proof.
  intros l x k Hk. destruct (Nat.eqb_spec k (length l)) as [->|Hn].
  - rewrite app_nth2, Nat.sub_diag by lia. reflexivity.
  - apply app_nth1. lia.
Qed.

Lemma put_b64_ok : forall url str rd out cur base b, 0 <= rd -> 0 <= base -> Z.of_nat (length out) = wr_of rd ->
  base + rd + Z.of_nat (length str) <= b_size b ->
  (forall k, (k < length out)%nat -> b_at b (base + Z.of_nat k) = Some (nth k out 0)) ->
  (rd mod 4 <> 0 -> b_at b (base + wr_of rd) = Some cur) ->
  exists b', put_b64 url str rd (wr_of rd) base b = MOk b' /\ b_size b' = b_size b /\
    (forall j, base + rd + Z.of_nat (length str) <= j -> b_at b' j = b_at b j) /\
    let r := b64_decode_loop url str rd out cur in
    Z.of_nat (length r) = out_of (rd + Z.of_nat (length str)) /\
    forall k, (k < length r)%nat -> b_at b' (base + Z.of_nat k) = Some (nth k r 0).
Proof.
  intros url. induction str as [|z str IH]; intros rd out cur base b Hrd Hb Hw Hs Ho Hc.
  - cbn [put_b64 b64_decode_loop]. exists b. split; [reflexivity|]. split; [reflexivity|]. split; [auto|]. cbn [length].
    replace (rd + Z.of_nat 0) with rd by lia. unfold wr_of, out_of in *.
    destruct (Z.eqb_spec (rd mod 4) 0) as [E|E].
    + split; [lia|exact Ho].
    + rewrite app_length. cbn [length]. split; [lia|]. intros k Hk. rewrite nth_snoc by lia.
      destruct (Nat.eqb_spec k (length out)) as [->|Hn]; [|apply Ho; lia]. rewrite <- (Hc E). f_equal. lia.
  - cbn [length] in Hs. cbn [put_b64 b64_decode_loop]. rewrite land3. cbn [length].
    assert (Hm : rd mod 4 = 0 \/ rd mod 4 = 1 \/ rd mod 4 = 2 \/ rd mod 4 = 3) by lia.
    replace (rd + Z.of_nat (S (length str))) with (rd + 1 + Z.of_nat (length str)) by lia.
    replace (base + rd + Z.of_nat (S (length str))) with (base + (rd + 1) + Z.of_nat (length str)) in * by lia.
    set (v := b64_table url z).
    destruct Hm as [E|[E|[E|E]]]; rewrite E; cbn [Z.eqb Pos.eqb].
    + assert (Ew : wr_of (rd + 1) = wr_of rd) by (unfold wr_of; destruct (Z.eqb_spec (rd mod 4) 0); destruct (Z.eqb_spec ((rd + 1) mod 4) 0); lia).
      assert (Hle : wr_of rd <= rd) by (unfold wr_of; destruct (Z.eqb_spec (rd mod 4) 0); lia).
      rewrite store_ok by lia. cbn [mbind]. rewrite <- Ew.
      destruct (IH (rd + 1) out (to_byte (Z.shiftl v 2)) base (mkB (b_size b) (fun j => if j =? base + wr_of (rd + 1) then Some (to_byte (Z.shiftl v 2)) else b_at b j)))
        as [b' (E1 & S1 & G & R)]; [lia|lia|lia|cbn [b_size]; lia| | |].
      * intros k Hk. cbn [b_at]. destruct (Z.eqb_spec (base + Z.of_nat k) (base + wr_of (rd + 1))); [lia|]. apply Ho. exact Hk.
      * intros _. cbn [b_at]. rewrite Z.eqb_refl. reflexivity.
      * exists b'. split; [exact E1|]. split; [exact S1|]. split; [|exact R].
        intros j Hj. rewrite G by lia. cbn [b_at]. destruct (Z.eqb_spec j (base + wr_of (rd + 1))); [lia|reflexivity].
    + assert (Ew : wr_of (rd + 1) = wr_of rd + 1) by (unfold wr_of; destruct (Z.eqb_spec (rd mod 4) 0); destruct (Z.eqb_spec ((rd + 1) mod 4) 0); lia).
      assert (Hle : wr_of rd + 1 <= rd) by (unfold wr_of; destruct (Z.eqb_spec (rd mod 4) 0); lia).
      rewrite load_ok with (c := cur); [|lia|apply Hc; lia]. cbn [mbind]. rewrite store_ok by lia. cbn [mbind].
      rewrite store_ok by (cbn [b_size]; lia). cbn [mbind b_size b_at]. rewrite <- Ew. replace (base + wr_of rd + 1) with (base + wr_of (rd + 1)) by lia.
      match goal with |- context [put_b64 url str (rd + 1) (wr_of (rd + 1)) base ?b1] => 
        destruct (IH (rd + 1) (out ++ [Z.lor cur (Z.shiftr v 4)]) (to_byte (Z.shiftl v 4)) base b1) as [b' (E1 & S1 & G & R)] end;
        [lia|lia|rewrite app_length; cbn [length]; lia|cbn [b_size]; lia| | |].
      * intros k Hk. rewrite app_length in Hk. cbn [length] in Hk. cbn [b_at]. destruct (Z.eqb_spec (base + Z.of_nat k) (base + wr_of (rd + 1))); [lia|].
        rewrite nth_snoc by lia. destruct (Nat.eqb_spec k (length out)) as [->|Hn].
        -- destruct (Z.eqb_spec (base + Z.of_nat (length out)) (base + wr_of rd)); [reflexivity|lia].
        -- destruct (Z.eqb_spec (base + Z.of_nat k) (base + wr_of rd)); [lia|]. apply Ho. lia.
      * intros _. cbn [b_at]. rewrite Z.eqb_refl. reflexivity.
      * exists b'. split; [exact E1|]. split; [exact S1|]. split; [|exact R].
        intros j Hj. rewrite G by lia. cbn [b_at]. destruct (Z.eqb_spec j (base + wr_of (rd + 1))); [lia|].
        destruct (Z.eqb_spec j (base + wr_of rd)); [lia|reflexivity].
    + assert (Ew : wr_of (rd + 1) = wr_of rd + 1) by (unfold wr_of; destruct (Z.eqb_spec (rd mod 4) 0); destruct (Z.eqb_spec ((rd + 1) mod 4) 0); lia).
      assert (Hle : wr_of rd + 1 <= rd) by (unfold wr_of; destruct (Z.eqb_spec (rd mod 4) 0); lia).
      rewrite load_ok with (c := cur); [|lia|apply Hc; lia]. cbn [mbind]. rewrite store_ok by lia. cbn [mbind].
      rewrite store_ok by (cbn [b_size]; lia). cbn [mbind b_size b_at]. rewrite <- Ew. replace (base + wr_of rd + 1) with (base + wr_of (rd + 1)) by lia.
      match goal with |- context [put_b64 url str (rd + 1) (wr_of (rd + 1)) base ?b1] => 
        destruct (IH (rd + 1) (out ++ [Z.lor cur (Z.shiftr v 2)]) (to_byte (Z.shiftl v 6)) base b1) as [b' (E1 & S1 & G & R)] end;
        [lia|lia|rewrite app_length; cbn [length]; lia|cbn [b_size]; lia| | |].
      * intros k Hk. rewrite app_length in Hk. cbn [length] in Hk. cbn [b_at]. destruct (Z.eqb_spec (base + Z.of_nat k) (base + wr_of (rd + 1))); [lia|].
        rewrite nth_snoc by lia. destruct (Nat.eqb_spec k (length out)) as [->|Hn].
        -- destruct (Z.eqb_spec (base + Z.of_nat (length out)) (base + wr_of rd)); [reflexivity|lia].
        -- destruct (Z.eqb_spec (base + Z.of_nat k) (base + wr_of rd)); [lia|]. apply Ho. lia.
      * intros _. cbn [b_at]. rewrite Z.eqb_refl. reflexivity.
      * exists b'. split; [exact E1|]. split; [exact S1|]. split; [|exact R].
        intros j Hj. rewrite G by lia. cbn [b_at]. destruct (Z.eqb_spec j (base + wr_of (rd + 1))); [lia|].
        destruct (Z.eqb_spec j (base + wr_of rd)); [lia|reflexivity].
    + assert (Ew : wr_of (rd + 1) = wr_of rd + 1) by (unfold wr_of; destruct (Z.eqb_spec (rd mod 4) 0); destruct (Z.eqb_spec ((rd + 1) mod 4) 0); lia).
      assert (Hle : wr_of rd + 1 <= rd) by (unfold wr_of; destruct (Z.eqb_spec (rd mod 4) 0); lia).
      rewrite load_ok with (c := cur); [|lia|apply Hc; lia]. cbn [mbind]. rewrite store_ok by lia. cbn [mbind]. rewrite <- Ew.
      match goal with |- context [put_b64 url str (rd + 1) (wr_of (rd + 1)) base ?b1] => 
        destruct (IH (rd + 1) (out ++ [Z.lor cur v]) 0 base b1) as [b' (E1 & S1 & G & R)] end;
        [lia|lia|rewrite app_length; cbn [length]; lia|cbn [b_size]; lia| | |].
      * intros k Hk. rewrite app_length in Hk. cbn [length] in Hk. cbn [b_at].
        rewrite nth_snoc by lia. destruct (Nat.eqb_spec k (length out)) as [->|Hn].
        -- destruct (Z.eqb_spec (base + Z.of_nat (length out)) (base + wr_of rd)); [reflexivity|lia].
        -- destruct (Z.eqb_spec (base + Z.of_nat k) (base + wr_of rd)); [lia|]. apply Ho. lia.
      * intros Hx. lia.
      * exists b'. split; [exact E1|]. split; [exact S1|]. split; [|exact R].
        intros j Hj. rewrite G by lia. cbn [b_at]. destruct (Z.eqb_spec j (base + wr_of rd)); [lia|reflexivity].
Qed.

Lemma fills_b64 : forall url str fin, Z.of_nat fin <= out_of (Z.of_nat (length str)) ->
  fills (Z.of_nat (length str)) (fun base b => mbind (put_b64 url str 0 0 base b) (fun b => MOk (b, Z.of_nat fin)))
    (firstn fin (b64_decoder_core url str)).
Proof.
  intros url str fin Hf base b Hb Hs.
  destruct (put_b64_ok url str 0 [] 0 base b) as [b' (E & S1 & G & Rl & R)]; try lia; [reflexivity|cbn; lia|].
  change (wr_of 0) with 0 in E. rewrite E. cbn [mbind]. fold (b64_decoder_core url str) in Rl, R. cbn [Z.add] in Rl.
  assert (Hl : length (firstn fin (b64_decoder_core url str)) = fin) by (rewrite firstn_length; lia).
  exists b'. rewrite Hl. split; [reflexivity|]. split; [unfold out_of in Hf; lia|]. split; [exact S1|]. split; [apply G; lia|].
  intros k Hk. rewrite R by lia. f_equal. rewrite <- (firstn_skipn fin (b64_decoder_core url str)) at 1. rewrite app_nth1 by lia. reflexivity.
Qed.

Section Strings.
Variables (limit : Z) (L : layout).
Hypothesis HL : sane L.

Lemma mem_b64url_ok : forall str, string_size L (Z.of_nat (length str)) < 2 ^ 64 ->
  built limit (string_size L (Z.of_nat (length str))) L (mem_b64url limit L str) (Some EncBase64) (str_content (b64url_decode str)).
Proof.
  intros str Hs. unfold mem_b64url. apply string_of_fn_ok; [exact HL|lia|exact Hs|]. apply fills_b64. unfold out_of. lia.
Qed.

Lemma b64_lengths : forall str, Nat.modulo (length str) 4 = 0%nat -> length str <> 0%nat -> exists len fin,
  (let len := length str in
   let finlen := Nat.div (len * 3) 4 in
   let '(finlen, len) := if nth (len - 1) str 0 =? 61 then (finlen - 1, len - 1)%nat else (finlen, len) in
   if nth (len - 1) str 0 =? 61 then (finlen - 1, len - 1)%nat else (finlen, len)) = (fin, len) /\
  (len <= length str)%nat /\ Z.of_nat fin <= out_of (Z.of_nat len).
Proof.
  intros str Hm Hz. cbv zeta. set (n := length str) in *.
  destruct (nth (n - 1) str 0 =? 61); destruct (nth _ str 0 =? 61); do 2 eexists; (split; [reflexivity|]); (split; [lia|]); unfold out_of; lia.
Qed.

(** The value is what [b64_decode] says; the shared empty text needs no block. *)
Lemma mem_b64_ok : forall str, string_size L (Z.of_nat (length str)) < 2 ^ 64 -> string_size L (Z.of_nat (length str)) <= limit ->
  (mem_b64 limit L str = MOk None /\ b64_decode str = VStr None []) \/
  exists s t, mem_b64 limit L str = MOk (Some s) /\ b64_decode str = VStr (Some EncBase64) t /\ so_enc s = Some EncBase64 /\ holds L s t.
Proof.
  intros str Hs Hl. unfold mem_b64, b64_decode. cbv zeta.
  destruct (Nat.eqb_spec (Nat.modulo (length str) 4) 0) as [Hm|Hm]; [|left; split; reflexivity].
  destruct (Nat.eqb_spec (length str) 0) as [Hz|Hz]; [left; split; reflexivity|]. cbn [negb orb]. right.
  destruct (b64_lengths str Hm Hz) as [len [fin (E & Hle & Hf)]]. cbv zeta in E.
  set (first := if nth (length str - 1) str 0 =? 61 then (length str * 3 / 4 - 1, length str - 1)%nat else (length str * 3 / 4, length str)%nat) in *.
  destruct first as [f1 l1]. set (second := if nth (l1 - 1) str 0 =? 61 then (f1 - 1, l1 - 1)%nat else (f1, l1)) in *.
  rewrite E.
  assert (Hlen : length (firstn len str) = len) by (rewrite firstn_length; lia).
  pose proof (string_of_fn_ok limit L HL (Some EncBase64) (Z.of_nat len)
    (fun base b => mbind (put_b64 false (firstn len str) 0 0 base b) (fun b => MOk (b, Z.of_nat fin)))
    (firstn fin (b64_decoder_core false (firstn len str))) ltac:(lia)) as B.
  assert (Hs2 : string_size L (Z.of_nat len) <= string_size L (Z.of_nat (length str))) by (unfold string_size; lia).
  specialize (B ltac:(lia)). rewrite <- Hlen in B at 1. specialize (B (fills_b64 false (firstn len str) fin ltac:(rewrite Hlen; exact Hf))).
  unfold built in B. destruct (Z.leb_spec (string_size L (Z.of_nat len)) limit); [|lia]. destruct B as [s (E1 & Ee & Hh)].
  rewrite E1. cbn [mbind]. eexists. eexists. split; [reflexivity|]. split; [reflexivity|]. auto.
Qed.

(** *** Percent encoding *)
Lemma put_url_all : forall m str, (length str <= m)%nat -> forall i b,
  put_url str i b = mbind (store_all b i (fst (url_decode_loop str))) (fun b => MOk (b, snd (url_decode_loop str))).
Proof.
  induction m as [|m IH]; intros [|c str] Hm i b; cbn [length] in Hm; try lia; try reflexivity.
  cbn [put_url url_decode_loop]. destruct (c =? 37).
  - destruct str as [|h1 [|h2 str]]; try reflexivity. cbn [length] in Hm.
    specialize (IH str ltac:(lia)). destruct (url_decode_loop str) as [o cut]. cbn [fst snd store_all] in *.
    destruct (store b i _); cbn [mbind]; auto.
  - specialize (IH str ltac:(lia)). destruct (url_decode_loop str) as [o cut]. cbn [fst snd store_all] in *.
    destruct (store b i _); cbn [mbind]; auto.
Qed.

Lemma mem_url_ok : forall str, is_bytes str -> string_size L (Z.of_nat (length str)) < 2 ^ 64 ->
  built limit (string_size L (Z.of_nat (url_count str 0))) L (mem_url limit L str) (Some EncUrl) (str_content (url_decode str)).
Proof.
  intros str Hb Hs. unfold mem_url, url_decode.
  assert (Hc : forall s k, (url_count s k <= length s)%nat).
  { induction s as [|c s IH]; intros k; cbn [url_count length]; [lia|]. destruct k as [|k]; [specialize (IH (if c =? 37 then 2%nat else 0%nat)); lia|specialize (IH k); lia]. }
  specialize (Hc str O). pose proof (url_decode_size str Hb) as Hu. pose proof (put_url_all (length str) str (le_n _)) as P.
  destruct (url_decode_loop str) as [o cut]. cbn [fst snd] in P. destruct Hu as [Hlo Hcut]. cbn [str_content].
  rewrite firstn_all2 by (destruct cut; lia).
  assert (Hs2 : string_size L (Z.of_nat (url_count str 0)) < 2 ^ 64) by (unfold string_size in *; lia).
  pose proof (below L HL _ Hs2).
  apply string_of_fn_ok; [exact HL|lia|exact Hs2|]. intros base b H0 H1. rewrite P.
  destruct (store_all_ok o b base) as [b' (E1 & S1 & R1 & O1)]; [exact H0|destruct cut; lia|].
  exists b'. rewrite E1. cbn [mbind]. split.
  - do 2 f_equal. destruct cut; [specialize (Hcut eq_refl); rewrite u64_id by lia; lia|lia].
  - split; [destruct cut; lia|]. split; [exact S1|]. split; [apply O1; destruct cut; lia|exact R1].
Qed.

(** *** UTF-8 *)
Lemma mem_utf8_encode_ok : forall data, string_size L (Z.of_nat (length (wide_to_utf8 data))) < 2 ^ 64 ->
  built limit (string_size L (Z.of_nat (length (wide_to_utf8 data)))) L (mem_utf8_encode limit L data) None (wide_to_utf8 data).
Proof.
  intros data Hs. unfold mem_utf8_encode. apply string_of_fn_ok; [exact HL|lia|exact Hs|]. apply fills_copy; [reflexivity|]. reflexivity.
Qed.

Definition codes (st : ustate) (s : bytes) : nat := length (snd (utf8_to_wide st s)).

Lemma codes_cons : forall st c s, c <> -1 -> codes st (c :: s) = (length (snd (utf8_step st c)) + codes (fst (utf8_step st c)) s)%nat.
Proof.
  intros st c s H. unfold codes. cbn [utf8_to_wide]. destruct (Z.eqb_spec c (-1)); [congruence|].
  destruct (utf8_step st c) as [st1 o1]. cbn [fst snd]. destruct (utf8_to_wide st1 s) as [st2 o2]. apply app_length.
Qed.

(** A state in which continuation bytes give nothing. *)
Lemma dead_cont : forall st k, pend st = (- k) mod 2 ^ 32 -> 0 <= k -> k + 1 < 2 ^ 32 ->
  u32 (pend st - 1) = (- (k + 1)) mod 2 ^ 32 /\ u32 (pend st - 1) <> 0.
Proof. intros st k H Hk Hl. unfold u32. rewrite H. lia. Qed.

Lemma codes_dead : forall s a b k l, is_bytes s -> pend a = (- k) mod 2 ^ 32 -> pend b = (- l) mod 2 ^ 32 -> 0 <= k -> 0 <= l ->
  k + Z.of_nat (length s) < 2 ^ 32 -> l + Z.of_nat (length s) < 2 ^ 32 -> codes a s = codes b s.
Proof.
  induction s as [|c s IH]; intros a b k l Hb Ha Hbb Hk Hl Hkl Hll; [reflexivity|].
  inversion Hb as [|? ? Hc Hb']; subst. unfold is_byte in Hc. rewrite !codes_cons by lia. cbn [length] in Hkl, Hll. unfold utf8_step.
  destruct (Z.land c 192 =? 128).
  - destruct (dead_cont a k Ha Hk ltac:(lia)) as [A1 A2]. destruct (dead_cont b l Hbb Hl ltac:(lia)) as [B1 B2]. cbn [fst snd].
    destruct (Z.eqb_spec (u32 (pend a - 1)) 0); [congruence|]. destruct (Z.eqb_spec (u32 (pend b - 1)) 0); [congruence|]. cbn [length Nat.add].
    apply (IH _ _ (k + 1) (l + 1)); auto; lia.
  - destruct (Z.land c 224 =? 192); [reflexivity|]. destruct (Z.land c 240 =? 224); [reflexivity|]. destruct (Z.land c 248 =? 240); [reflexivity|].
    cbn [fst snd length Nat.add]. f_equal. apply (IH _ _ k l); auto; lia.
Qed.

Lemma codes_live : forall s a b k, is_bytes s -> pend a = (- k) mod 2 ^ 32 -> 0 <= k -> k + Z.of_nat (length s) < 2 ^ 32 ->
  1 <= pend b < 2 ^ 32 -> codes b s = codes a s \/ codes b s = S (codes a s).
Proof.
  induction s as [|c s IH]; intros a b k Hb Ha Hk Hkl Hp; [left; reflexivity|].
  inversion Hb as [|? ? Hc Hb']; subst. unfold is_byte in Hc. rewrite !codes_cons by lia. cbn [length] in Hkl. unfold utf8_step.
  destruct (Z.land c 192 =? 128).
  - destruct (dead_cont a k Ha Hk ltac:(lia)) as [A1 A2]. cbn [fst snd].
    destruct (Z.eqb_spec (u32 (pend a - 1)) 0); [congruence|].
    destruct (Z.eqb_spec (u32 (pend b - 1)) 0) as [B|B]; cbn [length Nat.add].
    + right. f_equal. symmetry. apply (codes_dead s _ _ (k + 1) 0); auto; try lia; cbn [pend]; lia.
    + apply (IH _ _ (k + 1)); auto; cbn [pend]; try lia. unfold u32 in *. lia.
  - destruct (Z.land c 224 =? 192); [left; reflexivity|]. destruct (Z.land c 240 =? 224); [left; reflexivity|].
    destruct (Z.land c 248 =? 240); [left; reflexivity|].
    cbn [fst snd length Nat.add]. destruct (IH a b k Hb' Ha Hk ltac:(lia) Hp) as [E|E]; rewrite E; auto.
Qed.

Lemma pend_range : forall s st, 0 <= pend st < 2 ^ 32 -> 0 <= pend (fst (utf8_to_wide st s)) < 2 ^ 32.
Proof.
  induction s as [|c s IH]; intros st H; [exact H|]. cbn [utf8_to_wide]. destruct (c =? -1); [exact H|].
  assert (H1 : 0 <= pend (fst (utf8_step st c)) < 2 ^ 32).
  { unfold utf8_step. destruct (Z.land c 192 =? 128); [cbn [fst pend]; unfold u32; lia|].
    destruct (Z.land c 224 =? 192); [cbn; lia|]. destruct (Z.land c 240 =? 224); [cbn; lia|]. destruct (Z.land c 248 =? 240); [cbn; lia|]. exact H. }
  destruct (utf8_step st c) as [st1 o1]. cbn [fst] in H1. specialize (IH st1 H1). destruct (utf8_to_wide st1 s) as [st2 o2]. exact IH.
Qed.

Lemma second_pass : forall s, is_bytes s -> Z.of_nat (length s) < 2 ^ 32 ->
  let n := codes u_init s in let m := codes (fst (utf8_to_wide u_init s)) s in m = n \/ m = S n.
Proof.
  intros s Hb Hl. cbv zeta. pose proof (pend_range s u_init ltac:(cbn; lia)) as P. set (st := fst (utf8_to_wide u_init s)) in *.
  destruct (Z.eq_dec (pend st) 0) as [E|E].
  - left. apply (codes_dead s _ _ 0 0); auto; cbn [pend u_init]; lia.
  - apply (codes_live s u_init st 0); auto; cbn [pend u_init]; lia.
Qed.

Lemma codes_le : forall s st, (codes st s <= length s)%nat.
Proof.
  induction s as [|c s IH]; intros st; [cbn; lia|]. unfold codes. cbn [utf8_to_wide]. destruct (c =? -1); [cbn; lia|].
  assert (H1 : (length (snd (utf8_step st c)) <= 1)%nat).
  { unfold utf8_step. destruct (Z.land c 192 =? 128); [cbn [snd]; destruct (u32 (pend st - 1) =? 0); cbn; lia|].
    destruct (Z.land c 224 =? 192); [cbn; lia|]. destruct (Z.land c 240 =? 224); [cbn; lia|]. destruct (Z.land c 248 =? 240); cbn; lia. }
  destruct (utf8_step st c) as [st1 o1]. specialize (IH st1). unfold codes in IH. destruct (utf8_to_wide st1 s) as [st2 o2].
  cbn [snd] in *. rewrite app_length. cbn [length]. lia.
Qed.

(** Decoding: the text, or [abort] when the second pass finds one character more and its last
    one is not zero; never outside of the block. *)
Lemma mem_utf8_decode_ok : forall str, is_bytes str -> Z.of_nat (length str) < 2 ^ 32 -> l_hdr L + l_tail L < 2 ^ 63 ->
  string_size L (Z.of_nat (length str)) <= limit ->
  match utf8_decode str with
  | Some v => exists s, mem_utf8_decode limit L str = MOk s /\ so_enc s = Some EncUtf8 /\ v = VStr (Some EncUtf8) (str_content v) /\ holds L s (str_content v)
  | None => exists t c, map to_byte (snd (utf8_to_wide (fst (utf8_to_wide u_init str)) str)) = t ++ [c] /\
      if c =? 0 then exists s, mem_utf8_decode limit L str = MOk s /\ holds L s t else mem_utf8_decode limit L str = MAbort
  end.
Proof.
  intros str Hb Hl Hhdr Hlim. destruct HL as [H0 H1]. unfold utf8_decode, mem_utf8_decode.
  pose proof (second_pass str Hb Hl) as P. cbv zeta in P. pose proof (codes_le str u_init) as Q. unfold codes in P, Q.
  destruct (utf8_to_wide u_init str) as [st1 o1]. cbn [fst snd] in *.
  destruct (utf8_to_wide st1 str) as [st2 o2]. cbn [fst snd] in *.
  assert (Hs : string_size L (Z.of_nat (length o1)) < 2 ^ 64) by (unfold string_size in *; lia).
  assert (Hm : string_size L (Z.of_nat (length o1)) <= limit) by (unfold string_size in *; lia).
  destruct (Nat.eqb_spec (length o1) (length o2)) as [E|E].
  - cbn [str_content].
    pose proof (string_of_fn_ok limit L HL (Some EncUtf8) (Z.of_nat (length o1))
      (fun base b => mbind (store_all b base (map to_byte o2)) (fun b => MOk (b, Z.of_nat (length o1)))) (map to_byte o2) ltac:(lia) Hs) as B.
    specialize (B (fills_copy (Z.of_nat (length o1)) (map to_byte o2) _ ltac:(rewrite map_length; lia) (fun _ _ => eq_refl))).
    unfold built in B. destruct (Z.leb_spec (string_size L (Z.of_nat (length o1))) limit); [|lia].
    destruct B as [s (E1 & E2 & E3)]. exists s. auto.
  - assert (Hlen : length (map to_byte o2) = S (length o1)) by (rewrite map_length; lia).
    destruct (exists_last (l := map to_byte o2) ltac:(destruct (map to_byte o2); [discriminate Hlen|discriminate])) as [t [c Ec]].
    exists t, c. split; [exact Ec|]. rewrite Ec in *. rewrite app_length in Hlen. cbn [length] in Hlen.
    unfold string_of_fn. pose proof (string_alloc_ok limit L HL (Z.of_nat (length o1)) ltac:(lia) Hs) as A.
    destruct (Z.leb_spec (string_size L (Z.of_nat (length o1))) limit); [|lia].
    destruct A as [b (EA & Sb & _)]. rewrite EA. cbn [mbind]. unfold string_size in Sb.
    rewrite construct_ok by lia. cbn [mbind]. rewrite store_ok by lia. cbn [mbind].
    set (b0 := mkB _ _). assert (S0 : b_size b0 = b_size b) by reflexivity.
    destruct (store_all_ok (t ++ [c]) b0 (l_hdr L)) as [b1 (E1 & S1 & R1 & O1)]; [lia|rewrite app_length; cbn [length]; lia|].
    rewrite E1. cbn [mbind]. rewrite Z.ltb_irrefl. rewrite app_length in R1. cbn [length] in R1.
    rewrite load_ok with (c := c); [|lia|].
    2:{ replace (length o1) with (length t) by lia. rewrite R1 by lia. rewrite app_nth2, Nat.sub_diag by lia. reflexivity. }
    cbn [mbind]. destruct (Z.eqb_spec c 0) as [->|Hc]; cbn [negb]; [|reflexivity].
    rewrite store_ok by lia. cbn [mbind]. eexists. split; [reflexivity|]. unfold holds, text_in. cbn [so_sz so_blk b_at b_size].
    split; [lia|]. split.
    + intros k Hk. destruct (Z.eqb_spec (l_hdr L + Z.of_nat k) (l_hdr L + Z.of_nat (length o1))); [lia|]. rewrite R1 by lia. rewrite app_nth1 by lia. reflexivity.
    + replace (length t) with (length o1) by lia. split; [rewrite Z.eqb_refl; reflexivity|]. lia.
Qed.

(** *** Texts of binary documents *)
Lemma put_read_ok : forall n i b p, 0 <= i -> i + Z.of_nat n <= b_size b -> exists b',
  put_read n i b p = MOk (b', snd (read_n n p)) /\ b_size b' = b_size b /\ length (fst (read_n n p)) = n /\
  (forall k, (k < n)%nat -> b_at b' (i + Z.of_nat k) = Some (nth k (fst (read_n n p)) 0)) /\
  (forall j, j < i \/ i + Z.of_nat n <= j -> b_at b' j = b_at b j).
Proof.
  induction n as [|n IH]; intros i b p Hi Hn; cbn [put_read read_n].
  - exists b. cbn. repeat split; auto; lia.
  - destruct (read1 p) as [x p1]. rewrite store_ok by lia. cbn [mbind].
    destruct (IH (i + 1) (mkB (b_size b) (fun j => if j =? i then Some x else b_at b j)) p1) as [b' (E & S1 & Hl & R & O1)];
      [lia|cbn [b_size]; lia|].
    destruct (read_n n p1) as [s p2]. cbn [fst snd length] in *. exists b'. split; [exact E|]. split; [exact S1|]. split; [lia|]. split.
    + intros [|k] Hk; cbn [nth].
      * rewrite O1 by lia. cbn [b_at]. destruct (Z.eqb_spec (i + Z.of_nat 0) i); [reflexivity|lia].
      * replace (i + Z.of_nat (S k)) with (i + 1 + Z.of_nat k) by lia. apply R. lia.
    + intros j Hj. rewrite O1 by lia. cbn [b_at]. destruct (Z.eqb_spec j i); [lia|reflexivity].
Qed.

Lemma put_capped_all : forall text i stop b, i <= stop ->
  put_capped text i stop b = store_all b i (firstn (Z.to_nat (stop - i)) text).
Proof.
  induction text as [|c text IH]; intros i stop b Hi; cbn [put_capped].
  - rewrite firstn_nil. reflexivity.
  - destruct (Z.ltb_spec i stop).
    + replace (Z.to_nat (stop - i)) with (S (Z.to_nat (stop - (i + 1)))) by lia. cbn [firstn store_all].
      destruct (store b i c); cbn [mbind]; try reflexivity. apply IH. lia.
    + assert (i = stop) by lia. subst. rewrite IH by lia. rewrite Z.sub_diag. reflexivity.
Qed.

Lemma string_of_reader_ok : forall e n fn t p, 0 <= n -> string_size L n < 2 ^ 64 -> string_size L n <= limit -> Z.of_nat (length t) = n ->
  (forall base b, 0 <= base -> base + n < b_size b -> exists b', fn base b = MOk (b', p) /\ b_size b' = b_size b /\
     b_at b' (base + n) = b_at b (base + n) /\ forall k, (k < length t)%nat -> b_at b' (base + Z.of_nat k) = Some (nth k t 0)) ->
  exists s, string_of_reader limit L e n fn = MOk (s, p) /\ so_enc s = e /\ holds L s t.
Proof.
  intros e n fn t p Hn Hs Hlim Ht F. destruct HL as [H0 H1]. unfold string_of_reader.
  pose proof (string_alloc_ok limit L HL n Hn Hs) as A.
  destruct (Z.leb_spec (string_size L n) limit) as [Hl|Hl]; [|lia].
  destruct A as [b (E & Sb & M)]. rewrite E. cbn [mbind]. unfold string_size in Sb.
  rewrite construct_ok by lia. cbn [mbind]. rewrite store_ok by lia. cbn [mbind].
  destruct (F (l_hdr L) (mkB (b_size b) (fun j => if j =? l_hdr L + n then Some 0 else b_at b j))) as [b2 (E2 & S2 & G2 & R2)];
    [lia|cbn [b_size]; lia|].
  rewrite E2. cbn [mbind]. cbn [b_size b_at] in S2, G2. rewrite Z.eqb_refl in G2.
  rewrite load_ok with (c := 0); [|lia|exact G2]. cbn [mbind Z.eqb negb].
  rewrite store_ok by lia. cbn [mbind]. eexists. split; [reflexivity|]. split; [reflexivity|]. split; [cbn [so_sz]; lia|].
  cbn [so_blk]. unfold text_in. cbn [b_at b_size]. split.
  - intros k Hk. destruct (Z.eqb_spec (l_hdr L + Z.of_nat k) (l_hdr L + n)); [lia|]. apply R2. exact Hk.
  - rewrite Ht. split; [rewrite Z.eqb_refl; reflexivity|]. lia.
Qed.

Lemma read_n_length : forall n p, length (fst (read_n n p)) = n.
Proof.
  induction n as [|n IH]; intros p; [reflexivity|]. cbn [read_n]. destruct (read1 p) as [c p1]. specialize (IH p1).
  destruct (read_n n p1). cbn [fst length] in *. lia.
Qed.

Lemma read_bytes : forall n p, is_bytes (ps_in p) -> is_bytes (fst (read_n n p)) /\ is_bytes (ps_in (snd (read_n n p))).
Proof.
  induction n as [|n IH]; intros p H; cbn [read_n]; [split; [constructor|exact H]|].
  assert (H1 : is_byte (fst (read1 p)) /\ is_bytes (ps_in (snd (read1 p)))).
  { unfold read1. destruct (ps_in p) as [|x r] eqn:E; cbn; [split; [unfold is_byte; lia|rewrite E; constructor]|]. inversion H; auto. }
  destruct (read1 p) as [c p1]. cbn [fst snd] in H1. destruct H1 as [H1 H2]. destruct (IH p1 H2) as [I1 I2].
  destruct (read_n n p1). cbn [fst snd] in *. split; [constructor; auto|exact I2].
Qed.

(** The object holds what [parse_string_bin] says, for every size that does not wrap round. *)
Lemma mem_bin_ok : forall J e tag p, (forall n, is_bytes (J n) /\ length (J n) = n) -> is_bytes (ps_in p) ->
  let n := fst (parse_integer tag p) in
  0 <= n -> string_size L n < 2 ^ 64 -> string_size L n <= limit ->
  let '(v, p') := parse_string_bin J e tag p in
  match v with
  | VStr e' t => exists o, mem_bin_string limit L J e n (snd (parse_integer tag p)) = MOk (o, p') /\
      match o with None => t = [] /\ e' = None | Some s => so_enc s = e' /\ holds L s t end
  | _ => False
  end.
Proof.
  intros J e tag p HJ Hp. cbv zeta. intros Hn Hs Hlim. unfold parse_string_bin.
  assert (Hp1 : is_bytes (ps_in (snd (parse_integer tag p)))).
  { unfold parse_integer, read_le. repeat match goal with |- context [if ?c then _ else _] => destruct c end;
      try (match goal with |- context [read_n ?k p] => destruct (read_bytes k p Hp) as [_ X]; destruct (read_n k p); exact X end). exact Hp. }
  destruct (parse_integer tag p) as [n p1]. cbn [fst snd] in *. unfold mem_bin_string.
  destruct (Z.eqb_spec n 0) as [->|Hn0].
  { cbn. exists None. split; [reflexivity|]. split; reflexivity. }
  destruct (Z.to_nat n) as [|k] eqn:Ek; [lia|].
  destruct e as [e|].
  - destruct (read_n (S k) p1) as [s p2] eqn:Er.
    destruct (string_of_reader_ok (Some e) n (fun base b => put_read (S k) base b p1) s p2) as [o (E1 & E2 & E3)]; auto.
    + rewrite <- (f_equal fst Er : _ = s), read_n_length. lia.
    + intros base b Hb Hsz. destruct (put_read_ok (S k) base b p1) as [b' (E & S1 & Hl & R & O1)]; [lia|lia|].
      rewrite Er in *. cbn [fst snd] in *. exists b'. split; [exact E|]. split; [exact S1|]. split; [apply O1; lia|].
      intros j Hj. apply R. lia.
    + rewrite E1. cbn [mbind]. exists (Some o). split; [reflexivity|]. auto.
  - assert (Hx : is_byte (fst (read1 p1)) /\ is_bytes (ps_in (snd (read1 p1)))).
    { destruct (read_bytes 1 p1 Hp1) as [X Y]. cbn [read_n] in X, Y. destruct (read1 p1) as [x q]. cbn in X, Y. inversion X; auto. }
    destruct (read1 p1) as [x p2] eqn:E1. cbn [fst snd] in Hx. destruct Hx as [Hx Hp2].
    destruct (Z.land x 192 =? 128).
    + assert (Ec : Z.to_nat (((n - 1) * 3 + 3) / 4) = ((k * 3 + 3) / 4)%nat) by lia.
      set (cnt := ((k * 3 + 3) / 4)%nat) in *. rewrite Ec.
      destruct (read_bytes cnt p2 Hp2) as [Hbuf _]. pose proof (read_n_length cnt p2) as Hlb.
      destruct (read_n cnt p2) as [buf p3] eqn:Er. cbn [fst snd] in *.
      set (text := concat (b64_encode_core true false (buf ++ J (S k - cnt)%nat))).
      assert (Hbb : is_bytes (buf ++ J (S k - cnt)%nat)) by (apply Forall_app; split; [exact Hbuf|apply HJ]).
      assert (Hlt : (k <= length text)%nat).
      { unfold text. rewrite b64_encode_spec by exact Hbb. rewrite text_length, app_length, (proj2 (HJ _)). lia. }
      destruct (string_of_reader_ok None n (fun base b =>
            mbind (store b base (b64_char true (Z.land x 63))) (fun b => mbind (put_capped text (base + 1) (base + n) b) (fun b => MOk (b, p3))))
          (b64_char true (Z.land x 63) :: firstn k text) p3) as [o (F1 & F2 & F3)]; auto.
      * cbn [length]. rewrite firstn_length. lia.
      * intros base b Hb Hsz. rewrite store_ok by lia. cbn [mbind]. rewrite put_capped_all by lia.
        replace (Z.to_nat (base + n - (base + 1))) with k by lia.
        set (b0 := mkB _ _). assert (S0 : b_size b0 = b_size b) by reflexivity.
        assert (Hlf : length (firstn k text) = k) by (rewrite firstn_length; lia).
        destruct (store_all_ok (firstn k text) b0 (base + 1)) as [b' (E & S1 & R & O1)]; [lia|lia|].
        rewrite E. cbn [mbind]. exists b'. split; [reflexivity|]. split; [lia|]. split.
        -- rewrite O1 by lia. unfold b0. cbn [b_at]. destruct (Z.eqb_spec (base + n) base); [lia|reflexivity].
        -- intros [|j] Hj; cbn [nth].
           ++ rewrite O1 by lia. unfold b0. cbn [b_at]. destruct (Z.eqb_spec (base + Z.of_nat 0) base); [reflexivity|lia].
           ++ cbn [length] in Hj. replace (base + Z.of_nat (S j)) with (base + 1 + Z.of_nat j) by lia. apply R. lia.
      * rewrite F1. cbn [mbind]. exists (Some o). split; [reflexivity|]. auto.
    + destruct (read_n k p2) as [s p3] eqn:Er.
      destruct (string_of_reader_ok None n (fun base b => mbind (store b base x) (fun b => put_read (S k - 1) (base + 1) b p2)) (x :: s) p3)
        as [o (F1 & F2 & F3)]; auto.
      * cbn [length]. rewrite <- (f_equal fst Er : _ = s), read_n_length. lia.
      * intros base b Hb Hsz. rewrite store_ok by lia. cbn [mbind]. replace (S k - 1)%nat with k by lia.
        set (b0 := mkB _ _). assert (S0 : b_size b0 = b_size b) by reflexivity.
        destruct (put_read_ok k (base + 1) b0 p2) as [b' (E & S1 & Hl & R & O1)]; [lia|lia|].
        rewrite Er in *. cbn [fst snd] in *. exists b'. split; [exact E|]. split; [lia|]. split.
        -- rewrite O1 by lia. unfold b0. cbn [b_at]. destruct (Z.eqb_spec (base + n) base); [lia|reflexivity].
        -- intros [|j] Hj; cbn [nth].
           ++ rewrite O1 by lia. unfold b0. cbn [b_at]. destruct (Z.eqb_spec (base + Z.of_nat 0) base); [reflexivity|lia].
           ++ cbn [length] in Hj. replace (base + Z.of_nat (S j)) with (base + 1 + Z.of_nat j) by lia. apply R. lia.
      * rewrite F1. cbn [mbind]. exists (Some o). split; [reflexivity|]. auto.
Qed.

(** Sizes just below 2^64 give blocks which do not hold even the mark. *)
Lemma alloc_wraps : forall d, 1 < d -> l_tail L + 1 <= d + 6 -> d <= l_hdr L + l_tail L + 1 -> l_hdr L + l_tail L < 2 ^ 63 ->
  l_hdr L + 7 <= limit -> l_tail L < 7 ->
  string_alloc limit L (2 ^ 64 - d) = MBad.
Proof.
  intros d Hd Ht Hd2 Hh Hlim Ht7. destruct HL as [H0 H1]. unfold string_alloc.
  rewrite (u64_id (_ + 1)) by lia. rewrite (u64_id (l_hdr L + l_tail L)) by lia.
  replace (Z.max (2 ^ 64 - d + 1) (Z.of_nat (length magic))) with (2 ^ 64 - d + 1) by (change (Z.of_nat (length magic)) with 7; lia).
  assert (E2 : u64 (l_hdr L + l_tail L + (2 ^ 64 - d + 1)) = l_hdr L + l_tail L - d + 1) by (unfold u64; lia).
  rewrite E2. unfold alloc. destruct (Z.leb_spec (l_hdr L + l_tail L - d + 1) limit); [|lia]. cbn [mbind].
  apply store_all_out; [lia|cbn [b_size]; change (Z.of_nat (length magic)) with 7; lia|discriminate].
Qed.
End Strings.

(** *** Containers *)
Lemma cont_create_ok : forall limit s w cap, 0 <= s -> 0 < w -> 0 <= cap -> s + cap * w < 2 ^ 64 ->
  cont_create limit s w cap = if s + cap * w <=? limit then MOk (mkC (s + cap * w) cap []) else MNoMem.
Proof.
  intros limit s w cap Hs Hw Hc Hz. unfold cont_create. rewrite (u64_id (cap * w)) by nia. rewrite u64_id by nia. unfold alloc.
  destruct (Z.leb_spec (s + cap * w) limit); [|reflexivity]. cbn [mbind b_size]. destruct (Z.leb_spec s (s + cap * w)); [reflexivity|nia].
Qed.

Lemma cont_push_ok : forall s w l c, 0 <= s -> 0 < w -> 0 <= k_cap c -> k_size c = s + k_cap c * w -> Z.of_nat (length (k_items c)) <= k_cap c ->
  let room := Z.to_nat (k_cap c - Z.of_nat (length (k_items c))) in
  cont_push_all s w c l = MOk (mkC (k_size c) (k_cap c) (k_items c ++ firstn room l), map (fun i => Nat.ltb i room) (seq 0 (length l))).
Proof.
  intros s w. induction l as [|m l IH]; intros c Hs Hw Hc Hz Hi; cbv zeta; cbn [cont_push_all].
  - rewrite firstn_nil, app_nil_r. destruct c; reflexivity.
  - unfold cont_push. destruct (Z.ltb_spec (Z.of_nat (length (k_items c))) (k_cap c)) as [H|H].
    + destruct (Z.leb_spec (s + Z.of_nat (length (k_items c)) * w + w) (k_size c)) as [H2|H2]; [|nia]. cbn [mbind].
      rewrite IH; cbn [k_size k_cap k_items]; auto; [|rewrite app_length; cbn [length]; lia]. cbn [mbind].
      rewrite app_length. cbn [length].
      assert (E : Z.to_nat (k_cap c - Z.of_nat (length (k_items c))) = S (Z.to_nat (k_cap c - Z.of_nat (length (k_items c) + 1)))) by lia.
      rewrite E. set (r := Z.to_nat (k_cap c - Z.of_nat (length (k_items c) + 1))). cbn [firstn]. rewrite <- app_assoc. cbn [app].
      do 2 f_equal. cbn [seq map]. f_equal. rewrite <- seq_shift, map_map. apply map_ext. intros i. reflexivity.
    + assert (E : Z.to_nat (k_cap c - Z.of_nat (length (k_items c))) = O) by lia. rewrite E. cbn [mbind].
      rewrite IH by auto. cbn [mbind]. rewrite E. cbn [firstn]. do 2 f_equal. cbn [length seq map]. f_equal.
      rewrite <- seq_shift, map_map. apply map_ext. intros i. destruct i; reflexivity.
Qed.

(** *** Fill functions that do not keep to their characters *)
Lemma overflow_noticed : forall limit L e n fn w, sane L -> 0 <= n -> string_size L n < 2 ^ 64 -> string_size L n <= limit ->
  (forall base b, 0 <= base -> base + n < b_size b -> exists b', fn base b = MOk (b', w) /\ b_size b' = b_size b /\
     (n < w \/ exists g, b_at b' (base + n) = Some g /\ g <> 0)) ->
  string_of_fn limit L e n fn = MAbort.
Proof.
  intros limit L e n fn w HL Hn Hs Hlim F. pose proof HL as [H0 H1]. unfold string_of_fn.
  pose proof (string_alloc_ok limit L HL n Hn Hs) as A.
  destruct (Z.leb_spec (string_size L n) limit) as [Hl|Hl]; [|lia].
  destruct A as [b (E & Sb & M)]. rewrite E. cbn [mbind]. unfold string_size in Sb.
  rewrite construct_ok by lia. cbn [mbind]. rewrite store_ok by lia. cbn [mbind].
  destruct (F (l_hdr L) (mkB (b_size b) (fun j => if j =? l_hdr L + n then Some 0 else b_at b j))) as [b2 (E2 & S2 & G2)];
    [lia|cbn [b_size]; lia|].
  rewrite E2. cbn [mbind]. cbn [b_size] in S2. destruct (Z.ltb_spec n w); [reflexivity|]. destruct G2 as [G2|[g [G2 Hg]]]; [lia|].
  rewrite load_ok with (c := g); [|lia|exact G2]. cbn [mbind]. destruct (Z.eqb_spec g 0); [congruence|]. reflexivity.
Qed.

(** The sizes a binary document can give. *)
Lemma bin_string_wraps : forall limit L J p, sane L -> 9 <= l_hdr L < 2 ^ 62 -> l_tail L < 7 -> l_hdr L + 7 <= limit ->
  mem_bin_string limit L J None (2 ^ 64 - 10) p = MBad.
Proof.
  intros limit L J p HL Hh Ht Hlim. pose proof HL as [H0 H1]. unfold mem_bin_string. change (2 ^ 64 - 10 =? 0) with false. cbv iota.
  destruct (read1 p) as [x p1].
  assert (A : string_alloc limit L (2 ^ 64 - 10) = MBad) by (apply alloc_wraps; auto; lia).
  destruct (Z.land x 192 =? 128); unfold string_of_reader; rewrite A; reflexivity.
Qed.

Lemma cont_wraps : forall limit s m, 0 <= s < 2 ^ 63 -> s <= limit -> exists c,
  cont_create limit s 8 (2 ^ 61) = MOk c /\ cont_push s 8 c m = MBad.
Proof.
  intros limit s m Hs Hl. unfold cont_create. change (u64 (2 ^ 61 * 8)) with 0. rewrite u64_id by lia. unfold alloc.
  replace (s + 0) with s by lia. destruct (Z.leb_spec s limit); [|lia]. cbn [mbind b_size]. rewrite Z.leb_refl.
  eexists. split; [reflexivity|]. unfold cont_push. cbn [k_items k_cap k_size length].
  destruct (Z.ltb_spec (Z.of_nat 0) (2 ^ 61)); [|lia]. destruct (Z.leb_spec (s + Z.of_nat 0 * 8 + 8) s); [lia|reflexivity].
Qed.

Lemma join_intercalate : forall sep tmp, join_text sep true tmp = intercalate sep tmp.
Proof. intros sep tmp. apply join_text_spec. Qed.

Lemma mem_join_text : forall limit L sep tmp, sane L -> tmp <> [] \/ sep = [] ->
  let t := intercalate sep tmp in
  string_size L (Z.of_nat (length t)) < 2 ^ 64 ->
  built limit (string_size L (Z.of_nat (length t))) L (mem_join limit L sep tmp) None t.
Proof. intros limit L sep tmp HL Hne. cbv zeta. rewrite <- join_intercalate. exact (mem_join_ok limit L HL sep tmp Hne). Qed.

Lemma mem_join_nothing : forall limit L sep, sane L -> (2 <= length sep)%nat ->
  Z.of_nat (length sep) <= l_hdr L + l_tail L < 2 ^ 63 -> l_tail L < 7 -> l_hdr L + 7 <= limit ->
  mem_join limit L sep [] = MBad.
Proof. intros limit L sep HL H2 H3 H4 H5. apply mem_join_empty; auto; lia. Qed.

Lemma cont_ok : forall limit s w cap l, 0 <= s -> 0 < w -> 0 <= cap -> s + cap * w < 2 ^ 64 ->
  if s + cap * w <=? limit
  then exists c c', cont_create limit s w cap = MOk c /\
       cont_push_all s w c l = MOk (c', map (fun i => Nat.ltb i (Z.to_nat cap)) (seq 0 (length l))) /\
       k_items c' = firstn (Z.to_nat cap) l
  else cont_create limit s w cap = MNoMem.
Proof.
  intros limit s w cap l Hs Hw Hc Hz. rewrite cont_create_ok by auto. destruct (s + cap * w <=? limit); [|reflexivity].
  eexists. eexists. split; [reflexivity|]. rewrite cont_push_ok; cbn [k_cap k_items k_size length]; auto; try lia.
  replace (cap - Z.of_nat 0) with cap by lia. cbn [app]. split; reflexivity.
Qed.
