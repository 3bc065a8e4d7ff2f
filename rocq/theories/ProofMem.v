(** Proofs about blocks of memory. *)
From Coq Require Import ZArith List Bool Lia ZifyBool ZifyNat.
From Verif Require Import Base ModelUtf8 ModelValue ModelEnc ModelBin ModelString ModelMem SpecMem ProofEnc.
Import ListNotations.
Local Open Scope list_scope.
Local Open Scope Z_scope.
Ltac Zify.zify_post_hook ::= Z.div_mod_to_equations.

Lemma u64_id : forall z, 0 <= z < 2 ^ 64 -> u64 z = z.
Proof. intros z H. unfold u64. rewrite Z.mod_small; lia. Qed.

Lemma store_ok : forall b i c, 0 <= i < b_size b ->
  store b i c = MOk (mkB (b_size b) (fun j => if j =? i then Some c else b_at b j)).
Proof. intros b i c H. unfold store, inside. destruct (Z.leb_spec 0 i); [|lia]. destruct (Z.ltb_spec i (b_size b)); [|lia]. reflexivity. Qed.

Lemma load_ok : forall b i c, 0 <= i < b_size b -> b_at b i = Some c -> load b i = MOk c.
Proof.
  intros b i c H E. unfold load, inside. destruct (Z.leb_spec 0 i); [|lia]. destruct (Z.ltb_spec i (b_size b)); [|lia].
  cbn [andb]. rewrite E. reflexivity.
Qed.

Lemma store_all_ok : forall l b i, 0 <= i -> i + Z.of_nat (length l) <= b_size b -> exists b',
  store_all b i l = MOk b' /\ b_size b' = b_size b /\
  (forall k, (k < length l)%nat -> b_at b' (i + Z.of_nat k) = Some (nth k l 0)) /\
  (forall j, j < i \/ i + Z.of_nat (length l) <= j -> b_at b' j = b_at b j).
Proof.
  induction l as [|c l IH]; intros b i Hi Hn; cbn [store_all].
  - exists b. split; [reflexivity|]. split; [reflexivity|]. split; [cbn; lia|]. auto.
  - cbn [length] in Hn. rewrite store_ok by lia. cbn [mbind].
    destruct (IH (mkB (b_size b) (fun j => if j =? i then Some c else b_at b j)) (i + 1)) as [b' (E & S1 & R & O1)];
      [lia|cbn [b_size]; lia|].
    exists b'. split; [exact E|]. split; [exact S1|]. split.
    + intros [|k] Hk; cbn [nth].
      * rewrite O1 by lia. cbn [b_at]. destruct (Z.eqb_spec (i + Z.of_nat 0) i); [reflexivity|lia].
      * cbn [length] in Hk. replace (i + Z.of_nat (S k)) with (i + 1 + Z.of_nat k) by lia. apply R. lia.
    + intros j Hj. cbn [length] in Hj. rewrite O1 by lia. cbn [b_at]. destruct (Z.eqb_spec j i); [lia|reflexivity].
Qed.

Lemma store_all_out : forall l b i, 0 <= i -> b_size b < i + Z.of_nat (length l) -> l <> [] -> store_all b i l = MBad.
Proof.
  induction l as [|c l IH]; intros b i Hi Hn Hne; [congruence|]. cbn [store_all]. unfold store, inside.
  destruct (Z.leb_spec 0 i); [|lia]. destruct (Z.ltb_spec i (b_size b)); [|reflexivity]. cbn [andb mbind].
  cbn [length] in Hn. destruct l as [|d l]; [cbn in Hn; lia|]. apply IH; [lia|cbn [b_size]; lia|discriminate].
Qed.

Lemma load_all_ok : forall n b i t, length t = n -> 0 <= i -> i + Z.of_nat n <= b_size b ->
  (forall k, (k < n)%nat -> b_at b (i + Z.of_nat k) = Some (nth k t 0)) -> load_all b i n = MOk t.
Proof.
  induction n as [|n IH]; intros b i t Hl Hi Hn R; cbn [load_all].
  - destruct t; [reflexivity|discriminate].
  - destruct t as [|c t]; [discriminate|]. cbn in Hl.
    rewrite load_ok with (c := c); [|lia|specialize (R O ltac:(lia)); replace (i + Z.of_nat 0) with i in R by lia; exact R].
    cbn [mbind]. rewrite IH with (t := t); [reflexivity|lia|lia|lia|].
    intros k Hk. specialize (R (S k) ltac:(lia)). cbn [nth] in R. rewrite <- R. f_equal. lia.
Qed.

Section Strings.
Variables (limit : Z) (L : layout).
Hypothesis HL : sane L.

(** *** Allocation *)
Lemma string_alloc_ok : forall n, 0 <= n -> string_size L n < 2 ^ 64 ->
  if string_size L n <=? limit
  then exists b, string_alloc limit L n = MOk b /\ b_size b = string_size L n /\
       forall k, (k < 7)%nat -> b_at b (l_hdr L + Z.of_nat k) = Some (nth k magic 0)
  else string_alloc limit L n = MNoMem.
Proof.
  intros n Hn Hs. destruct HL as [H0 H1]. unfold string_alloc, string_size in *. change (Z.of_nat (length magic)) with 7.
  rewrite (u64_id (n + 1)) by lia. rewrite (u64_id (l_hdr L + l_tail L)) by lia. rewrite u64_id by lia. unfold alloc.
  destruct (Z.leb_spec (l_hdr L + l_tail L + Z.max (n + 1) 7) limit) as [Hl|Hl]; [|reflexivity]. cbn [mbind].
  destruct (store_all_ok magic (mkB (l_hdr L + l_tail L + Z.max (n + 1) 7) (fun _ => None)) (l_hdr L)) as [b (E & S1 & R & _)];
    [exact H0|cbn [b_size]; change (Z.of_nat (length magic)) with 7; lia|].
  exists b. split; [exact E|]. split; [exact S1|]. exact R.
Qed.

Lemma construct_ok : forall b, l_hdr L <= b_size b -> construct L b = MOk b.
Proof. intros b H. unfold construct. destruct (Z.leb_spec (l_hdr L) (b_size b)); [reflexivity|lia]. Qed.

(** *** The constructor from a view *)
Lemma beqb_refl : forall s, beqb s s = true.
Proof. induction s as [|c s IH]; [reflexivity|]. cbn. rewrite Z.eqb_refl. exact IH. Qed.

Lemma string_of_view_ok : forall e s, string_size L (Z.of_nat (length s)) < 2 ^ 64 ->
  built limit (string_size L (Z.of_nat (length s))) L (string_of_view limit L e s) e s.
Proof.
  intros e s Hs. destruct HL as [H0 H1]. unfold built, string_of_view.
  pose proof (string_alloc_ok (Z.of_nat (length s)) ltac:(lia) Hs) as A.
  destruct (Z.leb_spec (string_size L (Z.of_nat (length s))) limit) as [Hl|Hl]; [|rewrite A; reflexivity].
  destruct A as [b (E & Sb & M)]. rewrite E. cbn [mbind]. unfold string_size in Sb.
  rewrite construct_ok by lia. cbn [mbind].
  rewrite load_all_ok with (t := magic); [|reflexivity|lia|change (Z.of_nat (length magic)) with 7; lia|exact M].
  cbn [mbind]. rewrite beqb_refl.
  destruct (store_all_ok s b (l_hdr L)) as [b1 (E1 & S1 & R1 & O1)]; [lia|lia|]. rewrite E1. cbn [mbind].
  rewrite store_ok by lia. cbn [mbind]. eexists. split; [reflexivity|]. split; [reflexivity|]. split; [reflexivity|].
  cbn [so_blk]. unfold text_in. cbn [b_at b_size]. split.
  - intros k Hk. destruct (Z.eqb_spec (l_hdr L + Z.of_nat k) (l_hdr L + Z.of_nat (length s))); [lia|]. apply R1. exact Hk.
  - split; [rewrite Z.eqb_refl; reflexivity|]. lia.
Qed.

(** *** The constructor with a fill function *)
Lemma string_of_fn_ok : forall e n fn t, 0 <= n -> string_size L n < 2 ^ 64 -> fills n fn t ->
  built limit (string_size L n) L (string_of_fn limit L e n fn) e t.
Proof.
  intros e n fn t Hn Hs F. destruct HL as [H0 H1]. unfold built, string_of_fn.
  pose proof (string_alloc_ok n Hn Hs) as A.
  destruct (Z.leb_spec (string_size L n) limit) as [Hl|Hl]; [|rewrite A; reflexivity].
  destruct A as [b (E & Sb & M)]. rewrite E. cbn [mbind]. unfold string_size in Sb.
  rewrite construct_ok by lia. cbn [mbind]. rewrite store_ok by lia. cbn [mbind].
  destruct (F (l_hdr L) (mkB (b_size b) (fun j => if j =? l_hdr L + n then Some 0 else b_at b j))) as [b2 (E2 & Hw & S2 & G2 & R2)];
    [lia|cbn [b_size]; lia|].
  rewrite E2. cbn [mbind]. cbn [b_size b_at] in S2, G2. rewrite Z.eqb_refl in G2.
  destruct (Z.ltb_spec n (Z.of_nat (length t))); [lia|].
  rewrite load_ok with (c := 0); [|lia|exact G2]. cbn [mbind Z.eqb negb].
  rewrite store_ok by lia. cbn [mbind]. eexists. split; [reflexivity|]. split; [reflexivity|]. split; [reflexivity|].
  cbn [so_blk]. unfold text_in. cbn [b_at b_size]. split.
  - intros k Hk. destruct (Z.eqb_spec (l_hdr L + Z.of_nat k) (l_hdr L + Z.of_nat (length t))); [lia|]. apply R2. exact Hk.
  - split; [rewrite Z.eqb_refl; reflexivity|]. lia.
Qed.

(** Reading it back. *)
Lemma text_back : forall s t, holds L s t -> string_text L s = MOk t.
Proof.
  intros s t [Hz (R & _ & Hi & Hn)]. unfold string_text. rewrite Hz, Nat2Z.id.
  apply load_all_ok; [reflexivity|exact Hi|lia|exact R].
Qed.

Lemma key_create_ok : forall s, plain_size L (Z.of_nat (length s)) < 2 ^ 64 ->
  built limit (plain_size L (Z.of_nat (length s))) L (key_create limit L s) None s.
Proof.
  intros s Hs. destruct HL as [H0 H1]. unfold built, key_create, plain_size in *.
  rewrite (u64_id (l_hdr L + l_tail L)) by lia. rewrite u64_id by lia. unfold alloc.
  replace (l_hdr L + l_tail L + Z.of_nat (length s) + 1) with (l_hdr L + l_tail L + (Z.of_nat (length s) + 1)) by lia.
  destruct (Z.leb_spec (l_hdr L + l_tail L + (Z.of_nat (length s) + 1)) limit) as [Hl|Hl]; [|reflexivity]. cbn [mbind].
  rewrite construct_ok by (cbn [b_size]; lia). cbn [mbind].
  set (b0 := mkB _ _). assert (S0 : b_size b0 = l_hdr L + l_tail L + (Z.of_nat (length s) + 1)) by reflexivity.
  destruct (store_all_ok s b0 (l_hdr L)) as [b1 (E1 & S1 & R1 & O1)]; [lia|lia|]. rewrite E1. cbn [mbind].
  rewrite store_ok by lia. cbn [mbind]. eexists. split; [reflexivity|]. split; [reflexivity|]. split; [reflexivity|].
  cbn [so_blk]. unfold text_in. cbn [b_at b_size]. split.
  - intros k Hk. destruct (Z.eqb_spec (l_hdr L + Z.of_nat k) (l_hdr L + Z.of_nat (length s))); [lia|]. apply R1. exact Hk.
  - split; [rewrite Z.eqb_refl; reflexivity|]. lia.
Qed.

Lemma c_string_ok : forall t fuel b i, (length t < fuel)%nat -> 0 <= i -> i + Z.of_nat (length t) < b_size b ->
  (forall k, (k < length t)%nat -> b_at b (i + Z.of_nat k) = Some (nth k t 0)) -> Forall (fun c => c <> 0) t ->
  b_at b (i + Z.of_nat (length t)) = Some 0 -> c_string fuel b i = MOk t.
Proof.
  induction t as [|c t IH]; intros [|fuel] b i Hf Hi Hn R NZ Z0; cbn [length] in *; try lia; cbn [c_string].
  - rewrite load_ok with (c := 0); [reflexivity|lia|]. rewrite <- Z0. f_equal. lia.
  - inversion NZ as [|? ? Hc NZ']; subst.
    rewrite load_ok with (c := c); [|lia|specialize (R O ltac:(lia)); replace (i + Z.of_nat 0) with i in R by lia; exact R].
    cbn [mbind]. destruct (Z.eqb_spec c 0); [congruence|].
    rewrite IH; [reflexivity|lia|lia|lia| |exact NZ'|].
    + intros k Hk. specialize (R (S k) ltac:(lia)). cbn [nth] in R. rewrite <- R. f_equal. lia.
    + rewrite <- Z0. f_equal. lia.
Qed.

Lemma precise_ok : forall s, plain_size L (Z.of_nat (length s)) < 2 ^ 64 -> Forall (fun c => c <> 0) s ->
  if plain_size L (Z.of_nat (length s)) <=? limit
  then exists b, precise_create limit L s = MOk b /\ text_in b (l_hdr L) s /\ precise_text L b = MOk s
  else precise_create limit L s = MNoMem.
Proof.
  intros s Hs NZ. destruct HL as [H0 H1]. unfold precise_create, plain_size in *.
  rewrite (u64_id (l_hdr L + l_tail L)) by lia. rewrite u64_id by lia. unfold alloc.
  replace (l_hdr L + l_tail L + Z.of_nat (length s) + 1) with (l_hdr L + l_tail L + (Z.of_nat (length s) + 1)) by lia.
  destruct (Z.leb_spec (l_hdr L + l_tail L + (Z.of_nat (length s) + 1)) limit) as [Hl|Hl]; [|reflexivity]. cbn [mbind].
  rewrite construct_ok by (cbn [b_size]; lia). cbn [mbind].
  set (b0 := mkB _ _). assert (S0 : b_size b0 = l_hdr L + l_tail L + (Z.of_nat (length s) + 1)) by reflexivity.
  destruct (store_all_ok s b0 (l_hdr L)) as [b1 (E1 & S1 & R1 & O1)]; [lia|lia|]. rewrite E1. cbn [mbind].
  rewrite store_ok by lia. eexists. split; [reflexivity|].
  match goal with |- text_in ?b _ _ /\ _ => assert (T : text_in b (l_hdr L) s) end.
  { unfold text_in. cbn [b_at b_size]. split.
    - intros k Hk. destruct (Z.eqb_spec (l_hdr L + Z.of_nat k) (l_hdr L + Z.of_nat (length s))); [lia|]. apply R1. exact Hk.
    - split; [rewrite Z.eqb_refl; reflexivity|]. lia. }
  split; [exact T|]. destruct T as (T1 & T2 & T3 & T4). unfold precise_text. cbn [b_size] in *.
  apply c_string_ok; auto. lia.
Qed.
End Strings.

(** *** Lists of texts *)
Lemma total_concat : forall l, total l = Z.of_nat (length (concat l)).
Proof. induction l as [|x l IH]; [reflexivity|]. cbn [total concat]. rewrite app_length, IH. lia. Qed.

Lemma store_all_app : forall l m b i, store_all b i (l ++ m) = mbind (store_all b i l) (fun b1 => store_all b1 (i + Z.of_nat (length l)) m).
Proof.
  induction l as [|c l IH]; intros m b i; cbn [app store_all length mbind].
  - f_equal. lia.
  - destruct (store b i c); cbn [mbind]; try reflexivity. rewrite IH. do 2 f_equal. apply f_equal with (f := fun z => fun b1 => store_all b1 z m). lia.
Qed.

Lemma put_list_all : forall l i b, put_list l i b = store_all b i (concat l).
Proof.
  induction l as [|x l IH]; intros i b; [reflexivity|]. cbn [put_list concat]. rewrite store_all_app.
  destruct (store_all b i x); cbn [mbind]; auto.
Qed.

(** A function which copies one text. *)
Lemma fills_copy : forall n t (fn : Z -> block -> mres (block * Z)), Z.of_nat (length t) = n ->
  (forall base b, fn base b = mbind (store_all b base t) (fun b => MOk (b, n))) -> fills n fn t.
Proof.
  intros n t fn Hn E base b Hb Hs. rewrite E. destruct (store_all_ok t b base) as [b' (E1 & S1 & R1 & O1)]; [exact Hb|lia|].
  exists b'. rewrite E1. cbn [mbind]. split; [rewrite Hn; reflexivity|]. split; [lia|]. split; [exact S1|].
  split; [apply O1; lia|exact R1].
Qed.

Section Strings2.
Variables (limit : Z) (L : layout).
Hypothesis HL : sane L.

Lemma below : forall n, string_size L n < 2 ^ 64 -> n < 2 ^ 64.
Proof. intros n H. destruct HL. unfold string_size in H. lia. Qed.

Lemma mem_list_ok : forall l, string_size L (Z.of_nat (length (concat l))) < 2 ^ 64 ->
  built limit (string_size L (Z.of_nat (length (concat l)))) L (mem_list limit L l) None (concat l).
Proof.
  intros l Hs. pose proof (below _ Hs). unfold mem_list. rewrite total_concat. rewrite u64_id by lia.
  apply string_of_fn_ok; [exact HL|lia|exact Hs|]. apply fills_copy; [reflexivity|]. intros base b. rewrite put_list_all. reflexivity.
Qed.

Lemma copy_from_ok : forall b i v off len, 0 <= off -> 0 <= len -> off + len <= Z.of_nat (length v) ->
  copy_from b i v off len = store_all b i (firstn (Z.to_nat len) (skipn (Z.to_nat off) v)).
Proof.
  intros b i v off len H0 H1 H2. unfold copy_from. destruct (Z.leb_spec 0 off); [|lia].
  destruct (Z.leb_spec (off + len) (Z.of_nat (length v))); [|lia]. reflexivity.
Qed.

(** Three copies, one after another. *)
Lemma three_copies : forall a b c blk i j k (f : block -> mres (block * Z)), j = i + Z.of_nat (length a) -> k = j + Z.of_nat (length b) ->
  mbind (store_all blk i a) (fun b1 => mbind (store_all b1 j b) (fun b2 => mbind (store_all b2 k c) f)) =
  mbind (store_all blk i (a ++ b ++ c)) f.
Proof.
  intros a b c blk i j k f -> ->. rewrite store_all_app. destruct (store_all blk i a); cbn [mbind]; try reflexivity.
  rewrite store_all_app. destruct (store_all a0 (i + Z.of_nat (length a)) b); reflexivity.
Qed.

Lemma mem_insert_ok : forall a pos what, 0 <= pos -> string_size L (Z.of_nat (length a + length what)) < 2 ^ 64 ->
  built limit (string_size L (Z.of_nat (length a + length what))) L (mem_insert limit L a pos what) None
    (firstn (Z.to_nat pos) a ++ what ++ skipn (Z.to_nat pos) a).
Proof.
  intros a pos what Hp Hs. pose proof (below _ Hs). unfold mem_insert. rewrite Nat2Z.inj_add in *. rewrite u64_id by lia.
  set (n := Z.of_nat (length a)) in *. set (k := Z.of_nat (length what)) in *.
  set (p := if n <? pos then n else pos). assert (Hp2 : 0 <= p <= n) by (unfold p; destruct (Z.ltb_spec n pos); lia).
  assert (E1 : firstn (Z.to_nat pos) a = firstn (Z.to_nat p) a /\ skipn (Z.to_nat pos) a = skipn (Z.to_nat p) a).
  { unfold p. destruct (Z.ltb_spec n pos); [|auto]. unfold n in *. rewrite Nat2Z.id, firstn_all, skipn_all. split; [apply firstn_all2; lia|].
    apply skipn_all2. lia. }
  destruct E1 as [-> ->].
  apply string_of_fn_ok; [exact HL|lia|exact Hs|]. apply fills_copy.
  { rewrite !app_length, firstn_length, skipn_length. lia. }
  intros base b. rewrite copy_from_ok by lia. cbn [skipn Z.to_nat].
  transitivity (mbind (store_all b base (firstn (Z.to_nat p) a ++ firstn (Z.to_nat k) what ++ firstn (Z.to_nat (n - p)) (skipn (Z.to_nat p) a))) (fun b0 => MOk (b0, n + k))).
  - rewrite <- three_copies with (j := base + p) (k := base + p + k);
      [|rewrite firstn_length; lia|rewrite firstn_length; lia].
    destruct (store_all b base (firstn (Z.to_nat p) a)) as [b1| | | |]; cbn [mbind]; try reflexivity.
    rewrite copy_from_ok by lia. cbn [skipn Z.to_nat].
    destruct (store_all b1 (base + p) (firstn (Z.to_nat k) what)) as [b2| | | |]; cbn [mbind]; try reflexivity.
    rewrite copy_from_ok by lia. reflexivity.
  - do 2 f_equal. f_equal. unfold k. rewrite Nat2Z.id, firstn_all. f_equal. apply firstn_all2. rewrite skipn_length. lia.
Qed.

Lemma mem_replace_ok : forall a pos size what, 0 <= pos -> 0 <= size < 2 ^ 64 ->
  let p := Z.min pos (Z.of_nat (length a)) in
  let t := firstn (Z.to_nat p) a ++ what ++ skipn (Z.to_nat ((p + size) mod 2 ^ 64)) a in
  string_size L (Z.of_nat (length t)) < 2 ^ 64 -> Z.of_nat (length a) < 2 ^ 64 ->
  built limit (string_size L (Z.of_nat (length t))) L (mem_replace limit L a pos size what) None t.
Proof.
  intros a pos size what Hp Hz p t Hs Ha. pose proof (below _ Hs) as Hb. unfold mem_replace.
  set (n := Z.of_nat (length a)) in *. set (k := Z.of_nat (length what)) in *.
  replace (if n <? pos then n else pos) with p by (unfold p; destruct (Z.ltb_spec n pos); lia).
  assert (Hp2 : 0 <= p <= n) by (unfold p; lia). clearbody p. change (u64 (p + size)) with ((p + size) mod 2 ^ 64).
  set (z := if n <? (p + size) mod 2 ^ 64 then n - p else size).
  pose proof (Z.mod_pos_bound (p + size) (2 ^ 64) ltac:(lia)) as Hq.
  set (q := if n <? (p + size) mod 2 ^ 64 then n else (p + size) mod 2 ^ 64).
  assert (Hq2 : 0 <= q <= n) by (unfold q; destruct (Z.ltb_spec n ((p + size) mod 2 ^ 64)); lia).
  assert (E1 : t = firstn (Z.to_nat p) a ++ what ++ skipn (Z.to_nat q) a).
  { unfold t, q. destruct (Z.ltb_spec n ((p + size) mod 2 ^ 64)); [|reflexivity]. rewrite (skipn_all2 (n := Z.to_nat n)) by lia. rewrite (skipn_all2 (n := Z.to_nat ((p + size) mod 2 ^ 64))) by lia. reflexivity. }
  rewrite E1 in *. assert (El : Z.of_nat (length (firstn (Z.to_nat p) a ++ what ++ skipn (Z.to_nat q) a)) = p + k + (n - q)).
  { rewrite !app_length, firstn_length, skipn_length. lia. }
  rewrite El in *.
  assert (E2 : u64 (p + z) = q).
  { unfold z, q, u64. destruct (Z.ltb_spec n ((p + size) mod 2 ^ 64)); [|reflexivity]. replace (p + (n - p)) with n by lia. apply Z.mod_small. lia. }
  assert (E3 : u64 (n + k - z) = p + k + (n - q)).
  { replace (n + k - z) with ((p + k + n) - (p + z)) by lia. unfold u64. rewrite Zminus_mod. fold (u64 (p + z)). rewrite E2.
    rewrite <- (Z.mod_small q (2 ^ 64)) at 1 by lia. rewrite <- Zminus_mod. rewrite Z.mod_small by lia. lia. }
  assert (E4 : u64 (n - p - z) = n - q).
  { replace (n - p - z) with (n - (p + z)) by lia. unfold u64. rewrite Zminus_mod. fold (u64 (p + z)). rewrite E2.
    rewrite <- (Z.mod_small q (2 ^ 64)) at 1 by lia. rewrite <- Zminus_mod. apply Z.mod_small. lia. }
  rewrite E2, E3, E4.
  apply string_of_fn_ok; [exact HL|lia|exact Hs|]. apply fills_copy; [exact El|].
  intros base b. rewrite copy_from_ok by lia. cbn [skipn Z.to_nat].
  transitivity (mbind (store_all b base (firstn (Z.to_nat p) a ++ firstn (Z.to_nat k) what ++ firstn (Z.to_nat (n - q)) (skipn (Z.to_nat q) a))) (fun b0 => MOk (b0, p + k + (n - q)))).
  - rewrite <- three_copies with (j := base + p) (k := base + p + k);
      [|rewrite firstn_length; lia|rewrite firstn_length; lia].
    destruct (store_all b base (firstn (Z.to_nat p) a)) as [b1| | | |]; cbn [mbind]; try reflexivity.
    rewrite copy_from_ok by lia. cbn [skipn Z.to_nat].
    destruct (store_all b1 (base + p) (firstn (Z.to_nat k) what)) as [b2| | | |]; cbn [mbind]; try reflexivity.
    rewrite copy_from_ok by lia. reflexivity.
  - do 2 f_equal. f_equal. unfold k. rewrite Nat2Z.id, firstn_all. f_equal. apply firstn_all2. rewrite skipn_length. lia.
Qed.

Lemma put_join_all : forall sep tmp first i b, put_join sep first tmp i b =
  mbind (store_all b i (join_text sep first tmp)) (fun b => MOk (b, i + Z.of_nat (length (join_text sep first tmp)))).
Proof.
  intros sep. induction tmp as [|v tmp IH]; intros first i b; cbn [put_join join_text].
  - cbn [store_all mbind length]. do 2 f_equal. lia.
  - destruct first; cbn [mbind app].
    + rewrite store_all_app. destruct (store_all b i v); cbn [mbind]; try reflexivity. rewrite IH, app_length.
      destruct (store_all a (i + Z.of_nat (length v)) (join_text sep false tmp)); cbn [mbind]; try reflexivity. do 2 f_equal. lia.
    + rewrite store_all_app. destruct (store_all b i sep) as [b1| | | |]; cbn [mbind]; try reflexivity. rewrite store_all_app.
      destruct (store_all b1 (i + Z.of_nat (length sep)) v) as [b2| | | |]; cbn [mbind]; try reflexivity. rewrite IH, !app_length.
      destruct (store_all b2 _ (join_text sep false tmp)); cbn [mbind]; try reflexivity. do 2 f_equal. lia.
Qed.

Lemma join_length : forall sep tmp first, Z.of_nat (length (join_text sep first tmp)) =
  total tmp + (if first then (match tmp with [] => 0 | _ => Z.of_nat (length tmp) - 1 end) else Z.of_nat (length tmp)) * Z.of_nat (length sep).
Proof.
  intros sep. induction tmp as [|v tmp IH]; intros first; cbn [join_text total].
  - destruct first; reflexivity.
  - rewrite !app_length, !Nat2Z.inj_add, IH. cbn [length]. destruct first; cbn [length]; nia.
Qed.

Lemma mem_join_ok : forall sep tmp, tmp <> [] \/ sep = [] ->
  let t := join_text sep true tmp in
  string_size L (Z.of_nat (length t)) < 2 ^ 64 ->
  built limit (string_size L (Z.of_nat (length t))) L (mem_join limit L sep tmp) None t.
Proof.
  intros sep tmp Hne t Hs. pose proof (below _ Hs) as Hb. unfold mem_join.
  assert (E : total tmp + (Z.of_nat (length tmp) - 1) * Z.of_nat (length sep) = Z.of_nat (length t)).
  { unfold t. rewrite join_length. destruct tmp as [|x tmp]; [|reflexivity]. destruct Hne as [?| ->]; [congruence|]. reflexivity. }
  rewrite E. rewrite u64_id by lia. apply string_of_fn_ok; [exact HL|lia|exact Hs|]. apply fills_copy; [reflexivity|].
  intros base b. rewrite put_join_all. fold t. destruct (store_all b base t); cbn [mbind]; try reflexivity. do 2 f_equal. lia.
Qed.

(** Joining nothing with a separator: outside of the block, unless there happens to be memory
    for nearly everything. *)
Lemma mem_join_empty : forall sep, (2 <= length sep)%nat -> Z.of_nat (length sep) < 2 ^ 63 ->
  l_hdr L + l_tail L < 2 ^ 63 -> l_hdr L + 7 <= limit -> Z.of_nat (length sep) <= l_hdr L + l_tail L -> l_tail L < 7 ->
  mem_join limit L sep [] = MBad.
Proof.
  intros sep H2 Hsep HLs Hlim Hsz Ht. destruct HL as [H0 H1]. unfold mem_join, string_of_fn, string_alloc. cbn [total length].
  assert (E1 : u64 (0 + (Z.of_nat 0 - 1) * Z.of_nat (length sep)) = 2 ^ 64 - Z.of_nat (length sep)).
  { unfold u64. lia. }
  rewrite E1. rewrite (u64_id (_ + 1)) by lia. rewrite (u64_id (l_hdr L + l_tail L)) by lia.
  replace (Z.max (2 ^ 64 - Z.of_nat (length sep) + 1) (Z.of_nat (length magic))) with (2 ^ 64 - Z.of_nat (length sep) + 1)
    by (change (Z.of_nat (length magic)) with 7; lia).
  assert (E2 : u64 (l_hdr L + l_tail L + (2 ^ 64 - Z.of_nat (length sep) + 1)) = l_hdr L + l_tail L - Z.of_nat (length sep) + 1).
  { unfold u64. lia. }
  rewrite E2. unfold alloc.
  destruct (Z.leb_spec (l_hdr L + l_tail L - Z.of_nat (length sep) + 1) limit); [|lia].
  cbn [mbind]. rewrite store_all_out; [reflexivity|lia|cbn [b_size]; change (Z.of_nat (length magic)) with 7; lia|discriminate].
Qed.
End Strings2.
