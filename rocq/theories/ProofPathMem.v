From Coq Require Import ZArith List Bool Lia.
From Verif Require Import Base ModelPath ModelPathMem SpecPathMem.
Import ListNotations.
Local Open Scope list_scope.
Local Open Scope Z_scope.

Lemma put_same : forall m a c, put m a c a = Some c.
Proof. intros. unfold put. rewrite Z.eqb_refl. reflexivity. Qed.
Lemma put_other : forall m a c x, x <> a -> put m a c x = m x.
Proof. intros. unfold put. destruct (Z.eqb_spec x a); [contradiction|reflexivity]. Qed.
Lemma write_ok : forall m a c, m a <> None -> write m a c = POk (put m a c).
Proof. intros m a c H. unfold write. destruct (m a); [reflexivity|contradiction]. Qed.

Lemma has_parts_true : forall m a n x, (forall i, 0 <= i < Z.of_nat n -> m (x + i) = Some (CPart a)) ->
  has_parts m a x n = true.
Proof.
  intros m a n; induction n as [|n IH]; intros x H; [reflexivity|].
  cbn. rewrite <- (Z.add_0_r x) at 1. rewrite H by lia. rewrite Z.eqb_refl. cbn.
  apply IH. intros i Hi. replace (x + 1 + i) with (x + (i + 1)) by lia. apply H. lia.
Qed.

Lemma read_node_ok : forall szP m a ka kl ix pa, object_at m a szP ka kl ix pa ->
  read_node szP m a = POk (ka, kl, ix, pa).
Proof.
  intros szP m a ka kl ix pa [H1 H2]. unfold read_node. rewrite H1.
  rewrite has_parts_true; [reflexivity|]. intros i Hi.
  replace (a + 1 + i) with (a + (1 + i)) by lia. apply H2. lia.
Qed.

Lemma write_parts_ok : forall a n m x, (forall i, 0 <= i < Z.of_nat n -> m (x + i) <> None) ->
  exists m', write_parts m a x n = POk m' /\
    (forall y, ~ (x <= y < x + Z.of_nat n) -> m' y = m y) /\
    (forall i, 0 <= i < Z.of_nat n -> m' (x + i) = Some (CPart a)).
Proof.
  intros a n; induction n as [|n IH]; intros m x H.
  - exists m. split; [reflexivity|]. split; [reflexivity|]. intros i Hi. lia.
  - cbn [write_parts]. rewrite write_ok.
    2: { rewrite <- (Z.add_0_r x). apply H. lia. }
    cbn [pbind]. destruct (IH (put m x (CPart a)) (x + 1)) as (m' & E & F & G).
    { intros i Hi. destruct (Z.eq_dec (x + 1 + i) x); [lia|]. rewrite put_other by assumption.
      replace (x + 1 + i) with (x + (1 + i)) by lia. apply H. lia. }
    exists m'. split; [exact E|]. split.
    + intros y Hy. rewrite F by lia. apply put_other. lia.
    + intros i Hi. destruct (Z.eq_dec i 0) as [->|].
      * rewrite F by lia. rewrite Z.add_0_r. apply put_same.
      * replace (x + i) with (x + 1 + (i - 1)) by lia. apply G. lia.
Qed.

Lemma write_node_ok : forall m a sz ka kl ix pa, 0 < sz -> (forall x, a <= x < a + sz -> m x <> None) ->
  exists m', write_node m a sz ka kl ix pa = POk m' /\
    (forall y, ~ (a <= y < a + sz) -> m' y = m y) /\ object_at m' a sz ka kl ix pa.
Proof.
  intros m a sz ka kl ix pa Hs H. unfold write_node. rewrite write_ok by (apply H; lia). cbn [pbind].
  destruct (write_parts_ok a (Z.to_nat (sz - 1)) (put m a (CNode ka kl ix pa)) (a + 1)) as (m' & E & F & G).
  { intros i Hi. rewrite put_other by lia. apply H. lia. }
  exists m'. split; [exact E|]. split.
  - intros y Hy. rewrite F by lia. apply put_other. lia.
  - split.
    + rewrite F by lia. apply put_same.
    + intros i Hi. replace (a + i) with (a + 1 + (i - 1)) by lia. apply G. lia.
Qed.

Lemma copy_bytes_ok : forall k m src dst, text_at m src k ->
  (forall i, 0 <= i < Z.of_nat (length k) -> m (dst + i) <> None) ->
  (forall i j, 0 <= i < Z.of_nat (length k) -> 0 <= j < Z.of_nat (length k) -> src + i <> dst + j) ->
  exists m', copy_bytes m src dst (length k) = POk m' /\
    (forall y, ~ (dst <= y < dst + Z.of_nat (length k)) -> m' y = m y) /\ text_at m' dst k.
Proof.
  induction k as [|c k IH]; intros m src dst T A D.
  - exists m. split; [reflexivity|]. split; [reflexivity|]. intros i c H. destruct i; discriminate H.
  - cbn [length copy_bytes]. cbn [length] in A, D.
    assert (E0 : m src = Some (CByte c)) by (rewrite <- (Z.add_0_r src); apply (T 0%nat c); reflexivity).
    unfold read_byte. rewrite E0. cbn [pbind].
    rewrite write_ok by (rewrite <- (Z.add_0_r dst); apply A; lia). cbn [pbind].
    destruct (IH (put m dst (CByte c)) (src + 1) (dst + 1)) as (m' & E & F & G).
    + intros i x Hx. assert (Hi : (i < length k)%nat) by (apply nth_error_Some; congruence).
      rewrite put_other.
      * replace (src + 1 + Z.of_nat i) with (src + Z.of_nat (S i)) by lia. apply T. exact Hx.
      * specialize (D (Z.of_nat (S i)) 0). lia.
    + intros i Hi. rewrite put_other by lia. replace (dst + 1 + i) with (dst + (1 + i)) by lia. apply A. lia.
    + intros i j Hi Hj. specialize (D (i + 1) (j + 1)). lia.
    + exists m'. split; [exact E|]. split.
      * intros y Hy. rewrite F by lia. apply put_other. lia.
      * intros i x Hx. destruct i as [|i].
        -- injection Hx as <-. rewrite F by lia. rewrite Z.add_0_r. apply put_same.
        -- replace (dst + Z.of_nat (S i)) with (dst + 1 + Z.of_nat i) by lia. apply G. exact Hx.
Qed.

Section Copy.
Variables (szR szP root : Z).
Hypothesis HP : 0 < szP.

Fixpoint nodes_size (sz : Z) (p : path) : Z :=
  match p with [] => 0 | _ :: p' => sz + nodes_size szP p' end.

Lemma nodes_size_eq : forall p sz, p <> [] -> nodes_size sz p = sz + szP * (Z.of_nat (length p) - 1).
Proof.
  induction p as [|e p IH]; intros sz H; [contradiction|].
  cbn [nodes_size length]. destruct p as [|e' p]; [cbn [nodes_size length]; change (Z.of_nat 1) with 1; ring|].
  rewrite IH by discriminate. cbn [length]. rewrite !Nat2Z.inj_succ. ring.
Qed.
Lemma nodes_pos : forall p sz, 0 < sz -> 0 <= nodes_size sz p.
Proof. induction p as [|e p IH]; intros sz H; cbn; [lia|]. specialize (IH szP HP). lia. Qed.
Lemma names_pos : forall p, 0 <= names_size p.
Proof. induction p as [|e p IH]; cbn [names_size]; [lia|]. destruct (pe_index e =? 2 ^ 64 - 1); lia. Qed.

(** What is read of a path of [m0] in a memory which has all of [m0]. *)
Lemma object_ext : forall m m' a sz ka kl ix pa, (forall x, m x <> None -> m' x = m x) ->
  object_at m a sz ka kl ix pa -> object_at m' a sz ka kl ix pa.
Proof.
  intros m m' a sz ka kl ix pa H [H1 H2]. split.
  - rewrite H by congruence. exact H1.
  - intros i Hi. rewrite H; [apply H2; exact Hi|]. rewrite H2 by exact Hi. discriminate.
Qed.
Lemma text_ext : forall m m' a k, (forall x, m x <> None -> m' x = m x) -> text_at m a k -> text_at m' a k.
Proof. intros m m' a k H T i c Hc. rewrite H; [apply T; exact Hc|]. rewrite (T i c Hc). discriminate. Qed.
Lemma denotes_ext : forall m m' a p, (forall x, m x <> None -> m' x = m x) ->
  denotes szP root m a p -> denotes szP root m' a p.
Proof.
  intros m m' a p H D; induction D as [|a ka k ix pa p Ha Ho Ht D IH]; [constructor|].
  eapply den_step; eauto using object_ext, text_ext.
Qed.

(** The copy reads as the source and nothing outside of it is read. *)
Definition copied (m' : memory) (lo hi a : Z) (p : path) : Prop :=
  forall m'', (forall x, lo <= x < hi -> m'' x = m' x) -> denotes szP root m'' a p /\ names_closed root m'' a.

Lemma denotes_nil : forall m a, denotes szP root m a [] -> a = root.
Proof. intros m a D. inversion D. reflexivity. Qed.

Lemma recurse_ok : forall m0 lo hi, m0 root <> None -> unused m0 lo (hi - lo) ->
  forall p a, denotes szP root m0 a p -> Forall elem_ok p ->
  forall fuel m trg sz strbuf, (length p < fuel)%nat -> szP <= sz ->
  (forall x, m0 x <> None -> m x = m0 x) -> (forall x, lo <= x < hi -> m x <> None) ->
  lo <= trg -> trg + nodes_size sz p <= strbuf -> strbuf + names_size p <= hi ->
  exists m' a', copy_recurse szP root fuel m a trg sz strbuf = POk (m', a') /\
    a' = (match p with [] => root | _ => trg end) /\
    (forall x, ~ (trg <= x < trg + nodes_size sz p) -> ~ (strbuf <= x < strbuf + names_size p) -> m' x = m x) /\
    (forall m'', (forall x, trg <= x < trg + nodes_size sz p -> m'' x = m' x) ->
                 (forall x, strbuf <= x < strbuf + names_size p -> m'' x = m' x) ->
      denotes szP root m'' a' p /\ names_closed root m'' a') /\
    (p <> [] -> exists ka kl ix pa, object_at m' a' sz ka kl ix pa).
Proof.
  intros m0 lo hi Hroot Hun p.
  assert (Hout : forall x, m0 x <> None -> ~ (lo <= x < hi)).
  { intros x Hx Hb. apply Hx. apply Hun. unfold in_block. lia. }
  assert (Hr := Hout root Hroot).
  induction p as [|e p IH]; intros a D OK fuel m trg sz strbuf Hf Hsz Hm Ha Hlo Hn Hs;
    destruct fuel as [|fuel]; try lia; cbn [length] in Hf.
  - apply denotes_nil in D. subst a. cbn [copy_recurse]. rewrite Z.eqb_refl.
    exists m, root. split; [reflexivity|]. split; [reflexivity|]. split; [reflexivity|]. split.
    + intros m'' _ _. split; constructor.
    + intros C. contradiction.
  - inversion D as [|a1 ka k ix pa p1 Hne Ho Ht D' EA EP]; subst.
    pose proof (Forall_inv OK) as OKe. pose proof (Forall_inv_tail OK) as OK'.
    assert (Hnp := nodes_pos p szP HP). assert (Hsp := names_pos p).
    cbn [nodes_size names_size pe_index pe_key] in Hn, Hs |- *. change (2 ^ 64 - 1) with no_index in *.
    cbn [copy_recurse]. destruct (Z.eqb_spec a root); [contradiction|].
    rewrite (read_node_ok szP m a ka (Z.of_nat (length k)) ix pa) by (eapply object_ext; eauto). cbn [pbind].
    destruct (Z.eqb_spec ix no_index) as [Hix|Hix].
    + (* a key *)
      set (kl := Z.of_nat (length k)) in *.
      assert (Hkl : kl = Z.of_nat (length k)) by reflexivity. clearbody kl.
      replace (Z.to_nat kl) with (length k) by lia.
      destruct (copy_bytes_ok k m ka strbuf) as (m1 & E1 & F1 & G1).
      { eapply text_ext; eauto. }
      { intros i Hi. apply Ha. lia. }
      { intros i j Hi Hj Heq.
        assert (Hk : m0 (ka + i) <> None).
        { destruct (nth_error k (Z.to_nat i)) as [c|] eqn:En.
          - specialize (Ht _ _ En). rewrite Z2Nat.id in Ht by lia. congruence.
          - apply nth_error_None in En. lia. }
        apply Hout in Hk. lia. }
      rewrite E1. cbn [pbind].
      rewrite write_ok.
      2: { rewrite F1 by lia. apply Ha. lia. }
      cbn [pbind]. set (m2 := put m1 (strbuf + kl) (CByte 0)).
      assert (Hm2 : forall x, ~ (strbuf <= x < strbuf + kl + 1) -> m2 x = m x).
      { intros x Hx. unfold m2. rewrite put_other by lia. apply F1. lia. }
      destruct (IH pa D' OK' fuel m2 (trg + sz) szP (strbuf + kl + 1)) as (m3 & out & E3 & EO & F3 & G3 & _); try lia.
      { intros x Hx. rewrite Hm2; [apply Hm; exact Hx|]. specialize (Hout x Hx). lia. }
      { intros x Hx. unfold m2. destruct (Z.eq_dec x (strbuf + kl)) as [->|Hd]; [rewrite put_same; discriminate|].
        rewrite put_other by exact Hd.
        destruct (Z_lt_dec x strbuf); [rewrite F1 by lia; apply Ha; lia|].
        destruct (Z_lt_dec x (strbuf + kl)); [|rewrite F1 by lia; apply Ha; lia].
        destruct (nth_error k (Z.to_nat (x - strbuf))) as [c|] eqn:En.
        - specialize (G1 _ _ En). rewrite Z2Nat.id in G1 by lia. replace (strbuf + (x - strbuf)) with x in G1 by lia. congruence.
        - apply nth_error_None in En. lia. }
      rewrite E3. cbn [pbind].
      rewrite (read_node_ok szP m3 a ka kl ix pa).
      2: { eapply object_ext; [|exact Ho]. intros x Hx. assert (Hb := Hout x Hx).
           rewrite F3 by lia. rewrite Hm2 by lia. apply Hm. exact Hx. }
      cbn [pbind].
      destruct (write_node_ok m3 trg sz strbuf kl no_index out) as (m4 & E4 & F4 & G4); [lia| |].
      { intros x Hx. rewrite F3 by lia. rewrite Hm2 by lia. apply Ha. lia. }
      rewrite E4. cbn [pbind]. exists m4, trg. split; [reflexivity|]. split; [reflexivity|]. split; [|split].
      * intros x H1 H2. rewrite F4 by lia. rewrite F3 by lia. apply Hm2. lia.
      * intros m'' Hn'' Hs''.
        destruct (G3 m'') as [Dn Nc].
        { intros x Hx. rewrite Hn'' by lia. apply F4. lia. }
        { intros x Hx. rewrite Hs'' by lia. apply F4. lia. }
        assert (HO : object_at m'' trg sz strbuf kl no_index out).
        { destruct G4 as [Ga Gb]. split; [rewrite Hn'' by lia; exact Ga|].
          intros i Hi. rewrite Hn'' by lia. apply Gb. exact Hi. }
        split.
        -- rewrite Hix. eapply den_step; [intros C; lia| |  | exact Dn].
           ++ destruct HO as [Oa Ob]. split; [rewrite <- Hkl; exact Oa|]. intros i Hi. apply Ob. lia.
           ++ intros i c Hc. assert (Hi : (i < length k)%nat) by (apply nth_error_Some; congruence).
              rewrite Hs'' by lia. rewrite F4 by lia. rewrite F3 by lia. unfold m2. rewrite put_other by lia. apply G1. exact Hc.
        -- eapply nc_step; [exact (proj1 HO)| | exact Nc]. intros _.
           rewrite Hs'' by lia. rewrite F4 by lia. rewrite F3 by lia. unfold m2. apply put_same.
      * intros _. do 4 eexists. exact G4.
    + (* an index *)
      assert (k = []) as ->. { destruct OKe as [C|C]; [cbn in C; contradiction|exact C]. }
      destruct (IH pa D' OK' fuel m (trg + sz) szP strbuf) as (m3 & out & E3 & EO & F3 & G3 & _); try lia; try assumption.
      rewrite E3. cbn [pbind].
      rewrite (read_node_ok szP m3 a ka 0 ix pa).
      2: { eapply object_ext; [|exact Ho]. intros x Hx. assert (Hb := Hout x Hx). rewrite F3 by lia. apply Hm. exact Hx. }
      cbn [pbind].
      destruct (write_node_ok m3 trg sz 0 0 ix out) as (m4 & E4 & F4 & G4); [lia| |].
      { intros x Hx. rewrite F3 by lia. apply Ha. lia. }
      rewrite E4. cbn [pbind]. exists m4, trg. split; [reflexivity|]. split; [reflexivity|]. split; [|split].
      * intros x H1 H2. rewrite F4 by lia. apply F3; lia.
      * intros m'' Hn'' Hs''.
        destruct (G3 m'') as [Dn Nc].
        { intros x Hx. rewrite Hn'' by lia. apply F4. lia. }
        { intros x Hx. rewrite Hs'' by lia. apply F4. lia. }
        assert (HO : object_at m'' trg sz 0 0 ix out).
        { destruct G4 as [Ga Gb]. split; [rewrite Hn'' by lia; exact Ga|].
          intros i Hi. rewrite Hn'' by lia. apply Gb. exact Hi. }
        split.
        -- eapply den_step with (ka := 0); [intros C; lia| |  | exact Dn].
           ++ destruct HO as [Oa Ob]. split; [exact Oa|]. intros i Hi. apply Ob. lia.
           ++ intros i c Hc. destruct i; discriminate Hc.
        -- eapply nc_step; [exact (proj1 HO)| | exact Nc]. intros C. contradiction.
      * intros _. do 4 eexists. exact G4.
Qed.

Lemma u64_id : forall x, 0 <= x < 2 ^ 64 -> u64 x = x.
Proof. intros x H. unfold u64. apply Z.mod_small. exact H. Qed.

Lemma sizes_ok : forall m this p a, denotes szP root m a p -> 
  forall fuel req len, (length p < fuel)%nat -> 0 <= req -> 0 <= len ->
  forall sz, sz = (if a =? this then szR else szP) -> 0 < sz ->
  (forall b q, denotes szP root m b q -> (length q < length p)%nat -> b <> this) ->
  req + nodes_size sz p + names_size p < 2 ^ 64 -> len + nodes_size sz p < 2 ^ 64 ->
  copy_sizes szR szP root fuel m this a req len = POk (req + nodes_size sz p + names_size p, len + nodes_size sz p).
Proof.
  intros m this p; induction p as [|e p IH]; intros a D fuel req len Hf Hr Hl sz Es Hsz Hd Hb1 Hb2;
    destruct fuel as [|fuel]; try lia; cbn [length] in Hf.
  - apply denotes_nil in D. subst a. cbn [copy_sizes]. rewrite Z.eqb_refl. cbn [nodes_size names_size].
    do 2 f_equal; lia.
  - inversion D as [|a1 ka k ix pa p1 Hne Ho Ht D' EA EP]; subst a1 e p1.
    assert (Hnp := nodes_pos p szP HP). assert (Hsp := names_pos p).
    cbn [copy_sizes]. destruct (Z.eqb_spec a root); [contradiction|].
    rewrite (read_node_ok szP m a ka (Z.of_nat (length k)) ix pa Ho). cbn [pbind].
    rewrite <- Es. cbn [nodes_size names_size pe_index pe_key] in Hb1, Hb2 |- *. change (2 ^ 64 - 1) with no_index in *.
    assert (Epa : (if pa =? this then szR else szP) = szP).
    { destruct (Z.eqb_spec pa this); [|reflexivity]. exfalso. apply (Hd pa p D'); [cbn; lia|assumption]. }
    assert (Hd' : forall b q, denotes szP root m b q -> (length q < length p)%nat -> b <> this).
    { intros b q Dq Hq. apply (Hd b q Dq). cbn [length]. lia. }
    destruct (Z.eqb_spec ix no_index) as [Hix|Hix].
    + rewrite (u64_id (req + sz)) by lia. rewrite u64_id by lia. rewrite u64_id by lia.
      rewrite (IH pa D' fuel (req + sz + (Z.of_nat (length k) + 1)) (len + sz)) with (sz := szP); try lia; try assumption; try congruence.
      do 2 f_equal; lia.
    + rewrite (u64_id (req + sz)) by lia. rewrite u64_id by lia.
      rewrite (IH pa D' fuel (req + sz) (len + sz)) with (sz := szP); try lia; try assumption; try congruence.
      do 2 f_equal; lia.
Qed.

(** A path is determined by its address, so an object is not among its own parents. *)
Lemma denotes_det : forall m a p, denotes szP root m a p -> forall q, denotes szP root m a q -> p = q.
Proof.
  intros m a p D; induction D as [|a ka k ix pa p Ha [Ho _] Ht D IH]; intros q Q.
  - inversion Q; [reflexivity|contradiction].
  - inversion Q as [|a1 ka1 k1 ix1 pa1 p1 Ha1 [Ho1 _] Ht1 D1 EA EP]; [subst; contradiction|]. subst a1 q.
    rewrite Ho in Ho1. injection Ho1 as E1 E2 E3 E4. subst ka1 ix1 pa1.
    rewrite (IH _ D1). do 2 f_equal.
    apply Nat2Z.inj in E2. clear -E2 Ht Ht1.
    apply nth_ext with (d := 0) (d' := 0); [exact E2|]. intros n Hn.
    assert (A := Ht n (nth n k 0)). assert (B := Ht1 n (nth n k1 0)).
    rewrite A in B by (apply nth_error_nth'; exact Hn).
    assert (Hn1 : (n < length k1)%nat) by lia.
    specialize (B (nth_error_nth' k1 0 Hn1)). congruence.
Qed.

Lemma copy_ok : forall place m a p fuel start,
  m root <> None -> szP <= szR -> denotes szP root m a p -> Forall elem_ok p -> p <> [] -> (length p < fuel)%nat ->
  copy_size szR szP p < 2 ^ 64 ->
  place (copy_size szR szP p) = Some start -> unused m start (copy_size szR szP p) ->
  exists m', path_copy szR szP root place fuel m a = POk (m', start) /\
    (forall x, ~ in_block start (copy_size szR szP p) x -> m' x = m x) /\
    (exists ka kl ix pa, object_at m' start szR ka kl ix pa) /\
    (forall m'', (forall x, in_block start (copy_size szR szP p - 8) x -> m'' x = m' x) ->
       denotes szP root m'' start p /\ names_closed root m'' start).
Proof.
  intros place m a p fuel start Hroot HR D OK Hp Hf Hb Hpl Hun.
  assert (Ha : a <> root). { intros ->. apply Hp. apply (denotes_det _ _ _ D). constructor. }
  assert (En := nodes_size_eq p szR Hp). unfold copy_size in *.
  set (names := names_size p) in *. assert (Hsp := names_pos p). fold names in Hsp.
  assert (Hnp := nodes_pos p szR ltac:(lia)).
  rewrite <- En in *.
  unfold path_copy. destruct (Z.eqb_spec a root); [contradiction|].
  rewrite (sizes_ok m a p a D fuel 0 0 Hf ltac:(lia) ltac:(lia) szR); try lia.
  2: { rewrite Z.eqb_refl. reflexivity. }
  2: { intros b q Dq Hq ->. rewrite (denotes_det _ _ _ D _ Dq) in Hq. lia. }
  fold names. cbn [pbind]. rewrite !Z.add_0_l. rewrite u64_id by lia. rewrite Hpl.
  set (sz := nodes_size szR p + names + 8) in *. assert (Esz : sz = nodes_size szR p + names + 8) by reflexivity. clearbody sz.
  destruct (recurse_ok m start (start + sz) Hroot ltac:(replace (start + sz - start) with sz by lia; exact Hun)
    p a D OK fuel (allocated m start sz) start szR (start + nodes_size szR p) Hf HR) as (m' & a' & E & EA & F & G & O_); try lia.
  - intros x Hx. unfold allocated. destruct ((start <=? x) && (x <? start + sz)) eqn:Ei; [|reflexivity].
    exfalso. apply Hx. apply Hun. unfold in_block. apply andb_true_iff in Ei. lia.
  - intros x Hx. unfold allocated. replace ((start <=? x) && (x <? start + sz)) with true; [discriminate|].
    symmetry. apply andb_true_iff. lia.
  - assert (a' = start) as -> by (destruct p; [contradiction|exact EA]).
    exists m'. split; [exact E|]. split; [|split; [exact (O_ Hp)|]].
    + intros x Hx. unfold in_block in Hx. fold names in F. rewrite F by lia. unfold allocated.
      replace ((start <=? x) && (x <? start + sz)) with false; [reflexivity|].
      symmetry. apply andb_false_iff. lia.
    + intros m'' H. fold names in G. apply G; intros x Hx; apply H; unfold in_block; lia.
Qed.

Lemma copy_root : forall place fuel m, path_copy szR szP root place fuel m root = POk (m, root).
Proof. intros. unfold path_copy. rewrite Z.eqb_refl. reflexivity. Qed.

Lemma copy_nomem : forall place m a p fuel,
  denotes szP root m a p -> p <> [] -> (length p < fuel)%nat -> 0 < szR -> copy_size szR szP p < 2 ^ 64 ->
  place (copy_size szR szP p) = None -> path_copy szR szP root place fuel m a = PNoMem.
Proof.
  intros place m a p fuel D Hp Hf HR Hb Hpl.
  assert (Ha : a <> root). { intros ->. apply Hp. apply (denotes_det _ _ _ D). constructor. }
  assert (En := nodes_size_eq p szR Hp). unfold copy_size in *.
  assert (Hsp := names_pos p). assert (Hnp := nodes_pos p szR HR). rewrite <- En in *.
  unfold path_copy. destruct (Z.eqb_spec a root); [contradiction|].
  rewrite (sizes_ok m a p a D fuel 0 0 Hf ltac:(lia) ltac:(lia) szR); try lia.
  2: { rewrite Z.eqb_refl. reflexivity. }
  2: { intros b q Dq Hq ->. rewrite (denotes_det _ _ _ D _ Dq) in Hq. lia. }
  cbn [pbind]. rewrite !Z.add_0_l. rewrite u64_id by lia. rewrite Hpl. reflexivity.
Qed.

(** A byte copy of an object which is not the root. *)
Lemma by_value : forall m a b ka kl ix pa p, a <> root -> b <> root -> denotes szP root m a p ->
  object_at m a szP ka kl ix pa -> object_at m b szP ka kl ix pa -> denotes szP root m b p.
Proof.
  intros m a b ka kl ix pa p Ha Hb D [Oa _] Ob.
  inversion D as [|a1 ka1 k1 ix1 pa1 p1 Ha1 [Ho1 Ho2] Ht1 D1 EA EP]; subst; [contradiction|].
  rewrite Oa in Ho1. injection Ho1 as -> -> -> ->. eapply den_step; eauto.
Qed.
End Copy.
