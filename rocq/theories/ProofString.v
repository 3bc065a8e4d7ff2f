(** Lemmas about strings. *)
From Verif Require Import Base ModelKeyed ModelValue ModelText ModelObject ModelEnc ModelJwt ModelString SpecEnc ProofEnc SpecString.
From Coq Require Import ZifyBool.
Ltac Zify.zify_post_hook ::= Z.div_mod_to_equations.
Local Open Scope Z_scope.

(** *** Searching *)
Lemma is_prefix_spec : forall p s, is_prefix p s = true <-> exists b, s = p ++ b.
Proof.
  induction p as [|x p IH]; intros s; cbn [is_prefix].
  - split; [intros _; exists s; reflexivity|reflexivity].
  - destruct s as [|y s].
    + split; [discriminate|intros (b & H); discriminate].
    + rewrite Bool.andb_true_iff, IH, Z.eqb_eq. split.
      * intros (-> & b & ->). exists b. reflexivity.
      * intros (b & H). cbn [app] in H. injection H as -> ->. split; [reflexivity|]. exists b. reflexivity.
Qed.
Lemma occurs_0 : forall w s, occurs w s 0 <-> is_prefix w s = true.
Proof.
  intros w s. rewrite is_prefix_spec. split.
  - intros (a & b & -> & H). destruct a; [|discriminate]. exists b. reflexivity.
  - intros (b & ->). exists [], b. auto.
Qed.
Lemma occurs_S : forall w x s i, occurs w (x :: s) (S i) <-> occurs w s i.
Proof.
  intros w x s i. split.
  - intros (a & b & H & E). destruct a as [|y a]; [discriminate|]. cbn [app] in H. injection H as -> ->. cbn [length] in E. exists a, b. split; [reflexivity|lia].
  - intros (a & b & -> & E). exists (x :: a), b. cbn [app length]. split; [reflexivity|lia].
Qed.
Lemma find_sub_spec : forall w s,
  match find_sub w s with
  | Some i => occurs w s i /\ forall j, (j < i)%nat -> ~ occurs w s j
  | None => forall j, ~ occurs w s j
  end.
Proof.
  intros w s. induction s as [|x s IH].
  - cbn [find_sub]. destruct (is_prefix w []) eqn:E.
    + split; [apply occurs_0; exact E|lia].
    + intros [|j]; [rewrite occurs_0; congruence|]. intros (a & b & H & L). destruct a; discriminate.
  - cbn [find_sub]. destruct (is_prefix w (x :: s)) eqn:E.
    + split; [apply occurs_0; exact E|lia].
    + assert (H0 : ~ occurs w (x :: s) 0) by (rewrite occurs_0; congruence).
      destruct (find_sub w s) as [i|]; cbn [option_map].
      * destruct IH as [IH1 IH2]. split; [apply occurs_S; exact IH1|]. intros [|j] Hj; [exact H0|]. rewrite occurs_S. apply IH2. lia.
      * intros [|j]; [exact H0|]. rewrite occurs_S. apply IH.
Qed.

Lemma occurs_prefix : forall w s r i, occurs w s i -> occurs w (s ++ r) i.
Proof. intros w s r i (a & b & -> & E). exists a, (b ++ r). rewrite <- !app_assoc. auto. Qed.

(** *** Splitting *)
Lemma skipn_add : forall {A} a b (l : list A), skipn a (skipn b l) = skipn (b + a) l.
Proof.
  intros A a b. induction b as [|b IH]; intros l; [reflexivity|]. destruct l as [|x l]; [rewrite !skipn_nil; reflexivity|]. cbn [Nat.add skipn]. apply IH.
Qed.

Definition split_items (impl : value) (cur : nat) (parts : list bytes) : list value :=
  match parts with
  | [p] => if (cur =? 0)%nat then [impl] else [VStr None p]
  | _ => map (VStr None) parts
  end.

Lemma split_loop_spec : forall e a sep, sep <> [] -> forall fuel cur max, (cur <= length a)%nat -> (length a - cur < fuel)%nat -> 0 <= max ->
  exists parts, split_loop fuel (VStr e a) sep cur max = Ok (split_items (VStr e a) cur parts) /\
    split_parts sep max (skipn cur a) parts.
Proof.
  intros e a sep Hs. induction fuel as [|f IH]; intros cur max Hc Hf Hm; [lia|]. cbn [split_loop get_string].
  unfold index_of. assert ((cur <=? length a)%nat = true) as -> by (apply Nat.leb_le; exact Hc).
  pose proof (find_sub_spec sep (skipn cur a)) as Hn.
  assert (Hlast : sub_string a cur (length a - cur) = VStr None (skipn cur a)).
  { unfold sub_string, substr. rewrite firstn_all2; [reflexivity|]. rewrite skipn_length. lia. }
  assert (Hend : forall P : Prop, P -> (max = 0 \/ forall j, ~ occurs sep (skipn cur a) j) ->
    exists parts, @Ok (list value) [if (cur =? 0)%nat then VStr e a else sub_string a cur (length a - cur)] = Ok (split_items (VStr e a) cur parts) /\
      split_parts sep max (skipn cur a) parts).
  { intros _ _ H. exists [skipn cur a]. split.
    - rewrite Hlast. cbn [split_items]. destruct (cur =? 0)%nat; reflexivity.
    - unfold split_parts. cbn [intercalate removelast last length]. split; [discriminate|]. split; [reflexivity|]. split; [constructor|].
      split; [lia|]. destruct H as [H|H]; [left; lia|right; exact H]. }
  destruct (find_sub sep (skipn cur a)) as [i|]; cbn [option_map]; [|apply (Hend True); auto].
  destruct (Z.eqb_spec max 0) as [Em|Em]; [apply (Hend True); auto|].
  destruct Hn as [(x & b & Hx & Hi) Hfirst].
  assert (Hlen : length (skipn cur a) = (length x + length sep + length b)%nat) by (rewrite Hx, !app_length; lia).
  rewrite skipn_length in Hlen. assert (Hsl : (length sep > 0)%nat) by (destruct sep; [congruence|cbn [length]; lia]).
  destruct (IH (cur + i + length sep)%nat (max - 1)) as (parts & -> & Hp); [lia|lia|lia|]. cbn [bind].
  assert (Hrest : skipn (cur + i + length sep) a = b).
  { rewrite <- Nat.add_assoc, <- skipn_add, Hx. rewrite app_assoc, skipn_app, skipn_all2 by (rewrite app_length; lia).
    rewrite app_length. replace (i + length sep - (length x + length sep))%nat with 0%nat by lia. reflexivity. }
  assert (Hfst : sub_string a cur (cur + i - cur) = VStr None x).
  { unfold sub_string, substr. rewrite Hx. replace (cur + i - cur)%nat with (length x) by lia.
    rewrite firstn_app, Nat.sub_diag, firstn_all, firstn_O, app_nil_r. reflexivity. }
  rewrite Hrest in Hp. rewrite Hfst. destruct Hp as (P0 & P1 & P2 & P3 & P4).
  exists (x :: parts). split.
  - f_equal. destruct parts as [|p [|q parts]]; [congruence| |reflexivity].
    cbn [split_items map]. destruct (Nat.eqb_spec (cur + i + length sep) 0) as [E0|_]; [lia|reflexivity].
  - destruct parts as [|p parts]; [congruence|]. unfold split_parts.
    assert (Hr : removelast (x :: p :: parts) = x :: removelast (p :: parts)) by reflexivity.
    assert (Hl : last (x :: p :: parts) [] = last (p :: parts) []) by reflexivity.
    assert (Hi2 : intercalate sep (x :: p :: parts) = x ++ sep ++ intercalate sep (p :: parts)) by reflexivity.
    rewrite Hr, Hl, Hi2, P1, Hx. split; [discriminate|]. split; [reflexivity|]. split; [|split].
    + constructor; [|exact P2]. intros j Hj Ho. apply (Hfirst j); [lia|]. rewrite Hx, app_assoc. apply occurs_prefix. exact Ho.
    + cbn [length] in *. lia.
    + destruct P4 as [P4|P4]; [left; cbn [length] in *; lia|right; exact P4].
Qed.

Lemma split_items_defined : forall e a cur parts, filter (fun v => negb (is_undef v)) (split_items (VStr e a) cur parts) = split_items (VStr e a) cur parts.
Proof.
  intros e a cur parts. assert (H : forall l, filter (fun v => negb (is_undef v)) (map (VStr None) l) = map (VStr None) l).
  { induction l as [|x l IH]; [reflexivity|]. cbn [map filter is_undef negb]. rewrite IH. reflexivity. }
  unfold split_items. destruct parts as [|p [|q parts]]; [reflexivity| |apply H]. destruct (cur =? 0)%nat; reflexivity.
Qed.

Lemma split_spec : forall e s sep max, sep <> [] -> 0 <= max -> exists parts,
  str_split (VStr e s) sep max =
    Ok (VArr (map (fun v => ([], v)) (match parts with [_] => [VStr e s] | _ => map (VStr None) parts end))) /\
  split_parts sep max s parts.
Proof.
  intros e s sep max Hs Hm. unfold str_split. cbn [get_string].
  destruct (split_loop_spec e s sep Hs (S (S (length s))) 0 max) as (parts & -> & Hp); [lia|lia|lia|]. cbn [bind].
  exists parts. rewrite split_items_defined. split; [|exact Hp]. unfold split_items. destruct parts as [|p [|q parts]]; reflexivity.
Qed.

Lemma intercalate_cons : forall sep x y l, intercalate sep (x :: y :: l) = x ++ sep ++ intercalate sep (y :: l).
Proof. reflexivity. Qed.

(** The conditions leave no choice. *)
Lemma app_eq_cases : forall {A} (a b c d : list A), a ++ b = c ++ d -> (length a < length c)%nat ->
  exists e, c = a ++ e /\ b = e ++ d.
Proof.
  intros A. induction a as [|x a IH]; intros b c d H L.
  - exists c. auto.
  - destruct c as [|y c]; [cbn [length] in L; lia|]. cbn [app] in H. injection H as -> H. cbn [length] in L.
    destruct (IH b c d H) as (e & -> & ->); [lia|]. exists e. auto.
Qed.
Lemma app_eq_len : forall {A} (a b c d : list A), a ++ b = c ++ d -> length a = length c -> a = c /\ b = d.
Proof.
  intros A. induction a as [|x a IH]; intros b [|y c] d H L; try discriminate; auto. cbn [app] in H. injection H as -> H.
  destruct (IH b c d H) as [-> ->]; [cbn [length] in L; lia|]. auto.
Qed.

Lemma occurs_in_part : forall sep p r q r', p ++ sep ++ r = q ++ sep ++ r' -> (length p < length q)%nat -> occurs sep (q ++ sep) (length p).
Proof.
  intros sep p r q r' H L. destruct (app_eq_cases p (sep ++ r) q (sep ++ r') H L) as (e & -> & E).
  assert (Hc : exists f, e ++ sep = sep ++ f).
  { assert (length (e ++ sep) >= length sep)%nat by (rewrite app_length; lia).
    exists (skipn (length sep) (e ++ sep)). assert (firstn (length sep) (e ++ sep) = sep) as Hf.
    { assert (firstn (length sep) (sep ++ r) = sep) as E1 by (rewrite firstn_app, Nat.sub_diag, firstn_all, firstn_O, app_nil_r; reflexivity).
      rewrite E in E1. rewrite app_assoc, firstn_app in E1. replace (length sep - length (e ++ sep))%nat with 0%nat in E1 by lia.
      rewrite firstn_O, app_nil_r in E1. exact E1. }
    rewrite <- Hf at 2. symmetry. apply firstn_skipn. }
  destruct Hc as (f & Hf). exists p, f. split; [|reflexivity]. rewrite <- app_assoc, Hf. reflexivity.
Qed.

Lemma split_parts_cons : forall sep max x y l s, split_parts sep max s (x :: y :: l) ->
  s = x ++ sep ++ intercalate sep (y :: l) /\ (forall i, (i < length x)%nat -> ~ occurs sep (x ++ sep) i) /\
  split_parts sep (max - 1) (intercalate sep (y :: l)) (y :: l).
Proof.
  intros sep max x y l s (H0 & H1 & H2 & H3 & H4).
  assert (Hr : removelast (x :: y :: l) = x :: removelast (y :: l)) by reflexivity.
  assert (Hl : last (x :: y :: l) [] = last (y :: l) []) by reflexivity.
  rewrite Hr in H2. rewrite Hl in H4. inversion_clear H2 as [|? ? A B]. split; [symmetry; exact H1|]. split; [exact A|].
  cbn [length] in *. split; [discriminate|]. split; [reflexivity|]. split; [exact B|]. cbn [length]. split; [lia|].
  destruct H4 as [H4|H4]; [left; lia|right; exact H4].
Qed.

Lemma split_unique : forall sep p q max s, split_parts sep max s p -> split_parts sep max s q -> p = q.
Proof.
  intros sep. induction p as [|x p IH]; intros q max s Hp Hq; [destruct (proj1 Hp eq_refl)|].
  destruct q as [|y q]; [destruct (proj1 Hq eq_refl)|].
  destruct p as [|x' p], q as [|y' q].
  - destruct Hp as (_ & E1 & _), Hq as (_ & E2 & _). cbn [intercalate] in E1, E2. congruence.
  - exfalso. destruct Hp as (_ & E1 & _ & _ & [E|E]).
    + destruct Hq as (_ & _ & _ & L & _). cbn [length] in *. lia.
    + apply split_parts_cons in Hq as (E2 & _). cbn [intercalate] in E1. cbn [last] in E. subst x.
      apply (E (length y)). exists y, (intercalate sep (y' :: q)). split; [congruence|reflexivity].
  - exfalso. destruct Hq as (_ & E1 & _ & _ & [E|E]).
    + destruct Hp as (_ & _ & _ & L & _). cbn [length] in *. lia.
    + apply split_parts_cons in Hp as (E2 & _). cbn [intercalate] in E1. cbn [last] in E. subst y.
      apply (E (length x)). exists x, (intercalate sep (x' :: p)). split; [congruence|reflexivity].
  - apply split_parts_cons in Hp as (E1 & A1 & P1), Hq as (E2 & A2 & P2).
    assert (EE : x ++ sep ++ intercalate sep (x' :: p) = y ++ sep ++ intercalate sep (y' :: q)) by congruence.
    destruct (Nat.lt_trichotomy (length x) (length y)) as [L|[L|L]].
    + destruct (A2 _ L). eapply occurs_in_part; eauto.
    + destruct (app_eq_len _ _ _ _ EE L) as [-> E3]. f_equal.
      destruct (app_eq_len _ _ _ _ E3 eq_refl) as [_ E4]. rewrite <- E4 in P2. eapply IH; eauto.
    + destruct (A1 _ L). eapply occurs_in_part; eauto.
Qed.

(** *** Joining *)
Lemma join_text_spec : forall sep l, join_text sep true l = intercalate sep l /\
  join_text sep false l = match l with [] => [] | _ => sep ++ intercalate sep l end.
Proof.
  intros sep. assert (H : forall l, join_text sep false l = match l with [] => [] | _ => sep ++ intercalate sep l end).
  { induction l as [|x l IH]; [reflexivity|]. cbn [join_text]. rewrite IH. destruct l; [rewrite app_nil_r; reflexivity|].
    rewrite intercalate_cons. reflexivity. }
  intros l. split; [|apply H]. destruct l as [|x l]; [reflexivity|]. cbn [join_text app]. rewrite H. destruct l; [cbn [intercalate]; apply app_nil_r|]. reflexivity.
Qed.
Lemma intercalate_length : forall sep l, l <> [] ->
  Z.of_nat (length (intercalate sep l)) = Z.of_nat (length (concat l)) + (Z.of_nat (length l) - 1) * Z.of_nat (length sep).
Proof.
  intros sep l H. induction l as [|x l IH]; [congruence|]. destruct l as [|y l].
  - cbn [intercalate concat length]. rewrite app_nil_r. lia.
  - rewrite intercalate_cons, !app_length. cbn [concat]. rewrite app_length. assert (IH' : y :: l <> []) by discriminate.
    specialize (IH IH'). cbn [concat] in IH. rewrite app_length in *. cbn [length] in *. lia.
Qed.
Lemma all_some_map : forall {A B} (f : A -> option B) l r, Forall2 (fun x y => f x = Some y) l r -> all_some (map f l) = Some r.
Proof. intros A B f l r H. induction H as [|x y l r E _ IH]; [reflexivity|]. cbn [map all_some]. rewrite E, IH. reflexivity. Qed.

Lemma join_spec : forall E utf8 v sep texts, Forall2 (fun m t => to_string E utf8 (snd m) = Some t) (members_of v) texts ->
  texts <> [] \/ sep = [] -> Z.of_nat (length (intercalate sep texts)) < 2 ^ 64 ->
  value_join E utf8 v sep = Ok (intercalate sep texts).
Proof.
  intros E utf8 v sep texts H Hne Hb. unfold value_join. rewrite (all_some_map _ _ _ H).
  rewrite (proj1 (join_text_spec sep texts)). destruct Hne as [Hne| ->].
  - rewrite <- intercalate_length by exact Hne. unfold u64. rewrite Z.mod_small by lia. rewrite Z.eqb_refl. reflexivity.
  - destruct texts as [|t texts]; [reflexivity|].
    assert (Hne : t :: texts <> []) by discriminate. rewrite <- (intercalate_length [] (t :: texts)) by exact Hne.
    unfold u64. rewrite Z.mod_small by lia. rewrite Z.eqb_refl. reflexivity.
Qed.

Lemma to_string_form : forall E utf8 v, (forall e s, v = VStr (Some e) s -> is_bytes s) ->
  exists t, to_string E utf8 v = Some t /\ string_form E utf8 v t.
Proof.
  intros E utf8 v Hb. destruct v as [| |b|n|[e|] s|l|d l]; cbn [to_string string_form]; eauto.
  - destruct n; eauto.
  - specialize (Hb e s eq_refl).
    replace (get_binary e (VStr (Some e) s)) with (Some s) by (destruct s; reflexivity). cbn [option_map].
    destruct e.
    + destruct (base64_value s Hb) as (t & -> & -> & _). eexists. split; reflexivity.
    + destruct (base64url_value s Hb) as (t & -> & -> & _). eexists. split; reflexivity.
    + destruct (url_value s Hb) as (t & -> & P & _). exists t. split; [reflexivity|exact P].
    + destruct (utf8_value s Hb) as (t & -> & _ & -> & _). eexists. split; reflexivity.
Qed.

Lemma join_empty : forall E utf8 v sep, members_of v = [] -> sep <> [] -> Z.of_nat (length sep) < 2 ^ 64 ->
  value_join E utf8 v sep = Err.
Proof.
  intros E utf8 v sep H Hs Hl. unfold value_join. rewrite H. cbn [map all_some concat length join_text].
  assert (length sep <> 0)%nat by (destruct sep; [congruence|discriminate]).
  destruct (Z.eqb_spec (u64 (Z.of_nat 0 + (Z.of_nat 0 - 1) * Z.of_nat (length sep))) (Z.of_nat 0)) as [E0|_]; [|reflexivity].
  exfalso. unfold u64 in E0. lia.
Qed.

Lemma rejoin : forall E utf8 s sep max v, sep <> [] -> 0 <= max -> Z.of_nat (length s) < 2 ^ 64 ->
  str_split (VStr None s) sep max = Ok v -> value_join E utf8 v sep = Ok s.
Proof.
  intros E utf8 s sep max v Hs Hm Hl H. destruct (split_spec None s sep max Hs Hm) as (parts & E1 & (P0 & P1 & _)).
  rewrite E1 in H. injection H as <-. rewrite <- P1. apply join_spec; [|left; exact P0|rewrite P1; exact Hl].
  cbn [members_of].
  assert (HF : forall l, Forall2 (fun m t => to_string E utf8 (snd m) = Some t) (map (fun v : value => (@nil Z, v)) (map (VStr None) l)) l).
  { induction l as [|x l IH]; cbn [map]; constructor; auto. }
  destruct parts as [|p [|q parts]]; [congruence| |apply HF]. cbn [intercalate] in P1. subst p. apply (HF [s]).
Qed.

(** *** Editing *)
Lemma insert_spec : forall s pos what, 0 <= pos ->
  get_string (str_insert s pos what) = firstn (Z.to_nat pos) (get_string s) ++ what ++ skipn (Z.to_nat pos) (get_string s).
Proof.
  intros s pos what Hp. unfold str_insert. destruct what as [|c what]; [cbn [app]; rewrite firstn_skipn; reflexivity|].
  cbn [get_string]. destruct (Z.ltb_spec (Z.of_nat (length (get_string s))) pos) as [H|H]; [|reflexivity].
  rewrite (firstn_all2 (n := Z.to_nat pos)) by lia. rewrite (skipn_all2 (n := Z.to_nat pos)) by lia.
  rewrite firstn_all, skipn_all. reflexivity.
Qed.

Lemma replace_all_spec : forall s pos size what, let a := get_string s in let p := Z.min pos (Z.of_nat (length a)) in
  0 <= pos -> 0 <= size < 2 ^ 64 -> Z.of_nat (length a) < 2 ^ 64 ->
  str_replace s pos size what = Some (VStr None (firstn (Z.to_nat p) a ++ what ++ skipn (Z.to_nat ((p + size) mod 2 ^ 64)) a)).
Proof.
  intros s pos size what a p Hp Hs Ha. unfold str_replace. fold a. set (n := Z.of_nat (length a)) in *. cbv zeta.
  assert (Hn : 0 <= n) by lia.
  replace (if n <? pos then n else pos) with p by (unfold p; destruct (Z.ltb_spec n pos); lia).
  assert (Hpn : 0 <= p <= n) by (unfold p; lia). clearbody p. change (u64 (p + size)) with ((p + size) mod 2 ^ 64).
  destruct (Z.ltb_spec n ((p + size) mod 2 ^ 64)) as [G|G].
  - replace (p + (n - p)) with n by lia. replace (n - p - (n - p)) with 0 by lia.
    replace (u64 n) with n by (unfold u64; symmetry; apply Z.mod_small; lia). change (u64 0) with 0.
    rewrite Z.add_0_r, Z.leb_refl. change (Z.to_nat 0) with O. cbn [firstn]. rewrite (skipn_all2 (n := Z.to_nat ((p + size) mod 2 ^ 64))) by lia. reflexivity.
  - assert (El : u64 (n - p - size) = n - (p + size) mod 2 ^ 64).
    { unfold u64. replace (n - p - size) with (n - (p + size)) by lia. rewrite Zminus_mod. rewrite (Z.mod_small n) by lia. apply Z.mod_small.
      pose proof (Z.mod_pos_bound (p + size) (2 ^ 64)). lia. }
    rewrite El. change (u64 (p + size)) with ((p + size) mod 2 ^ 64).
    pose proof (Z.mod_pos_bound (p + size) (2 ^ 64) ltac:(lia)).
    destruct (Z.leb_spec ((p + size) mod 2 ^ 64 + (n - (p + size) mod 2 ^ 64)) n); [|lia].
    do 4 f_equal. apply firstn_all2. rewrite skipn_length. lia.
Qed.

Lemma replace_spec : forall s pos size what, 0 <= pos -> 0 <= size -> Z.min pos (Z.of_nat (length (get_string s))) + size < 2 ^ 64 ->
  Z.of_nat (length (get_string s)) < 2 ^ 64 ->
  str_replace s pos size what =
    Some (VStr None (firstn (Z.to_nat pos) (get_string s) ++ what ++ skipn (Z.to_nat (pos + size)) (get_string s))).
Proof.
  intros s pos size what Hp Hs Hb Ha. rewrite replace_all_spec by lia. rewrite Z.mod_small by lia. do 2 f_equal.
  set (a := get_string s) in *. destruct (Z.leb_spec pos (Z.of_nat (length a))).
  - rewrite Z.min_l by lia. reflexivity.
  - rewrite Z.min_r by lia. rewrite !firstn_all2 by lia. rewrite !skipn_all2 by lia. reflexivity.
Qed.

Lemma split_at_pos_spec : forall s pos, 0 < pos ->
  let a := get_string s in
  get_string (fst (split_at_pos s pos)) = firstn (Z.to_nat pos) a /\
  get_string (snd (split_at_pos s pos)) = skipn (Z.to_nat pos) a.
Proof.
  intros s pos Hp. cbv zeta. unfold split_at_pos. set (a := get_string s) in *.
  destruct (Z.ltb_spec (pos mod 2 ^ 32) (Z.of_nat (length a))) as [H|H]; cbn [fst snd].
  - unfold sub_string, substr. cbn [get_string skipn]. split; [reflexivity|]. apply firstn_all2. rewrite skipn_length. lia.
  - assert (Z.of_nat (length a) <= pos) by (assert (pos mod 2 ^ 32 <= pos) by (apply Z.mod_le; lia); lia).
    rewrite firstn_all2, skipn_all2 by lia. split; reflexivity.
Qed.

Lemma split_at_spec : forall s pos, 0 < pos \/ Z.of_nat (length (get_string s)) < 2 ^ 31 ->
  let a := get_string s in
  let left := if pos =? 0 then length a else if 0 <? pos then Z.to_nat pos else (length a - Z.to_nat (- pos))%nat in
  get_string (fst (str_split_at s pos)) = firstn left a /\ get_string (snd (str_split_at s pos)) = skipn left a.
Proof.
  intros s pos Hb a. unfold str_split_at. fold a. fold a in Hb. destruct (Z.ltb_spec 0 pos) as [H|H].
  - assert (pos =? 0 = false) as -> by lia. apply split_at_pos_spec. exact H.
  - destruct (Z.ltb_spec pos 0) as [G|G].
    + assert (pos =? 0 = false) as -> by lia. assert (Hs : s32 (Z.of_nat (length a)) = Z.of_nat (length a)).
      { unfold s32. cbv zeta. rewrite Z.mod_small by lia. assert (Z.of_nat (length a) <? 2 ^ 31 = true) as -> by lia. reflexivity. }
      rewrite Hs. destruct (Z.ltb_spec 0 (Z.of_nat (length a) + pos)) as [K|K].
      * replace (length a - Z.to_nat (- pos))%nat with (Z.to_nat (Z.of_nat (length a) + pos)) by lia. apply split_at_pos_spec. exact K.
      * replace (length a - Z.to_nat (- pos))%nat with 0%nat by lia. cbn [fst snd get_string firstn skipn]. auto.
    + assert (pos =? 0 = true) as -> by lia. cbn [fst snd]. rewrite firstn_all, skipn_all. auto.
Qed.

Lemma left_right_spec : forall s n, str_left s n = firstn n s /\ str_right s n = skipn (length s - n) s.
Proof.
  intros s n. split; [reflexivity|]. unfold str_right, substr. destruct (Nat.ltb_spec (length s) n) as [H|H].
  - rewrite firstn_all2 by (rewrite skipn_length; lia). f_equal. lia.
  - apply firstn_all2. rewrite skipn_length. lia.
Qed.
