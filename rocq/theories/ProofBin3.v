(** The binary form: termination of the parser, whole documents, sessions. *)
From Coq Require Import ZifyBool.
From Verif Require Import Base ModelUtf8 ModelKeyed ModelValue ModelObject ModelEq ModelEnc ModelBin SpecEnc SpecBin
  ProofUtf8 ProofValue ProofEnc ProofFloat ProofBin ProofBin2.
Local Open Scope Z_scope.

(** *** Termination *)
Definition left (p : pstate) : nat := length (ps_in p).

Lemma read1_left : forall p, (left (snd (read1 p)) <= left p)%nat /\ (ps_in p <> [] -> left (snd (read1 p)) < left p)%nat.
Proof. intros [s h i]. unfold left. destruct s; cbn; [split; [lia|congruence]|lia]. Qed.
Lemma read_n_left : forall n p, (left (snd (read_n n p)) <= left p)%nat.
Proof.
  induction n as [|n IH]; intros p; cbn [read_n]; [cbn; lia|]. pose proof (read1_left p) as [H _].
  destruct (read1 p) as [c p1]. specialize (IH p1). destruct (read_n n p1) as [s p2]. cbn [snd] in *. lia.
Qed.
Lemma read_le_left : forall n p, (left (snd (read_le n p)) <= left p)%nat.
Proof. intros n p. unfold read_le. pose proof (read_n_left n p). destruct (read_n n p). exact H. Qed.
Lemma parse_integer_left : forall tag p, (left (snd (parse_integer tag p)) <= left p)%nat.
Proof.
  intros tag p. unfold parse_integer. cbv zeta.
  repeat match goal with |- context [if ?b then _ else _] => destruct b end; try apply read_le_left. cbn. lia.
Qed.
Lemma parse_string_left : forall J e tag p, (left (snd (parse_string_bin J e tag p)) <= left p)%nat.
Proof.
  intros J e tag p. unfold parse_string_bin. pose proof (parse_integer_left tag p) as H. destruct (parse_integer tag p) as [n p1].
  cbn [snd] in H. destruct (Z.to_nat n) as [|k]; [cbn; lia|].
  destruct e.
  - pose proof (read_n_left (S k) p1). destruct (read_n (S k) p1). cbn [snd] in *. lia.
  - pose proof (read1_left p1) as [H1 _]. destruct (read1 p1) as [x p2]. cbn [snd] in H1.
    destruct (Z.land x 0xC0 =? 0x80).
    + cbv zeta. pose proof (read_n_left ((k * 3 + 3) / 4) p2). destruct (read_n ((k * 3 + 3) / 4) p2). cbn [snd] in *. lia.
    + pose proof (read_n_left k p2). destruct (read_n k p2). cbn [snd] in *. lia.
Qed.
Lemma store_key_left : forall p k, left (store_key p k) = left p.
Proof. reflexivity. Qed.

Section Termination.
Variables (J : nat -> bytes) (pe : option enc).
Notation item := (parse_item J pe).
Notation items := (parse_items J pe).

Definition T_item (f : nat) : Prop := forall p, item f p <> Fuel ->
  ps_in p <> [] /\
  (forall m p', item f p = Ok (m, p') -> (left p' < left p)%nat) /\
  (forall f', (2 * left p + 1 <= f')%nat -> item f' p = item f p).
Definition T_items (f : nat) : Prop := forall n p, items f n p <> Fuel ->
  (forall l p', items f n p = Ok (l, p') -> (left p' <= left p)%nat) /\
  (forall f', (2 * left p + 2 <= f')%nat -> items f' n p = items f n p).

Lemma items_step : forall f n p, items (S f) n p = if n <=? 0 then Ok ([], p) else
  do (m, p1) <- item f p; do (l, p2) <- items f (n - 1) p1; Ok (m :: l, p2).
Proof. reflexivity. Qed.

Lemma past_end : forall f h i, item f (mkPS [] h i) = Fuel.
Proof.
  induction f as [|f IH]; intros h i; [reflexivity|]. cbn [parse_item]. unfold read1. cbn [ps_in].
  change (Z.land 255 0xF0) with 240. cbv zeta.
  change (240 =? 0) with false. change (240 =? op_array) with false. change (240 =? op_object) with false.
  change (240 =? op_string) with false. change (240 =? op_binstring) with false. change (240 =? op_posint) with false.
  change (240 =? op_negint) with false. change (240 =? op_key) with false. cbv iota. rewrite IH. reflexivity.
Qed.

(** What an item consists of after its first byte. *)
Inductive step :=
| SLeaf (v : value) (p : pstate) | SErr
| SItems (mk : list member -> value) (n : Z) (p : pstate) | SItem (k : bytes) (p : pstate).
Definition classify (tag : Z) (p1 : pstate) : step :=
  let g := Z.land tag 0xF0 in
  let leaf (r : value * pstate) := SLeaf (fst r) (snd r) in
  if g =? 0 then
    if tag =? op_null then leaf (VNull, p1)
    else if tag =? op_false then leaf (VBool false, p1)
    else if tag =? op_true then leaf (VBool true, p1)
    else if tag =? op_undefined then leaf (VUndef, p1)
    else if tag =? op_double then
      let '(b, p2) := read_le 8 p1 in leaf (value_of_double (bits_dbl b), p2)
    else if tag =? op_float then
      let '(b, p2) := read_le 4 p1 in leaf (value_of_double (bits_flt b), p2)
    else if tag =? op_diff then
      let '(op, p2) := read1 p1 in
      if Z.land op 0xF0 =? op_object then
        let '(n, p3) := parse_integer op p2 in SItems (VObj true) n p3
      else SErr
    else SErr
  else if g =? op_array then let '(n, p2) := parse_integer tag p1 in SItems VArr n p2
  else if g =? op_object then let '(n, p2) := parse_integer tag p1 in SItems (VObj false) n p2
  else if g =? op_string then leaf (parse_string_bin J None tag p1)
  else if g =? op_binstring then leaf (parse_string_bin J pe tag p1)
  else if g =? op_posint then let '(n, p2) := parse_integer tag p1 in leaf (VNum (NUInt n), p2)
  else if g =? op_negint then let '(n, p2) := parse_integer tag p1 in leaf (value_of_int (- s64 n), p2)
  else if g =? op_key then
    let '(s, p2) := parse_string_bin J None tag p1 in SItem (str_content s) (store_key p2 (str_content s))
  else SItem (history_key p1 tag) p1.

Lemma item_step : forall f tag s h i, item (S f) (mkPS (tag :: s) h i) =
  match classify tag (mkPS s h i) with
  | SLeaf v p => Ok (([], v), p)
  | SErr => Err
  | SItems mk n p => do (l, p3) <- items f n p; Ok (([], mk l), p3)
  | SItem k p => do (m, p3) <- item f p; Ok ((k, snd m), p3)
  end.
Proof.
  intros f tag s h i. cbn [parse_item]. unfold classify. rewrite read1_cons. cbv zeta.
  repeat match goal with
  | |- context [if ?b then _ else _] => destruct b
  | |- context [parse_integer ?t ?q] => destruct (parse_integer t q)
  | |- context [read_le ?t ?q] => destruct (read_le t q)
  | |- context [read1 ?q] => destruct (read1 q)
  | |- context [parse_string_bin ?a ?b ?c ?d] => destruct (parse_string_bin a b c d)
  end; reflexivity.
Qed.

Lemma classify_left : forall tag p1,
  match classify tag p1 with
  | SLeaf _ p | SItems _ _ p | SItem _ p => (left p <= left p1)%nat
  | SErr => True
  end.
Proof.
  intros tag p1. unfold classify. cbv zeta.
  repeat match goal with
  | |- context [if ?b then _ else _] => destruct b
  | |- context [parse_integer ?t ?q] => pose proof (parse_integer_left t q); destruct (parse_integer t q)
  | |- context [read_le ?t ?q] => pose proof (read_le_left t q); destruct (read_le t q)
  | |- context [read1 ?q] => pose proof (proj1 (read1_left q)); destruct (read1 q)
  | |- context [parse_string_bin ?a ?b ?c ?d] => pose proof (parse_string_left a b c d); destruct (parse_string_bin a b c d)
  end; cbn [fst snd] in *; rewrite ?store_key_left; lia || exact I.
Qed.

Lemma terminates : forall f, T_item f /\ T_items f.
Proof.
  induction f as [|f [IH1 IH2]]; [split; intros ?; intros; exfalso; cbn in *; congruence|].
  split.
  - intros p H. destruct p as [s h i]. destruct s as [|tag s]; [rewrite past_end in H; congruence|].
    split; [discriminate|]. set (p1 := mkPS s h i).
    assert (L1 : left (mkPS (tag :: s) h i) = S (left p1)) by reflexivity.
    rewrite item_step in H |- *. fold p1 in H |- *. pose proof (classify_left tag p1) as HL.
    assert (HS : forall f', (2 * left (mkPS (tag :: s) h i) + 1 <= f')%nat -> exists g, f' = S g /\ (2 * left p1 + 2 <= g)%nat).
    { intros [|g] Hg; [lia|exists g; lia]. }
    split.
    + intros m p' E. rewrite L1. destruct (classify tag p1) as [v p| |mk n p|k p].
      * inversion E; subst. lia.
      * discriminate.
      * destruct (IH2 n p) as [B1 _]; [intros E'; rewrite E' in H; apply H; reflexivity|].
        destruct (items f n p) as [[l p3]| |]; try discriminate. specialize (B1 _ _ eq_refl). inversion E; subst. lia.
      * destruct (IH1 p) as (_ & A1 & _); [intros E'; rewrite E' in H; apply H; reflexivity|].
        destruct (item f p) as [[m1 p3]| |]; try discriminate. specialize (A1 _ _ eq_refl). inversion E; subst. lia.
    + intros f' Hf'. destruct (HS f' Hf') as (g & -> & Hg). rewrite item_step. fold p1.
      destruct (classify tag p1) as [v p| |mk n p|k p]; try reflexivity.
      * destruct (IH2 n p) as [_ B2]; [intros E'; rewrite E' in H; apply H; reflexivity|]. rewrite B2 by lia. reflexivity.
      * destruct (IH1 p) as (_ & _ & A2); [intros E'; rewrite E' in H; apply H; reflexivity|]. rewrite A2 by lia. reflexivity.
  - intros n p H. rewrite items_step in H |- *. destruct (n <=? 0) eqn:En.
    { split; [intros l p' E; inversion E; subst; lia|]. intros [|f'] Hf'; [lia|]. rewrite items_step, En. reflexivity. }
    destruct (IH1 p) as (A0 & A1 & A2); [intros E; rewrite E in H; apply H; reflexivity|].
    split.
    + intros l p' E. destruct (item f p) as [[m p1]| |]; try discriminate. cbn [bind] in *. specialize (A1 _ _ eq_refl).
      destruct (IH2 (n - 1) p1) as [B1 _]; [intros E'; rewrite E' in H; apply H; reflexivity|].
      destruct (items f (n - 1) p1) as [[l1 p2]| |]; try discriminate. specialize (B1 _ _ eq_refl). inversion E; subst. lia.
    + intros [|f'] Hf'; [lia|]. rewrite items_step, En, A2 by lia.
      destruct (item f p) as [[m p1]| |]; try reflexivity. cbn [bind] in *. specialize (A1 _ _ eq_refl).
      destruct (IH2 (n - 1) p1) as [_ B2]; [intros E'; rewrite E' in H; apply H; reflexivity|]. rewrite B2 by lia. reflexivity.
Qed.

Lemma fuel_enough : forall f p, item f p <> Fuel -> forall f', (2 * left p + 1 <= f')%nat -> item f' p = item f p.
Proof. intros f p H. destruct (terminates f) as [T _]. destruct (T p H) as (_ & _ & E). exact E. Qed.

Lemma fuel_bound : forall p f, item (bin_fuel (ps_in p)) p = Fuel -> item f p = Fuel.
Proof.
  intros p f H. destruct (item f p) as [r| |] eqn:E; auto; exfalso.
  - rewrite (fuel_enough f p) in H; [congruence|congruence|unfold bin_fuel, left; lia].
  - rewrite (fuel_enough f p) in H; [congruence|congruence|unfold bin_fuel, left; lia].
Qed.
End Termination.

(** *** Whole documents *)
Lemma reads_fuel : forall J pe b rest h i m h' i', reads J pe b rest h i m h' i' ->
  parse_item J (Some pe) (bin_fuel (b ++ rest)) (mkPS (b ++ rest) h i) = Ok (m, mkPS rest h' i').
Proof.
  intros J pe b rest h i m h' i' [f0 H]. rewrite (fuel_enough J (Some pe) f0).
  - apply H. lia.
  - rewrite H by lia. discriminate.
  - unfold bin_fuel, left. cbn [ps_in]. lia.
Qed.

Lemma document_ok : forall J L F pe k v rest, (forall n, is_bytes (J n)) -> bin_text F k -> bin_ok L F v ->
  members_in v < 2 ^ 32 - 257 ->
  exists p', parse_item J (Some pe) (bin_fuel (serialize_binary L F (k, v) ++ rest)) (ps_init (serialize_binary L F (k, v) ++ rest))
    = Ok ((k, decoded L F pe v), p') /\ ps_in p' = rest.
Proof.
  intros J L F pe k v rest HJ Hk Hv Hm. unfold serialize_binary. cbn [fst snd].
  pose proof (item_ok J L F pe HJ v k ws_init [] 0 rest Hk Hv (fun _ => history_init []) ltac:(intros _; cbn [ws_next ws_init]; lia)) as I.
  destruct (write_item L F k v ws_init) as [b st']. destruct I as (_ & h' & i' & _ & R). cbn [fst].
  exists (mkPS rest h' i'). split; [|reflexivity]. apply reads_fuel. exact R.
Qed.

(** A container cut between two items. *)
Lemma items_cut : forall J pe n b h i f, (forall g, parse_items J (Some pe) g (Z.of_nat n) (mkPS b h i) = Fuel) ->
  forall tag p, parse_integer tag p = (Z.of_nat n, mkPS b h i) ->
  (let '(n, p2) := parse_integer tag p in do (l, p3) <- parse_items J (Some pe) f n p2; Ok (([] : bytes, VArr l), p3)) = Fuel.
Proof. intros J pe n b h i f H tag p ->. rewrite H. reflexivity. Qed.

Lemma items_short : forall J pe b h i l h' i' n, reads_items J pe (length l) b [] h i l h' i' -> (length l < n)%nat ->
  forall g, parse_items J (Some pe) g (Z.of_nat n) (mkPS (b ++ []) h i) = Fuel.
Proof.
  intros J pe b h i l h' i' n [f0 R] Hn.
  assert (M : forall f p k l' p', parse_items J (Some pe) f (Z.of_nat k) p = Ok (l', p') -> ps_in p' = [] -> forall j, (0 < j)%nat ->
    forall g, parse_items J (Some pe) g (Z.of_nat (k + j)) p = Fuel).
  { clear. induction f as [|f IH]; intros p k l' p' E He j Hj g; [discriminate|]. rewrite items_step in E.
    destruct g as [|g]; [reflexivity|]. rewrite items_step. replace (Z.of_nat (k + j) <=? 0) with false by lia.
    destruct (Z.of_nat k <=? 0) eqn:Ek.
    - inversion E; subst. destruct p' as [s h i]. cbn in He. subst s. rewrite past_end. reflexivity.
    - destruct (parse_item J (Some pe) f p) as [[m p1]| |] eqn:Ei; try discriminate. cbn [bind] in E.
      destruct (parse_items J (Some pe) f (Z.of_nat k - 1) p1) as [[l1 p2]| |] eqn:El; try discriminate. inversion E; subst.
      destruct (parse_item J (Some pe) g p) as [[m2 p2]| |] eqn:Eg; [|exfalso|reflexivity].
      + assert (parse_item J (Some pe) (2 * left p + 1) p = Ok (m, p1)) as E1 by (rewrite (fuel_enough _ _ f); [exact Ei|congruence|lia]).
        rewrite (fuel_enough _ _ g) in E1; [|congruence|lia]. assert (p2 = p1) as -> by congruence. cbn [bind].
        replace (Z.of_nat (k + j) - 1) with (Z.of_nat (k - 1 + j)) by lia.
        rewrite (IH p1 (k - 1)%nat l1 p'); auto. replace (Z.of_nat (k - 1)) with (Z.of_nat k - 1) by lia. exact El.
      + assert (parse_item J (Some pe) (2 * left p + 1) p = Ok (m, p1)) as E1 by (rewrite (fuel_enough _ _ f); [exact Ei|congruence|lia]).
        rewrite (fuel_enough _ _ g) in E1; [congruence|congruence|lia]. }
  intros g. replace n with (length l + (n - length l))%nat by lia. eapply M; [apply (R f0); lia|reflexivity|lia].
Qed.

Lemma write_items_app : forall L F l1 l2 st, write_items L F (l1 ++ l2) st =
  let '(b1, st1) := write_items L F l1 st in let '(b2, st2) := write_items L F l2 st1 in (b1 ++ b2, st2).
Proof.
  intros L F. induction l1 as [|x l1 IH]; intros l2 st; cbn [write_items app]; fold (write_items L F).
  - destruct (write_items L F l2 st); reflexivity.
  - destruct (write_item L F (fst x) (snd x) st) as [b st1]. rewrite IH. destruct (write_items L F l1 st1) as [b1 st2].
    destruct (write_items L F l2 st2) as [b2 st3]. rewrite app_assoc. reflexivity.
Qed.
Lemma all_ok_app : forall L F l1 l2, all_ok L F (l1 ++ l2) -> all_ok L F l1.
Proof. intros L F. induction l1 as [|x l1 IH]; intros l2 H; cbn in *; [exact I|]. destruct H as (H1 & H2 & H3). eauto. Qed.

Lemma array_cut : forall J L F pe l1 l2, (forall n, is_bytes (J n)) -> bin_ok L F (VArr (l1 ++ l2)) -> l2 <> [] ->
  members_in (VArr (l1 ++ l2)) < 2 ^ 32 - 256 ->
  exists s1 s2, serialize_binary L F ([], VArr (l1 ++ l2)) = s1 ++ s2 /\
    s2 = fst (write_items L F l2 (snd (write_items L F l1 ws_init))) /\
    forall fuel, parse_item J (Some pe) fuel (ps_init s1) = Fuel.
Proof.
  intros J L F pe l1 l2 HJ [Hn Hv] Hl2 Hm. fold (all_ok L F) in Hv. apply all_ok_app in Hv as Hv1.
  unfold serialize_binary. cbn [fst snd]. rewrite write_item_eq. cbn [write_key write_value]. rewrite write_items_app.
  assert (Hm1 : members_of_list l1 <= members_in (VArr (l1 ++ l2))).
  { cbn [members_in]. unfold members_of_list. rewrite fold_right_app.
    assert (P : forall l, 0 <= fold_right (fun (x : member) a => 1 + members_in (snd x) + a) 0 l).
    { induction l as [|x l IH]; cbn [fold_right]; [lia|]. pose proof (members_nonneg (snd x)). lia. }
    specialize (P l2). clear -P. set (a := fold_right _ 0 l2) in *. clearbody a.
    induction l1 as [|x l IH]; cbn [fold_right]; lia. }
  pose proof (items_ok J L F pe HJ l1 ws_init [] 0 [] ltac:(apply Forall_forall; intros; apply value_ok; auto) Hv1 (fun _ => history_init [])
    ltac:(intros _; cbn [ws_next ws_init]; lia)) as I.
  destruct (write_items L F l1 ws_init) as [b1 st1]. destruct I as (_ & h' & i' & _ & R). cbn [snd].
  destruct (write_items L F l2 st1) as [b2 st2]. cbn [fst].
  destruct (integer_ok F (Z.of_nat (length (l1 ++ l2))) op_array) as (tag & tl & Ew & Hg & Hp);
    [unfold tag_types; cbn [In]; tauto|lia|].
  exists (tag :: tl ++ b1), b2. split; [rewrite Ew; cbn [app]; rewrite <- app_assoc; reflexivity|]. split; [reflexivity|].
  intros [|f]; [reflexivity|]. unfold ps_init. rewrite item_array, Hp by exact Hg.
  rewrite <- (app_nil_r b1). erewrite items_short; [reflexivity| |].
  - replace (length l1) with (length (map (fun x => (fst x, decoded L F pe (snd x))) l1)) in R by apply map_length. exact R.
  - rewrite map_length, app_length. destruct l2; [congruence|cbn; lia].
Qed.

(** *** Sessions *)
Lemma key_id_try : forall st k k', key_id (ws_map (snd (try_compress_key st k))) k' <> 0 ->
  key_id (ws_map st) k' <> 0 \/ k' = k.
Proof.
  intros st k k'. unfold try_compress_key. cbv zeta. destruct (u32 _ <? 128); cbn [snd ws_map]; [auto|].
  rewrite key_id_cons. destruct (beqb k k') eqn:E; [apply beqb_eq in E; auto|auto].
Qed.
Lemma key_id_key : forall F k st k', key_id (ws_map (snd (write_key F k st))) k' <> 0 -> key_id (ws_map st) k' <> 0 \/ k' = k.
Proof.
  intros F k st k' H. unfold write_key in H. destruct k as [|c k]; [auto|]. destruct (bf_keys F); [|auto].
  pose proof (key_id_try st (c :: k) k') as T. destruct (try_compress_key st (c :: k)) as [[x|] st']; apply T; exact H.
Qed.
Lemma key_id_item : forall L F v k st k', key_id (ws_map (snd (write_item L F k v st))) k' <> 0 ->
  key_id (ws_map st) k' <> 0 \/ In k' (k :: keys_in v).
Proof.
  intros L F. assert (HI : forall l, Forall (fun m : member => forall k st k', key_id (ws_map (snd (write_item L F k (snd m) st))) k' <> 0 ->
      key_id (ws_map st) k' <> 0 \/ In k' (k :: keys_in (snd m))) l ->
    forall st k', key_id (ws_map (snd (write_items L F l st))) k' <> 0 ->
      key_id (ws_map st) k' <> 0 \/ In k' (flat_map (fun x => fst x :: keys_in (snd x)) l)).
  { induction 1 as [|x l Hx Hl IH]; intros st k' H; cbn [write_items flat_map] in *; fold (write_items L F) in *; [auto|].
    specialize (Hx (fst x) st k'). destruct (write_item L F (fst x) (snd x) st) as [b st1]. cbn [snd] in Hx.
    specialize (IH st1 k'). destruct (write_items L F l st1) as [b' st2]. cbn [snd] in *.
    destruct (IH H) as [H1|H1]; [destruct (Hx H1) as [H2|H2]; [auto|]|]; right; apply in_or_app; auto. }
  assert (HV : forall v, (forall st k', key_id (ws_map (snd (write_value L F v st))) k' <> 0 -> key_id (ws_map st) k' <> 0 \/ In k' (keys_in v)) ->
    forall k st k', key_id (ws_map (snd (write_item L F k v st))) k' <> 0 -> key_id (ws_map st) k' <> 0 \/ In k' (k :: keys_in v)).
  { intros v H k st k' E. rewrite write_item_eq in E. pose proof (key_id_key F k st k') as K. destruct (write_key F k st) as [kb st1].
    specialize (H st1 k'). destruct (write_value L F v st1) as [vb st2]. cbn [snd] in *.
    destruct (H E) as [H1|H1]; [destruct (K H1) as [H2|H2]|]; cbn [In]; auto. }
  induction v as [| |b|n|e s|l IH|d l IH] using value_ind'; apply HV; intros st k' E; cbn [write_value keys_in] in *; auto.
  - destruct e; auto.
  - specialize (HI l IH st k'). destruct (write_items L F l st) as [b st2]. cbn [snd] in *. auto.
  - specialize (HI l IH st k'). destruct (write_items L F l st) as [b st2]. cbn [snd] in *. auto.
Qed.

Definition op_ok (L : libm) (F : bflags) (m : member) : Prop := bin_text F (fst m) /\ bin_ok L F (snd m).

Lemma session_gen : forall J L F pe, (forall n, is_bytes (J n)) -> forall ops used st h i rest,
  Forall (op_ok L F) (sent ops) -> in_step F st h i -> (forall k, key_id (ws_map st) k <> 0 -> In k used) ->
  fresh_preloads used ops -> 256 <= ws_next st -> ws_next st + session_keys ops < 2 ^ 32 ->
  exists p', read_session J (Some pe) ops (mkPS (fst (write_session L F ops st) ++ rest) h i) =
    Ok (map (fun m => (fst m, decoded L F pe (snd m))) (sent ops), p') /\ ps_in p' = rest.
Proof.
  intros J L F pe HJ. assert (NN : forall ops, 0 <= session_keys ops).
  { induction ops as [|[m|k|] ops IH]; cbn [session_keys]; try lia. pose proof (members_nonneg (snd m)). lia. }
  induction ops as [|[m|k|] ops IH]; intros used st h i rest Hok Hs Hu Hf Hn0 Hn; cbn [write_session read_session sent fresh_preloads session_keys] in *;
    try pose proof (NN ops).
  - exists (mkPS rest h i). split; reflexivity.
  - inversion_clear Hok as [|? ? [Hk Hv] Hok']. destruct m as [k v]. cbn [fst snd] in *. pose proof (members_nonneg v).
    pose proof (fun r => item_ok J L F pe HJ v k st h i r Hk Hv Hs ltac:(lia)) as I.
    pose proof (key_id_item L F v k st) as KI.
    destruct (write_item L F k v st) as [b st1]. cbn [snd] in KI.
    destruct (write_session L F ops st1) as [b' st2] eqn:Ew. destruct (I (b' ++ rest)) as (Hn1 & h1 & i1 & Hs1 & R).
    destruct (IH (k :: keys_in v ++ used) st1 h1 i1 rest) as (p' & E & Ep); auto; try lia.
    { intros k' Hk'. destruct (KI k' Hk') as [H1|[H1|H1]]; [right; apply in_or_app; auto|left; auto|right; apply in_or_app; auto]. }
    rewrite Ew in E. cbn [fst] in *. exists p'. split; [|exact Ep]. rewrite <- app_assoc. cbn [ps_in].
    rewrite (reads_fuel _ _ _ _ _ _ _ _ _ R). cbn [bind]. rewrite E. reflexivity.
  - destruct Hf as [Hf1 Hf]. unfold preload_writer.
    assert (Ht : try_compress_key st k = (None, mkWS ((k, ws_next st) :: ws_map st) (ws_next st + 1))).
    { unfold try_compress_key. assert (key_id (ws_map st) k = 0) as -> by (destruct (Z.eq_dec (key_id (ws_map st) k) 0); auto; exfalso; auto).
      unfold u32. cbv zeta. rewrite Z.mod_small by lia. replace (ws_next st - 0 - 1 <? 128) with false by lia.
      rewrite Z.mod_small by lia. reflexivity. }
    rewrite Ht. cbn [snd]. unfold preload_reader, store_key. cbn [ps_in ps_hist ps_idx]. cbv zeta.
    match goal with |- context [mkPS _ ?h2 ?i2] => apply (IH (k :: used) _ h2 i2) end; auto; cbn [ws_next ws_map]; try lia.
    + intros Hb. specialize (Hs Hb). destruct (history_miss _ _ _ _ Hs Ht ltac:(lia)) as [Hs' _]. exact Hs'.
    + intros k' Hk'. rewrite key_id_cons in Hk'. destruct (beqb k k') eqn:E; [apply beqb_eq in E; left; auto|right; auto].
  - unfold clear_reader, clear_writer. cbn [ps_in]. apply (IH []); auto.
    + intros _. apply history_init.
    + intros k Hk. cbn in Hk. congruence.
    + cbn. lia.
    + cbn [ws_init ws_next]. lia.
Qed.

Lemma session_ok : forall J L F pe ops rest, (forall n, is_bytes (J n)) -> Forall (op_ok L F) (sent ops) -> fresh_preloads [] ops ->
  session_keys ops < 2 ^ 32 - 256 ->
  exists p', read_session J (Some pe) ops (ps_init (fst (write_session L F ops ws_init) ++ rest)) =
    Ok (map (fun m => (fst m, decoded L F pe (snd m))) (sent ops), p') /\ ps_in p' = rest.
Proof.
  intros J L F pe ops rest HJ Hok Hf Hn. apply (session_gen J L F pe HJ ops [] ws_init [] 0 rest); auto.
  - intros _. apply history_init.
  - intros k Hk. cbn in Hk. congruence.
  - cbn. lia.
  - cbn [ws_init ws_next]. lia.
Qed.

(** The writer's counter comes round after 2^32 - 256 keys. *)
Definition numbered (a : Z) (n : nat) : list bytes := map (fun i => le_bytes 5 (a + Z.of_nat i)) (seq 0 n).
Lemma numbered_S : forall a n, numbered a (S n) = le_bytes 5 a :: numbered (a + 1) n.
Proof.
  intros a n. unfold numbered. cbn [seq map]. rewrite Z.add_0_r. f_equal. rewrite <- seq_shift, map_map.
  apply map_ext. intros i. f_equal. lia.
Qed.
Definition preload_all (ks : list bytes) (st : wstate) : wstate := fold_left (fun st k => snd (preload_writer st k)) ks st.

Lemma le5_inj : forall a b, 0 <= a < 2 ^ 40 -> 0 <= b < 2 ^ 40 -> le_bytes 5 a = le_bytes 5 b -> a = b.
Proof.
  intros a b Ha Hb E. rewrite <- (le_round_trip 5 a), <- (le_round_trip 5 b) by (change (256 ^ Z.of_nat 5) with (2 ^ 40); lia).
  rewrite E. reflexivity.
Qed.

Lemma preload_numbered : forall n a st, 0 <= a -> a + Z.of_nat n <= 2 ^ 33 -> 256 <= ws_next st < 2 ^ 32 -> ws_next st + Z.of_nat n <= 2 ^ 32 ->
  (forall b, a <= b < 2 ^ 40 -> key_id (ws_map st) (le_bytes 5 b) = 0) ->
  let st' := preload_all (numbered a n) st in
  ws_next st' = (ws_next st + Z.of_nat n) mod 2 ^ 32 /\
  (forall b, a + Z.of_nat n <= b < 2 ^ 40 -> key_id (ws_map st') (le_bytes 5 b) = 0).
Proof.
  induction n as [|n IH]; intros a st Ha Hb Hn0 Hn Hk st'.
  - unfold st'. cbn. rewrite Z.add_0_r. split; [rewrite Z.mod_small by lia; reflexivity|]. intros b Hb'. apply Hk. lia.
  - unfold st'. rewrite numbered_S. cbn [preload_all fold_left]. fold (preload_all (numbered (a + 1) n)).
    assert (Ht : snd (preload_writer st (le_bytes 5 a)) = mkWS ((le_bytes 5 a, ws_next st) :: ws_map st) ((ws_next st + 1) mod 2 ^ 32)).
    { unfold preload_writer, try_compress_key. rewrite Hk by lia. unfold u32. cbv zeta. rewrite (Z.mod_small (ws_next st - 0 - 1)) by lia.
      replace (ws_next st - 0 - 1 <? 128) with false by lia. reflexivity. }
    rewrite Ht. change (fold_left (fun st k => snd (preload_writer st k)) (numbered (a + 1) n)) with (preload_all (numbered (a + 1) n)).
    destruct n as [|n].
    + cbn [numbered seq map preload_all fold_left ws_next ws_map]. split; [reflexivity|]. intros b Hb'. rewrite key_id_cons.
      destruct (beqb (le_bytes 5 a) (le_bytes 5 b)) eqn:E; [|apply Hk; lia]. apply beqb_eq in E. apply le5_inj in E; lia.
    + rewrite Z.mod_small by lia.
      destruct (IH (a + 1) (mkWS ((le_bytes 5 a, ws_next st) :: ws_map st) (ws_next st + 1))) as [E1 E2]; cbn [ws_next ws_map]; try lia.
      { intros b Hb'. rewrite key_id_cons. destruct (beqb (le_bytes 5 a) (le_bytes 5 b)) eqn:E; [|apply Hk; lia].
        apply beqb_eq in E. apply le5_inj in E; lia. }
      split.
      * rewrite E1. cbn [ws_next]. f_equal. lia.
      * intros b Hb'. apply E2. lia.
Qed.

Lemma wrapped : exists ks k, NoDup ks /\ ~ In k ks /\
  exists st', preload_all ks ws_init = st' /\ try_compress_key st' k = (Some 0, st').
Proof.
  set (N := Z.to_nat (2 ^ 32 - 256)).
  exists (numbered 0 (S N)), (le_bytes 5 (2 ^ 33)).
  assert (HN : Z.of_nat N = 2 ^ 32 - 256) by (unfold N; rewrite Z2Nat.id; [reflexivity|discriminate]).
  clearbody N.
  split.
  { unfold numbered. 
    assert (G : forall a n, 0 <= a -> a + Z.of_nat n <= 2 ^ 40 -> NoDup (numbered a n)).
    { intros a n. revert a. induction n as [|n IH]; intros a Ha Hb; [constructor|]. rewrite numbered_S. constructor; [|apply IH; lia].
      unfold numbered. rewrite in_map_iff. intros (i & E & Hi). apply in_seq in Hi. apply le5_inj in E; lia. }
    apply G; lia. }
  split.
  { unfold numbered. rewrite in_map_iff. intros (i & E & Hi). apply in_seq in Hi. apply le5_inj in E; lia. }
  destruct (preload_numbered N 0 ws_init) as [E1 E2]; cbn [ws_init ws_next]; try lia; [intros; reflexivity|].
  exists (preload_all (numbered 0 (S N)) ws_init). split; [reflexivity|].
  assert (Es : preload_all (numbered 0 (S N)) ws_init = snd (preload_writer (preload_all (numbered 0 N) ws_init) (le_bytes 5 (Z.of_nat N)))).
  { unfold numbered. rewrite seq_S, map_app. unfold preload_all. rewrite fold_left_app. reflexivity. }
  rewrite Es. set (st := preload_all (numbered 0 N) ws_init) in *. cbn [ws_init ws_next] in E1.
  rewrite HN in E1. change ((256 + (2 ^ 32 - 256)) mod 2 ^ 32) with 0 in E1.
  assert (Ht : snd (preload_writer st (le_bytes 5 (Z.of_nat N))) = mkWS ((le_bytes 5 (Z.of_nat N), 0) :: ws_map st) 1).
  { unfold preload_writer, try_compress_key. rewrite E2 by lia. rewrite E1. reflexivity. }
  rewrite Ht. unfold try_compress_key. cbn [ws_map ws_next]. rewrite key_id_cons.
  assert (beqb (le_bytes 5 (Z.of_nat N)) (le_bytes 5 (2 ^ 33)) = false) as ->.
  { destruct (beqb (le_bytes 5 (Z.of_nat N)) (le_bytes 5 (2 ^ 33))) eqn:E; auto. apply beqb_eq in E. apply le5_inj in E; lia. }
  rewrite E2 by lia. reflexivity.
Qed.

(** *** What is read back is equal *)
From Verif Require Import SpecEq ProofEq.

Lemma SFeqb_refl : forall f, not_nan f -> SFeqb f f = true.
Proof. intros f H. rewrite SFeqb_rank, rcmp_refl by auto. reflexivity. Qed.

Lemma decoded_num_eq : forall L F n, bf_32 F = false -> bin_num L n -> not_nan (get_number L n) -> num_equal L n (decoded_num L F n) = true.
Proof.
  intros L F n HF Hb Hn. unfold decoded_num, decoded_int, decoded_double. rewrite HF. cbn [andb].
  destruct n as [n|n|f|t [|n|n]]; cbn [bin_num get_number] in *.
  - replace (n <? 0) with false by lia. cbn. apply Z.eqb_refl.
  - destruct (n <? 0); cbn; [apply Z.eqb_refl|apply SFeqb_refl; auto].
  - destruct f; cbn [num_equal get_number]; try (apply SFeqb_refl; auto). reflexivity.
  - destruct (lm_strtod L t) eqn:E; cbn [num_equal get_number]; rewrite E; try (apply SFeqb_refl; auto). reflexivity.
  - replace (n <? 0) with false by lia. cbn. apply SFeqb_refl; auto.
  - destruct (n <? 0); cbn; apply SFeqb_refl; auto.
Qed.

Lemma decoded_eq : forall L F pe v, bf_32 F = false -> bin_ok L F v -> proper L v -> veq L v (decoded L F pe v) = true.
Proof.
  intros L F pe v HF. induction v as [| |b|n|e s|l IH|d l IH] using value_ind'; intros Hb Hp; inversion Hp; subst; cbn [decoded] in *; try reflexivity.
  - destruct b; reflexivity.
  - cbn [veq]. apply decoded_num_eq; auto.
  - destruct e as [e|], s; cbn [veq]; apply beqb_refl.
  - rewrite veq_arr. destruct Hb as [_ Hb]. fold (all_ok L F) in Hb. clear Hp. rename H0 into Hp.
    induction IH as [|x l Hx Hl IHl]; [reflexivity|]. inversion_clear Hp. destruct Hb as (_ & B1 & B2). cbn [map veq_items negb orb fst snd].
    rewrite Hx, IHl by auto. reflexivity.
  - rewrite veq_obj. destruct Hb as [_ Hb]. fold (all_ok L F) in Hb. clear Hp. rename H0 into Hp.
    induction IH as [|x l Hx Hl IHl]; [reflexivity|]. inversion_clear Hp. destruct Hb as (_ & B1 & B2). cbn [map veq_items negb orb fst snd].
    rewrite Hx, IHl, beqb_refl by auto. reflexivity.
Qed.

(** *** Integers under [maintain32BitComp] *)
Lemma number_doc : forall J L F pe n, (forall k, is_bytes (J k)) -> bin_num L n ->
  exists p', parse_binary J (Some pe) (serialize_binary L F ([], VNum n)) = Ok (([], VNum (decoded_num L F n)), p') /\ ps_in p' = [].
Proof.
  intros J L F pe n HJ Hn.
  assert (Ht : bin_text F []) by (split; [constructor|split; [unfold size_limit; destruct (bf_32 F); reflexivity|exact I]]).
  destruct (document_ok J L F pe [] (VNum n) [] HJ Ht Hn) as (p' & E & Ep); [cbn [members_in]; lia|].
  rewrite app_nil_r in E. exists p'. split; [exact E|exact Ep].
Qed.
Lemma comp32_small : forall J L k c pe n z, (forall i, is_bytes (J i)) -> Z.abs z < 2 ^ 32 ->
  n = NInt z \/ (0 <= z /\ n = NUInt z) ->
  exists p', parse_binary J (Some pe) (serialize_binary L (mkBF k true c) ([], VNum n))
    = Ok (([], VNum (if z <? 0 then NInt z else NUInt z)), p') /\ ps_in p' = [].
Proof.
  intros J L k c pe n z HJ Hz Hn. destruct (number_doc J L (mkBF k true c) pe n HJ) as (p' & E & Ep); [destruct Hn as [->|(? & ->)]; cbn [bin_num]; lia|].
  exists p'. split; [|exact Ep]. rewrite E. destruct Hn as [->|(? & ->)]; unfold decoded_num; cbn [bf_32 andb]; replace (2 ^ 32 <=? Z.abs z) with false by lia; reflexivity.
Qed.
Lemma comp32_large : forall J L k c pe n z, (forall i, is_bytes (J i)) -> 2 ^ 32 <= z < 2 ^ 64 ->
  (z < 2 ^ 63 /\ n = NInt z) \/ n = NUInt z ->
  exists m e p', parse_binary J (Some pe) (serialize_binary L (mkBF k true c) ([], VNum n))
    = Ok (([], VNum (NDbl (S754_finite false m e))), p') /\ ps_in p' = [] /\ nearest_double z m e.
Proof.
  intros J L k c pe n z HJ Hz Hn. destruct (number_doc J L (mkBF k true c) pe n HJ) as (p' & E & Ep); [destruct Hn as [(? & ->)| ->]; cbn [bin_num]; lia|].
  destruct (f_of_Z_nearest z) as (m & e & Ef & Hd & _); [lia|]. exists m, e, p'. split; [|split; [exact Ep|exact Hd]].
  rewrite E. destruct Hn as [(? & ->)| ->]; unfold decoded_num; cbn [bf_32 andb]; replace (Z.abs z) with z by lia; replace (2 ^ 32 <=? z) with true by lia; rewrite Ef; reflexivity.
Qed.
Lemma comp32_negative : forall J L k c pe n, (forall i, is_bytes (J i)) -> 2 ^ 32 <= n < 2 ^ 63 ->
  exists m e p', parse_binary J (Some pe) (serialize_binary L (mkBF k true c) ([], VNum (NInt (- n))))
    = Ok (([], VNum (NDbl (S754_finite false m e))), p') /\ ps_in p' = [] /\ nearest_double n m e.
Proof.
  intros J L k c pe n HJ Hn. destruct (number_doc J L (mkBF k true c) pe (NInt (- n)) HJ) as (p' & E & Ep); [cbn [bin_num]; lia|].
  destruct (f_of_Z_nearest n) as (m & e & Ef & Hd & _); [lia|]. exists m, e, p'. split; [|split; [exact Ep|exact Hd]].
  rewrite E. unfold decoded_num. cbn [bf_32 andb]. replace (Z.abs (- n)) with n by lia. replace (2 ^ 32 <=? n) with true by lia. rewrite Ef. reflexivity.
Qed.

(** *** Termination of the parser on a whole input *)
Lemma parse_stable : forall J pe s, parse_binary J pe s <> Fuel ->
  forall f, (bin_fuel s <= f)%nat -> parse_item J pe f (ps_init s) = parse_binary J pe s.
Proof. intros J pe s H f Hf. unfold parse_binary in *. apply fuel_enough; [exact H|]. unfold bin_fuel, left in *. cbn [ps_in ps_init]. lia. Qed.
Lemma parse_fuel : forall J pe s, parse_binary J pe s = Fuel -> forall f, parse_item J pe f (ps_init s) = Fuel.
Proof. intros J pe s H f. apply fuel_bound. exact H. Qed.
