(** Character sets of the validator. *)
From Coq Require Import String Ascii Lia ZifyBool.
From Verif Require Import Base ModelValue ModelText ModelUtf8 SpecUtf8 ProofUtf8 ModelRpc ModelNumView ModelValidator SpecValidator
  ProofValidator ProofValidator2 ProofValidator4 SpecCharset.
Local Open Scope Z_scope.
Local Open Scope list_scope.

Definition last_two (t : list Z) : list Z := skipn (List.length t - 2) t.

Lemma ranges_step : forall x n a b l, 0 < n -> charset_ranges x n (a :: b :: l) =
  if b =? 45 then
    match l with
    | c :: l2 => if (a <=? x) && (x <=? c) then Some true else charset_ranges x (n - 3) l2
    | [] => None
    end
  else if x =? a then Some true else charset_ranges x (n - 1) (b :: l).
Proof. intros x n a b l H. cbn [charset_ranges]. destruct (n <=? 0) eqn:E; [lia|]. destruct (b =? 45); [|reflexivity]. destruct l; reflexivity. Qed.
Lemma ranges_stop : forall x n l, n <= 0 -> charset_ranges x n l = Some false.
Proof. intros x n l H. destruct l; cbn [charset_ranges]; destruct (n <=? 0) eqn:E; try reflexivity; lia. Qed.

Lemma last_two_cons : forall c t, (2 <= List.length t)%nat -> last_two (c :: t) = last_two t.
Proof. intros c t H. unfold last_two. cbn [List.length]. replace (S (List.length t) - 2)%nat with (S (List.length t - 2)) by lia. reflexivity. Qed.

Lemma ranges_read : forall x mem items, readable items -> (List.length mem = 2)%nat ->
  exists b, charset_ranges x (Z.of_nat (List.length (set_text items)) - 2) (set_text items ++ mem) = Some b /\
    (b = true -> Exists (in_item x) items) /\ (Exists (in_item x) items -> b = true \/ In x (last_two (set_text items))).
Proof.
  intros x mem items R M. induction items as [|[c|a z] items IH].
  - exists false. split; [apply ranges_stop; cbn; lia|]. split; [discriminate|intros H; inversion H].
  - destruct R as [R0 R]. specialize (IH R). destruct IH as (b & B1 & B2 & B3).
    change (set_text (One c :: items)) with (c :: set_text items). set (t := set_text items) in *.
    destruct (Nat.leb_spec (List.length t) 1) as [Q|Q].
    { exists false. split; [apply ranges_stop; cbn [List.length]; lia|]. split; [discriminate|]. intros H. right.
      unfold last_two. replace (List.length (c :: t) - 2)%nat with O by (cbn [List.length]; lia). cbn [skipn].
      inversion H as [? ? X|? ? X]; subst; [left; cbn in X; congruence|right].
      destruct (B3 X) as [->|Y].
      - rewrite ranges_stop in B1 by lia. discriminate.
      - unfold last_two in Y. replace (List.length t - 2)%nat with O in Y by lia. exact Y. }
    destruct t as [|d t'] eqn:T; [cbn in Q; lia|]. subst t.
    assert (D : d <> 45). { destruct R0 as [->|R0]; [cbn in T; injection T as <- <-; cbn in Q; lia|]. exact R0. }
    cbn [app List.length] in *. rewrite ranges_step by lia. destruct (d =? 45) eqn:E; [lia|]. rewrite (last_two_cons c) by (cbn [List.length]; lia).
    destruct (x =? c) eqn:F.
    + exists true. split; [reflexivity|]. split; [intros _; constructor; cbn; lia|auto].
    + exists b. split; [replace (Z.of_nat (S (S (List.length t'))) - 2 - 1) with (Z.of_nat (S (List.length t')) - 2) by lia; exact B1|].
      split; [intros H; right; exact (B2 H)|]. intros H. inversion H as [? ? X|? ? X]; subst; [cbn in X; lia|exact (B3 X)].
  - destruct R as [R0 R]. specialize (IH R). destruct IH as (b & B1 & B2 & B3).
    change (set_text (Range a z :: items)) with (a :: 45 :: z :: set_text items). set (t := set_text items) in *.
    cbn [app List.length]. rewrite ranges_step by lia. change (45 =? 45) with true. cbv iota.
    destruct ((a <=? x) && (x <=? z)) eqn:E.
    + exists true. split; [reflexivity|]. split; [intros _; constructor; cbn; lia|auto].
    + exists b. split; [replace (Z.of_nat (S (S (S (List.length t)))) - 2 - 3) with (Z.of_nat (List.length t) - 2) by lia; exact B1|].
      split; [intros H; right; exact (B2 H)|]. intros H. inversion H as [? ? X|? ? X]; subst; [cbn in X; lia|].
      destruct (B3 X) as [Y|Y]; [left; exact Y|right].
      destruct (Nat.leb_spec (List.length t) 1) as [Q|Q].
      * destruct t as [|d [|d' t']]; [destruct Y|unfold last_two in *; cbn in *; tauto|cbn in Q; lia].
      * rewrite !last_two_cons by (cbn [List.length]; lia). exact Y.
Qed.

Lemma set_text_app : forall a b, set_text (a ++ b) = set_text a ++ set_text b.
Proof. intros. apply flat_map_app. Qed.
Lemma last_two_app : forall a b, (2 <= List.length b)%nat -> last_two (a ++ b) = last_two b.
Proof. intros a b H. induction a as [|x a IH]; [reflexivity|]. cbn [app]. rewrite last_two_cons by (rewrite app_length; lia). exact IH. Qed.
Lemma readable_app : forall a b, readable (a ++ b) -> readable b.
Proof. induction a as [|[c|x y] a IH]; intros b H; [exact H| |]; cbn [app readable] in H; apply IH, H. Qed.
Lemma last_two_in : forall x items, readable items -> (2 <= List.length (set_text items))%nat -> In x (last_two (set_text items)) -> in_set items x.
Proof.
  intros x items R. destruct items as [|i items] using rev_ind; [cbn; lia|]. clear IHitems. rewrite set_text_app. intros H.
  destruct i as [z|a b].
  - destruct items as [|i items] using rev_ind; [cbn in H; lia|]. clear IHitems. rewrite set_text_app. destruct i as [y|a b].
    + rewrite <- app_assoc, last_two_app by (cbn; lia). cbn. intros [<-|[<-|[]]]; left; rewrite !Exists_app.
      * left. right. constructor. reflexivity.
      * right. constructor. reflexivity.
    + rewrite <- app_assoc in R |- *. apply readable_app in R. cbn in R. rewrite last_two_app by (cbn; lia). cbn. intros [<-|[<-|[]]]; left; rewrite !Exists_app.
      * left. right. constructor. cbn. lia.
      * right. constructor. reflexivity.
  - apply readable_app in R. cbn in R. rewrite last_two_app by (cbn; lia). cbn. intros [<-|[<-|[]]].
    + right. split; [reflexivity|]. eauto.
    + left. rewrite Exists_app. right. constructor. cbn. lia.
Qed.

Lemma charset_char_spec : forall items mem x, readable items -> (2 <= List.length (set_text items))%nat -> (Z.of_nat (List.length (set_text items)) < 2 ^ 64) ->
  (List.length mem = 2)%nat -> exists b, charset_char (set_text items) (set_text items ++ mem) x = Some b /\ (b = true <-> in_set items x).
Proof.
  intros items mem x R Le Hi M. unfold charset_char.
  replace (u64 (Z.of_nat (List.length (set_text items)) - 2)) with (Z.of_nat (List.length (set_text items)) - 2) by (unfold u64; rewrite Z.mod_small; lia).
  replace (skipn _ (set_text items)) with (last_two (set_text items)) by (unfold last_two; f_equal; lia).
  destruct (ranges_read x mem items R M) as (b & B1 & B2 & B3). rewrite B1. destruct b.
  - exists true. split; [reflexivity|]. split; [intros _; left; auto|reflexivity].
  - eexists. split; [reflexivity|]. rewrite existsb_exists. split.
    + intros (y & I & E). apply Z.eqb_eq in E. subst y. apply last_two_in; assumption.
    + intros [H|[-> (pre & a & b & ->)]].
      * destruct (B3 H) as [X|X]; [discriminate|]. exists x. split; [exact X|apply Z.eqb_refl].
      * exists 45. split; [|reflexivity]. rewrite set_text_app, last_two_app by (cbn; lia). left. reflexivity.
Qed.
Lemma charset_all_spec : forall items mem neg cs, readable items -> (2 <= List.length (set_text items))%nat -> (Z.of_nat (List.length (set_text items)) < 2 ^ 64) ->
  (List.length mem = 2)%nat -> exists b, charset_all neg (set_text items) (set_text items ++ mem) cs = Some b /\
    (b = true <-> Forall (fun x => if neg then ~ in_set items x else in_set items x) cs).
Proof.
  intros items mem neg cs R Le Hi M. induction cs as [|x cs (b & B1 & B2)]; [exists true; split; [reflexivity|]; split; [constructor|reflexivity]|].
  cbn [charset_all]. destruct (charset_char_spec items mem x R Le Hi M) as (c & C1 & C2). rewrite C1.
  destruct (Bool.eqb c neg) eqn:E.
  - exists false. split; [reflexivity|]. split; [discriminate|]. intros H. inversion H; subst. apply Bool.eqb_prop in E. subst c. destruct neg; tauto.
  - exists b. split; [exact B1|]. rewrite B2. assert ((if neg then ~ in_set items x else in_set items x)).
    { destruct c, neg; try discriminate; [apply C2; reflexivity|]. intros X. apply C2 in X. discriminate. }
    split; [intros J; constructor; assumption|intros J; inversion J; assumption].
Qed.

(** The rule. *)
Definition set_rule (text : list Z) : bytes := utf8_encode (91 :: text ++ [93]).
Lemma wstr_encode : forall cs, Forall is_cp cs -> wstr (utf8_encode cs) = cs.
Proof.
  intros cs H. unfold wstr. pose proof (wide_utf8_roundtrip false cs H) as A. rewrite (wide_to_utf8_spec cs H) in A.
  replace (map (as_source false) (utf8_encode cs)) with (utf8_encode cs) in A; [exact A|]. symmetry. apply map_id.
Qed.
Lemma set_rule_shape : forall text, set_rule text = 91 :: utf8_encode text ++ [93].
Proof. intros text. unfold set_rule, utf8_encode. cbn [flat_map]. rewrite flat_map_app. reflexivity. Qed.
Lemma set_rule_simple : forall V e cs text, Forall is_cp text -> Forall is_cp cs ->
  simple_rule V (VStr e (utf8_encode cs)) (set_rule text) = match test_charset cs (91 :: text ++ [93]) with Some b => SVerdict b | None => SBad end.
Proof.
  intros V e cs text T C. rewrite <- (wstr_encode (91 :: text ++ [93])) by (constructor; [unfold is_cp; lia|apply Forall_app; split; [exact T|repeat constructor; unfold is_cp; lia]]).
  fold (set_rule text). rewrite <- (wstr_encode cs C) at 2. rewrite set_rule_shape. unfold simple_rule.
  change (91 =? 39) with false. change (91 =? 35) with false. change (91 =? 91) with true. cbv iota.
  replace (last (91 :: utf8_encode text ++ [93]) 0) with 93 by (rewrite app_comm_cons, last_last; reflexivity). reflexivity.
Qed.
Lemma charset_body : forall text, let rule := 91 :: text ++ [93] in
  firstn (if (List.length rule <? 2)%nat then List.length rule else (List.length rule - 2)%nat) (tl rule) = text.
Proof.
  intros text rule. unfold rule. cbn [List.length tl]. rewrite app_length. cbn [List.length]. destruct (Nat.ltb_spec (S (List.length text + 1)) 2); [lia|].
  rewrite firstn_app. replace (S (List.length text + 1) - 2)%nat with (List.length text) by lia. rewrite firstn_all, Nat.sub_diag. cbn. apply app_nil_r.
Qed.
Lemma charset_mem : forall text, tl (91 :: text ++ [93]) ++ [0] = text ++ [93; 0].
Proof. intros. cbn [tl]. rewrite <- app_assoc. reflexivity. Qed.

Lemma set_positive : forall V vars k e e' items cs, Forall is_cp (set_text items) -> Forall is_cp cs -> readable items ->
  (2 <= List.length (set_text items))%nat -> Z.of_nat (List.length (set_text items)) < 2 ^ 64 -> hd 0 (set_text items) <> 94 ->
  let holds := cs <> [] /\ Forall (in_set items) cs in
  let r := VStr e' (set_rule (set_text items)) in
  (accepts V vars (k, VStr e (utf8_encode cs)) r <-> holds) /\ (rejects V vars (k, VStr e (utf8_encode cs)) r <-> ~ holds).
Proof.
  intros V vars k e e' items cs T C R Le Hi N holds r.
  assert (X : exists b, test_charset cs (91 :: set_text items ++ [93]) = Some b /\ (b = true <-> holds)).
  { unfold test_charset. cbv zeta. rewrite charset_body, charset_mem. destruct (charset_all_spec items [93; 0] false cs R Le Hi eq_refl) as (b & B1 & B2).
    destruct (set_text items) as [|c r'] eqn:E; [cbn in Le; lia|]. destruct cs as [|x cs].
    { exists false. split; [reflexivity|]. split; [discriminate|intros [Q _]; congruence]. }
    destruct r' as [|c' r']; [cbn in Le; lia|]. cbn [hd] in N. destruct (c =? 94) eqn:F; [lia|]. exists b. split; [exact B1|].
    rewrite B2. unfold holds. split; [intros H; split; [discriminate|exact H]|intros [_ H]; exact H]. }
  destruct X as (b & X1 & X2). apply (verdict_iff V vars _ _ b); [|exact X2]. apply simple_ends. cbn [snd]. rewrite set_rule_simple by assumption. rewrite X1. reflexivity.
Qed.
Lemma set_negative : forall V vars k e e' items cs, Forall is_cp (set_text items) -> Forall is_cp cs -> readable items ->
  (2 <= List.length (set_text items))%nat -> Z.of_nat (List.length (set_text items)) < 2 ^ 64 ->
  let holds := cs <> [] /\ Forall (fun x => ~ in_set items x) cs in
  let r := VStr e' (set_rule (94 :: set_text items)) in
  (accepts V vars (k, VStr e (utf8_encode cs)) r <-> holds) /\ (rejects V vars (k, VStr e (utf8_encode cs)) r <-> ~ holds).
Proof.
  intros V vars k e e' items cs T C R Le Hi holds r.
  assert (X : exists b, test_charset cs (91 :: (94 :: set_text items) ++ [93]) = Some b /\ (b = true <-> holds)).
  { unfold test_charset. cbv zeta. rewrite charset_body, charset_mem. destruct (charset_all_spec items [93; 0] true cs R Le Hi eq_refl) as (b & B1 & B2).
    destruct cs as [|x cs].
    { exists false. split; [reflexivity|]. split; [discriminate|intros [Q _]; congruence]. }
    destruct (set_text items) as [|c' r'] eqn:E; [cbn in Le; lia|]. change (94 =? 94) with true. cbv iota. exists b. split; [exact B1|].
    rewrite B2. unfold holds. split; [intros H; split; [discriminate|exact H]|intros [_ H]; exact H]. }
  destruct X as (b & X1 & X2). apply (verdict_iff V vars _ _ b); [|exact X2]. apply simple_ends. cbn [snd].
  rewrite set_rule_simple by first [assumption | constructor; [unfold is_cp; lia|exact T]]. rewrite X1. reflexivity.
Qed.
Lemma set_empty : forall V vars k e e' cs, Forall is_cp cs ->
  let r := VStr e' (set_rule []) in
  (accepts V vars (k, VStr e (utf8_encode cs)) r <-> cs = []) /\ (rejects V vars (k, VStr e (utf8_encode cs)) r <-> cs <> []).
Proof.
  intros V vars k e e' cs C r. apply (verdict_iff V vars _ _ (match cs with [] => true | _ => false end)).
  - apply simple_ends. cbn [snd]. rewrite set_rule_simple by first [assumption | constructor]. unfold test_charset. cbv zeta. rewrite charset_body. reflexivity.
  - destruct cs; split; intros; congruence.
Qed.
Lemma set_only_strings : forall V vars m e' text, (forall e s, snd m <> VStr e s) -> rejects V vars m (VStr e' (set_rule text)).
Proof.
  intros V vars m e' text H. apply (simple_ends V vars m e' _ false); [|reflexivity]. rewrite set_rule_shape. unfold simple_rule.
  change (91 =? 39) with false. change (91 =? 35) with false. change (91 =? 91) with true. cbv iota.
  replace (last (91 :: utf8_encode text ++ [93]) 0) with 93 by (rewrite app_comm_cons, last_last; reflexivity). cbn [andb Z.eqb Pos.eqb].
  destruct (snd m) eqn:E; try reflexivity. destruct (H _ _ eq_refl).
Qed.

(** A set of one character. *)
Lemma single_char : forall c x, charset_char [c] [c; 93; 0] x = if (x =? c) || (x =? 93) then Some true else None.
Proof.
  intros c x. unfold charset_char. cbn [List.length]. change (u64 (Z.of_nat 1 - 2)) with (2 ^ 64 - 1).
  rewrite ranges_step by lia. change (93 =? 45) with false. cbv iota. destruct (x =? c); [reflexivity|]. cbn [orb].
  rewrite ranges_step by lia. change (0 =? 45) with false. cbv iota. destruct (x =? 93); reflexivity.
Qed.
Lemma single_all : forall c cs, charset_all false [c] [c; 93; 0] cs = if forallb (fun x => (x =? c) || (x =? 93)) cs then Some true else None.
Proof.
  intros c cs. induction cs as [|x cs IH]; [reflexivity|]. cbn [charset_all forallb]. rewrite single_char.
  destruct ((x =? c) || (x =? 93)); [exact IH|reflexivity].
Qed.
Lemma set_single : forall V vars k e e' c cs, is_cp c -> Forall is_cp cs -> cs <> [] ->
  let r := VStr e' (set_rule [c]) in
  (accepts V vars (k, VStr e (utf8_encode cs)) r <-> Forall (fun x => x = c \/ x = 93) cs) /\
  (~ Forall (fun x => x = c \/ x = 93) cs -> forall fuel p s, eval_rule V (S fuel) p (k, VStr e (utf8_encode cs)) r s = VBad).
Proof.
  intros V vars k e e' c cs T C N r.
  assert (X : test_charset cs (91 :: [c] ++ [93]) = if forallb (fun x => (x =? c) || (x =? 93)) cs then Some true else None).
  { unfold test_charset. cbv zeta. rewrite charset_body, charset_mem. destruct cs as [|x cs]; [congruence|]. apply single_all. }
  assert (P : Forall (fun x => x = c \/ x = 93) cs <-> forallb (fun x => (x =? c) || (x =? 93)) cs = true).
  { rewrite forallb_forall, Forall_forall. split; intros H x I; specialize (H x I); lia. }
  rewrite P. pose proof (set_rule_simple V e cs [c] (Forall_cons _ T (Forall_nil _)) C) as Sr. rewrite X in Sr.
  destruct (forallb _ cs).
  - split; [|congruence]. split; [reflexivity|intros _]. apply (simple_ends V vars _ e' _ true); [exact Sr|reflexivity].
  - assert (B : forall fuel p s, eval_rule V (S fuel) p (k, VStr e (utf8_encode cs)) r s = VBad).
    { intros fuel p s. cbn [eval_rule]. unfold rule_step, r, eval_simple. cbn [snd]. rewrite Sr. reflexivity. }
    split; [|intros _; exact B]. split; [|discriminate]. intros (fuel & p & s & t & _ & H). destruct fuel; [discriminate|]. rewrite B in H. discriminate.
Qed.
