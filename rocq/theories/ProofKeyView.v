(** Proofs about the views in the dictionary of the binary serializer. *)
From Verif Require Import Base ModelValue ModelObject ModelBin ModelKeyView SpecBin SpecKeyView ProofValue ProofBin3.
Local Open Scope Z_scope.

Lemma gone_in : forall b gone, existsb (Nat.eqb b) gone = true <-> In b gone.
Proof.
  intros b gone. rewrite existsb_exists. split.
  - intros [x [I E]]. apply Nat.eqb_eq in E. subst. exact I.
  - intros I. exists b. split; [exact I|apply Nat.eqb_refl].
Qed.
Lemma gone_out : forall b gone, existsb (Nat.eqb b) gone = false <-> ~ In b gone.
Proof.
  intros b gone. rewrite <- gone_in. destruct (existsb (Nat.eqb b) gone); split; congruence.
Qed.

Section Views.
Variable text : nat -> bytes.
Notation txt_of e := (text (ke_block e)).

(** The two dictionaries agree. *)
Record agree (held : list (bytes * nat)) (st : wstate) (kst : kstate) : Prop := {
  ag_next : ws_next st = ks_next kst;
  ag_hash : forall e, In e (ks_map kst) -> ke_hash e = key_hash (txt_of e);
  ag_uniq : NoDup (map (fun e => txt_of e) (ks_map kst));
  ag_held : forall k b, In (k, b) held <-> exists e, In e (ks_map kst) /\ ke_block e = b /\ text b = k;
  ag_id : forall e, In e (ks_map kst) -> key_id (ws_map st) (txt_of e) = ke_id e;
  ag_no : forall k, (forall e, In e (ks_map kst) -> txt_of e <> k) -> key_id (ws_map st) k = 0
}.

Lemma agree_init : agree [] ws_init ks_init.
Proof.
  constructor; cbn; try reflexivity; try tauto.
  - constructor.
  - intros k b. split; [tauto|intros [e [[] _]]].
Qed.

Lemma uniq_same : forall l (e e' : kentry), NoDup (map (fun e => txt_of e) l) -> In e l -> In e' l -> txt_of e = txt_of e' -> e = e'.
Proof.
  induction l as [|x l IH]; intros e e' N I I' E; [destruct I|].
  cbn [map] in N. apply NoDup_cons_iff in N. destruct N as [Nx N].
  destruct I as [->|I], I' as [->|I'].
  - reflexivity.
  - destruct Nx. rewrite E. apply in_map with (f := fun e => txt_of e). exact I'.
  - destruct Nx. rewrite <- E. apply in_map with (f := fun e => txt_of e). exact I.
  - apply IH; assumption.
Qed.

Lemma find_key_ok : forall gone l k, (forall e, In e l -> ke_hash e = key_hash (txt_of e)) ->
  match find_key text gone l k with
  | None => exists e, In e l /\ key_hash (txt_of e) = key_hash k /\ In (ke_block e) gone
  | Some None => forall e, In e l -> txt_of e <> k
  | Some (Some e) => In e l /\ txt_of e = k /\ ~ In (ke_block e) gone
  end.
Proof.
  intros gone l k. induction l as [|x l IH]; intros H.
  - cbn. tauto.
  - assert (Hl : forall e, In e l -> ke_hash e = key_hash (txt_of e)) by (intros e I; apply H; right; exact I).
    specialize (IH Hl). pose proof (H x (or_introl eq_refl)) as Hx. cbn [find_key].
    destruct (ke_hash x =? key_hash k) eqn:E.
    + apply Z.eqb_eq in E. destruct (existsb (Nat.eqb (ke_block x)) gone) eqn:G.
      * apply gone_in in G. exists x. split; [left; reflexivity|]. split; [congruence|exact G].
      * apply gone_out in G. destruct (beqb (txt_of x) k) eqn:B.
        -- apply beqb_eq in B. split; [left; reflexivity|]. split; assumption.
        -- apply beqb_neq in B. destruct (find_key text gone l k) as [[e|]|].
           ++ destruct IH as [I [J K]]. split; [right; exact I|]. split; assumption.
           ++ intros e [<-|I]; [exact B|apply IH; exact I].
           ++ destruct IH as [e [I J]]. exists e. split; [right; exact I|exact J].
    + apply Z.eqb_neq in E. destruct (find_key text gone l k) as [[e|]|].
      * destruct IH as [I [J K]]. split; [right; exact I|]. split; assumption.
      * intros e [<-|I]; [intros C; apply E; rewrite Hx, C; reflexivity|apply IH; exact I].
      * destruct IH as [e [I J]]. exists e. split; [right; exact I|exact J].
Qed.

Definition same_hash (a b : bytes) : Prop := key_hash a = key_hash b.

Lemma renumber_in : forall b n l e, In e (renumber b n l) ->
  exists e', In e' l /\ ke_block e = ke_block e' /\ ke_hash e = ke_hash e' /\ ke_id e = if (ke_block e' =? b)%nat then n else ke_id e'.
Proof.
  intros b n l e I. unfold renumber in I. apply in_map_iff in I. destruct I as [e' [E I]]. exists e'. split; [exact I|].
  destruct (ke_block e' =? b)%nat eqn:B; subst e; cbn; auto. apply Nat.eqb_eq in B. auto.
Qed.
Lemma renumber_has : forall b n l e', In e' l -> exists e, In e (renumber b n l) /\ ke_block e = ke_block e'.
Proof.
  intros b n l e' I. eexists. split; [apply in_map; exact I|]. cbv beta.
  destruct (ke_block e' =? b)%nat eqn:B; cbn; auto. apply Nat.eqb_eq in B. auto.
Qed.
Lemma renumber_text : forall b n l, map (fun e => txt_of e) (renumber b n l) = map (fun e => txt_of e) l.
Proof.
  intros b n l. unfold renumber. rewrite map_map. apply map_ext. intros e.
  destruct (ke_block e =? b)%nat eqn:B; cbn; auto. apply Nat.eqb_eq in B. congruence.
Qed.

Lemma existsb_held : forall held st kst k, agree held st kst ->
  existsb (fun q : bytes * nat => beqb (fst q) k) held = true <-> exists e, In e (ks_map kst) /\ txt_of e = k.
Proof.
  intros held st kst k A. rewrite existsb_exists. split.
  - intros [[k' b] [I B]]. cbn in B. apply beqb_eq in B. subst k'. apply (ag_held _ _ _ A) in I.
    destruct I as [e [I [<- E]]]. exists e. auto.
  - intros [e [I E]]. exists (k, ke_block e). split; [|cbn; apply beqb_refl]. apply (ag_held _ _ _ A). exists e. auto.
Qed.

(** One lookup. *)
Lemma lookup_ok : forall gone held st kst b, agree held st kst ->
  match try_compress_view text gone kst b with
  | Some (c, kst') => exists st', try_compress_key st (text b) = (c, st') /\ agree (hold held (text b, b)) st' kst' /\
      may_look_up eq gone held [(text b, b)]
  | None => ~ may_look_up same_hash gone held [(text b, b)]
  end.
Proof.
  intros gone held st kst b A. unfold try_compress_view.
  destruct (existsb (Nat.eqb b) gone) eqn:G.
  { apply gone_in in G. cbn [may_look_up snd]. tauto. }
  apply gone_out in G. pose proof (find_key_ok gone (ks_map kst) (text b) (ag_hash _ _ _ A)) as Fk.
  destruct (find_key text gone (ks_map kst) (text b)) as [[e|]|].
  - destruct Fk as [I [Et Ng]].
    assert (M : may_look_up eq gone held [(text b, b)]).
    { cbn [may_look_up fst snd]. split; [exact G|]. split; [|exact Logic.I]. intros k' b' Ih ->.
      apply (ag_held _ _ _ A) in Ih. destruct Ih as [e' [I' [<- E']]].
      assert (e' = e) as -> by (eapply uniq_same; [apply (ag_uniq _ _ _ A)|exact I'|exact I|congruence]). exact Ng. }
    assert (Hh : hold held (text b, b) = held).
    { unfold hold. replace (existsb _ held) with true; [reflexivity|]. symmetry. cbn [fst].
      apply (existsb_held held st kst (text b) A). exists e. auto. }
    rewrite Hh. cbn [ke_id]. unfold try_compress_key.
    rewrite <- Et, (ag_id _ _ _ A e I), (ag_next _ _ _ A).
    destruct (u32 (ks_next kst - ke_id e - 1) <? 128) eqn:D.
    + eexists. split; [reflexivity|]. rewrite Et. split; [|exact M]. destruct kst as [kl kn]. exact A.
    + eexists. split; [reflexivity|]. rewrite Et. split; [|exact M]. constructor; cbn [ws_next ws_map ks_next ks_map].
      * reflexivity.
      * intros x Ix. apply renumber_in in Ix. destruct Ix as [x' [Ix [B [H _]]]]. rewrite H, B. apply (ag_hash _ _ _ A). exact Ix.
      * rewrite renumber_text. apply (ag_uniq _ _ _ A).
      * intros k0 b0. rewrite (ag_held _ _ _ A k0 b0). split.
        -- intros [x [Ix [B T]]]. destruct (renumber_has (ke_block e) (ks_next kst) _ _ Ix) as [y [Iy By]].
           exists y. split; [exact Iy|]. split; [congruence|exact T].
        -- intros [x [Ix [B T]]]. apply renumber_in in Ix. destruct Ix as [x' [Ix [B' _]]]. exists x'. split; [exact Ix|]. split; [congruence|exact T].
      * intros x Ix. apply renumber_in in Ix. destruct Ix as [x' [Ix [B [_ D']]]]. rewrite D', B. cbn [key_id fst snd].
        destruct (beqb (text b) (txt_of x')) eqn:Bt.
        -- apply beqb_eq in Bt. assert (x' = e) as -> by (eapply uniq_same; [apply (ag_uniq _ _ _ A)|exact Ix|exact I|congruence]).
           rewrite Nat.eqb_refl. reflexivity.
        -- apply beqb_neq in Bt. destruct (ke_block x' =? ke_block e)%nat eqn:Bb.
           ++ apply Nat.eqb_eq in Bb. rewrite Bb in Bt. congruence.
           ++ apply (ag_id _ _ _ A). exact Ix.
      * intros k0 Hk. cbn [key_id fst snd]. destruct (beqb (text b) k0) eqn:Bt.
        -- apply beqb_eq in Bt. destruct (renumber_has (ke_block e) (ks_next kst) _ _ I) as [y [Iy By]]. destruct (Hk y Iy). rewrite By. congruence.
        -- apply (ag_no _ _ _ A). intros x Ix. destruct (renumber_has (ke_block e) (ks_next kst) _ _ Ix) as [y [Iy By]]. rewrite <- By. apply Hk. exact Iy.
  - assert (M : may_look_up eq gone held [(text b, b)]).
    { cbn [may_look_up fst snd]. split; [exact G|]. split; [|exact Logic.I]. intros k' b' Ih ->.
      apply (ag_held _ _ _ A) in Ih. destruct Ih as [e' [I' [<- E']]]. destruct (Fk e' I' E'). }
    assert (Hh : hold held (text b, b) = (text b, b) :: held).
    { unfold hold. replace (existsb _ held) with false; [reflexivity|]. symmetry. cbn [fst].
      destruct (existsb _ held) eqn:X; [|reflexivity]. apply (existsb_held held st kst (text b) A) in X. destruct X as [e [I E]]. destruct (Fk e I E). }
    rewrite Hh. cbn [ke_id ke_block]. unfold try_compress_key.
    rewrite (ag_no _ _ _ A (text b) Fk), (ag_next _ _ _ A).
    set (e0 := mkKE b (key_hash (text b)) 0).
    assert (Hheld : forall k0 b0, In (k0, b0) ((text b, b) :: held) <-> exists e, In e (e0 :: ks_map kst) /\ ke_block e = b0 /\ text b0 = k0).
    { intros k0 b0. cbn [In]. rewrite (ag_held _ _ _ A k0 b0). split.
      - intros [E|[x [Ix [B T]]]].
        + inversion E; subst. exists e0. auto.
        + exists x. auto.
      - intros [x [[<-|Ix] [B T]]]; [left; cbn in B; congruence|right; exists x; auto]. }
    assert (Hu : NoDup (map (fun e => txt_of e) (e0 :: ks_map kst))).
    { cbn [map]. constructor; [|apply (ag_uniq _ _ _ A)]. intros C. apply in_map_iff in C. destruct C as [x [E Ix]]. destruct (Fk x Ix E). }
    destruct (u32 (ks_next kst - 0 - 1) <? 128) eqn:D.
    + eexists. split; [reflexivity|]. split; [|exact M]. constructor; cbn [ks_next ks_map].
      * apply (ag_next _ _ _ A).
      * intros x [<-|Ix]; [reflexivity|apply (ag_hash _ _ _ A); exact Ix].
      * exact Hu.
      * exact Hheld.
      * intros x [<-|Ix]; [apply (ag_no _ _ _ A); exact Fk|apply (ag_id _ _ _ A); exact Ix].
      * intros k0 Hk. apply (ag_no _ _ _ A). intros x Ix. apply Hk. right. exact Ix.
    + eexists. split; [reflexivity|]. split; [|exact M]. constructor; cbn [ws_next ws_map ks_next ks_map].
      * reflexivity.
      * intros x Ix. apply renumber_in in Ix. destruct Ix as [x' [Ix [B [H _]]]]. rewrite H, B.
        destruct Ix as [<-|Ix]; [reflexivity|apply (ag_hash _ _ _ A); exact Ix].
      * rewrite renumber_text. exact Hu.
      * intros k0 b0. rewrite (Hheld k0 b0). split.
        -- intros [x [Ix [B T]]]. destruct (renumber_has b (ks_next kst) _ _ Ix) as [y [Iy By]].
           exists y. split; [exact Iy|]. split; [congruence|exact T].
        -- intros [x [Ix [B T]]]. apply renumber_in in Ix. destruct Ix as [x' [Ix [B' _]]]. exists x'. split; [exact Ix|]. split; [congruence|exact T].
      * intros x Ix. apply renumber_in in Ix. destruct Ix as [x' [Ix [B [_ D']]]]. rewrite D', B. cbn [key_id fst snd].
        destruct Ix as [<-|Ix].
        -- cbn [ke_block e0]. rewrite beqb_refl, Nat.eqb_refl. reflexivity.
        -- destruct (beqb (text b) (txt_of x')) eqn:Bt.
           ++ apply beqb_eq in Bt. destruct (Fk x' Ix). congruence.
           ++ apply beqb_neq in Bt. destruct (ke_block x' =? b)%nat eqn:Bb.
              ** apply Nat.eqb_eq in Bb. rewrite Bb in Bt. congruence.
              ** apply (ag_id _ _ _ A). exact Ix.
      * intros k0 Hk. cbn [key_id fst snd]. destruct (beqb (text b) k0) eqn:Bt.
        -- apply beqb_eq in Bt. destruct (renumber_has b (ks_next kst) (e0 :: ks_map kst) e0 (or_introl eq_refl)) as [y [Iy By]]. destruct (Hk y Iy). rewrite By. exact Bt.
        -- apply (ag_no _ _ _ A). intros x Ix. destruct (renumber_has b (ks_next kst) (e0 :: ks_map kst) x (or_intror Ix)) as [y [Iy By]]. rewrite <- By. apply Hk. exact Iy.
  - destruct Fk as [e [I [H Ge]]]. cbn [may_look_up fst snd]. intros [_ [C _]].
    apply (C (txt_of e) (ke_block e)); [|exact H|exact Ge]. apply (ag_held _ _ _ A). exists e. auto.
Qed.

(** *** Values *)
Lemma may_app : forall same gone l1 l2 held, may_look_up same gone held (l1 ++ l2) <->
  may_look_up same gone held l1 /\ may_look_up same gone (fold_left hold l1 held) l2.
Proof.
  induction l1 as [|p l1 IH]; intros l2 held; cbn [may_look_up app fold_left]; [tauto|]. rewrite IH. tauto.
Qed.
Definition lookups (F : bflags) (l : list (bytes * nat)) : list (bytes * nat) :=
  if bf_keys F then filter (fun p => negb (beqb (fst p) [])) l else [].
Lemma lookups_app : forall F l1 l2, lookups F (l1 ++ l2) = lookups F l1 ++ lookups F l2.
Proof. intros F l1 l2. unfold lookups. destruct (bf_keys F); [apply filter_app|reflexivity]. Qed.

(** The keys [l] in their blocks may be written. *)
Definition alive (gone : list nat) (l : list (bytes * nat)) : Prop := forall p, In p l -> fst p <> [] -> ~ In (snd p) gone.
Definition fine (same : bytes -> bytes -> Prop) (F : bflags) (gone : list nat) (held l : list (bytes * nat)) : Prop :=
  alive gone l /\ may_look_up same gone held (lookups F l).
Definition texts (l : list (bytes * nat)) : Prop := Forall (fun p => fst p <> [] -> text (snd p) = fst p) l.
Lemma fine_app : forall same F gone l1 l2 held, fine same F gone held (l1 ++ l2) <->
  fine same F gone held l1 /\ fine same F gone (fold_left hold (lookups F l1) held) l2.
Proof.
  intros same F gone l1 l2 held. unfold fine. rewrite lookups_app, may_app.
  assert (alive gone (l1 ++ l2) <-> alive gone l1 /\ alive gone l2).
  { unfold alive. split.
    - intros H. split; intros p I; apply H; apply in_or_app; auto.
    - intros [H1 H2] p I. apply in_app_or in I. destruct I; auto. }
  tauto.
Qed.

Definition relates (F : bflags) (gone : list nat) (held : list (bytes * nat)) (l : list (bytes * nat)) (rest : list nat)
  (out : bytes * wstate) (r : option (bytes * kstate * list nat)) : Prop :=
  match r with
  | Some (o, kst', bs) => bs = rest /\ fst out = o /\ agree (fold_left hold (lookups F l) held) (snd out) kst' /\ fine eq F gone held l
  | None => ~ fine same_hash F gone held l
  end.

Lemma key_ok : forall gone F k b held st kst, agree held st kst -> texts [(k, b)] ->
  match write_key_view text gone F k b kst with
  | Some (o, kst') => fst (write_key F k st) = o /\ agree (fold_left hold (lookups F [(k, b)]) held) (snd (write_key F k st)) kst' /\ fine eq F gone held [(k, b)]
  | None => ~ fine same_hash F gone held [(k, b)]
  end.
Proof.
  intros gone F k b held st kst A T. unfold write_key_view, write_key. apply Forall_inv in T. cbn [fst snd] in T.
  destruct k as [|c k].
  - assert (El : lookups F [([], b)] = []) by (unfold lookups; destruct (bf_keys F); reflexivity).
    unfold fine. rewrite El. cbn [fst snd fold_left may_look_up]. split; [reflexivity|]. split; [exact A|]. split; [|exact Logic.I].
    intros p [<-|[]] C. destruct (C eq_refl).
  - assert (Tb : text b = c :: k) by (apply T; discriminate). clear T.
    destruct (bf_keys F) eqn:Bk.
    + assert (El : lookups F [(c :: k, b)] = [(text b, b)]) by (unfold lookups; rewrite Bk, Tb; reflexivity).
      unfold fine. rewrite El. pose proof (lookup_ok gone held st kst b A) as Q.
      destruct (try_compress_view text gone kst b) as [[[n|] kst']|].
      * destruct Q as [st' [E [A' M]]]. rewrite Tb in E. rewrite E. cbn [fst snd fold_left]. split; [reflexivity|]. split; [exact A'|]. split; [|exact M].
        intros p [<-|[]] _. cbn [snd]. apply M.
      * destruct Q as [st' [E [A' M]]]. rewrite Tb in E. rewrite E. cbn [fst snd fold_left]. split; [reflexivity|]. split; [exact A'|]. split; [|exact M].
        intros p [<-|[]] _. cbn [snd]. apply M.
      * intros [_ M]. exact (Q M).
    + assert (El : lookups F [(c :: k, b)] = []) by (unfold lookups; rewrite Bk; reflexivity).
      unfold fine. rewrite El. destruct (existsb (Nat.eqb b) gone) eqn:G.
      * apply gone_in in G. intros [Al _]. apply (Al (c :: k, b) (or_introl eq_refl)); [discriminate|exact G].
      * apply gone_out in G. cbn [fst snd fold_left may_look_up]. split; [reflexivity|]. split; [exact A|]. split; [|exact Logic.I].
        intros p [<-|[]] _. exact G.
Qed.

Definition item_keys (l : list member) : list bytes := flat_map (fun x => fst x :: keys_in (snd x)) l.
(** The loops over items, apart. *)
Fixpoint write_items (L : libm) (F : bflags) (l : list member) (st : wstate) : bytes * wstate :=
  match l with
  | [] => ([], st)
  | x :: l' =>
    let '(b, st') := write_item L F (fst x) (snd x) st in
    let '(b', st'') := write_items L F l' st' in (b ++ b', st'')
  end.
Fixpoint write_items_view (gone : list nat) (L : libm) (F : bflags) (l : list member) (st : kstate) (bs : list nat) : option (bytes * kstate * list nat) :=
  match l with
  | [] => Some ([], st, bs)
  | x :: l' =>
    match write_item_view text gone L F (fst x) (snd x) st bs with
    | None => None
    | Some (o, st', bs') =>
      match write_items_view gone L F l' st' bs' with
      | None => None
      | Some (o', st'', bs'') => Some (o ++ o', st'', bs'')
      end
    end
  end.

Lemma items_fix : forall L F l st, (fix items (l : list member) (st : wstate) {struct l} : bytes * wstate :=
           match l with
           | [] => ([], st)
           | x :: l' =>
             let '(b, st') := write_item L F (fst x) (snd x) st in
             let '(b', st'') := items l' st' in (b ++ b', st'')
           end) l st = write_items L F l st.
Proof.
  intros L F. induction l as [|x l IH]; intros st; cbn [write_items]; [reflexivity|].
  destruct (write_item L F (fst x) (snd x) st) as [o s1]. rewrite IH. reflexivity.
Qed.
Lemma items_view_fix : forall gone L F l st bs, (fix items (l : list member) (st : kstate) (bs : list nat) {struct l} : option (bytes * kstate * list nat) :=
       match l with
       | [] => Some ([], st, bs)
       | x :: l' =>
         match write_item_view text gone L F (fst x) (snd x) st bs with
         | None => None
         | Some (o, st', bs') =>
           match items l' st' bs' with
           | None => None
           | Some (o', st'', bs'') => Some (o ++ o', st'', bs'')
           end
         end
       end) l st bs = write_items_view gone L F l st bs.
Proof.
  intros gone L F. induction l as [|x l IH]; intros st bs; cbn [write_items_view]; [reflexivity|].
  destruct (write_item_view text gone L F (fst x) (snd x) st bs) as [[[o s1] b1]|]; [|reflexivity]. rewrite IH. reflexivity.
Qed.

Definition item_holds (gone : list nat) (L : libm) (F : bflags) (v : value) : Prop :=
  forall k bs rest held st kst, agree held st kst -> length bs = S (length (keys_in v)) ->
  texts (combine (k :: keys_in v) bs) ->
  relates F gone held (combine (k :: keys_in v) bs) rest (write_item L F k v st) (write_item_view text gone L F k v kst (bs ++ rest)).

Lemma combine_split : forall (A B : Type) (a b : list A) (l : list B), length l = (length a + length b)%nat ->
  exists l1 l2, l = l1 ++ l2 /\ length l1 = length a /\ length l2 = length b /\ combine (a ++ b) l = combine a l1 ++ combine b l2.
Proof.
  intros A B a b l. revert l. induction a as [|x a IH]; intros l H.
  - exists [], l. auto.
  - destruct l as [|y l]; [discriminate|]. cbn [length Nat.add] in H. destruct (IH l ltac:(lia)) as [l1 [l2 [-> [H1 [H2 E]]]]].
    exists (y :: l1), l2. cbn [app combine length]. rewrite E. auto.
Qed.

Lemma items_ok : forall gone L F l, Forall (fun x => item_holds gone L F (snd x)) l ->
  forall bs rest held st kst, agree held st kst -> length bs = length (item_keys l) -> texts (combine (item_keys l) bs) ->
  relates F gone held (combine (item_keys l) bs) rest (write_items L F l st) (write_items_view gone L F l kst (bs ++ rest)).
Proof.
  intros gone L F l H. induction H as [|x l Hx _ IH]; intros bs rest held st kst A Hl T.
  - destruct bs; [|discriminate]. cbn [write_items_view write_items item_keys flat_map combine app relates].
    assert (El : lookups F [] = []) by (unfold lookups; destruct (bf_keys F); reflexivity). rewrite El. cbn [fold_left fst snd].
    split; [reflexivity|]. split; [reflexivity|]. split; [exact A|]. unfold fine. rewrite El. split; [intros p []|exact Logic.I].
  - change (item_keys (x :: l)) with ((fst x :: keys_in (snd x)) ++ item_keys l) in *.
    destruct (combine_split _ _ (fst x :: keys_in (snd x)) (item_keys l) bs) as [b1 [b2 [-> [H1 [H2 E]]]]]; [rewrite <- app_length; exact Hl|].
    rewrite E in T |- *.
    apply Forall_app in T. destruct T as [T1 T2]. cbn [write_items write_items_view]. rewrite <- app_assoc.
    pose proof (Hx (fst x) b1 (b2 ++ rest) held st kst A H1 T1) as Q.
    destruct (write_item_view text gone L F (fst x) (snd x) kst (b1 ++ b2 ++ rest)) as [[[o k1] r1]|]; cbn [relates] in Q |- *.
    + destruct Q as [-> [Eo [A1 F1]]]. destruct (write_item L F (fst x) (snd x) st) as [o1 s1]. cbn [fst snd] in *. subst o1.
      pose proof (IH b2 rest _ _ _ A1 H2 T2) as Q.
      destruct (write_items_view gone L F l k1 (b2 ++ rest)) as [[[o2 k2] r2]|]; cbn [relates] in Q |- *.
      * destruct Q as [-> [Eo [A2 F2]]]. destruct (write_items L F l s1) as [o3 s3]. cbn [fst snd] in *. subst o3.
        split; [reflexivity|]. split; [reflexivity|]. rewrite lookups_app, fold_left_app. split; [exact A2|]. apply fine_app. split; assumption.
      * intros C. apply fine_app in C. apply Q. apply C.
    + intros C. apply fine_app in C. apply Q. apply C.
Qed.

Lemma fold_none : forall F gone held, fine eq F gone held [] /\ fold_left hold (lookups F []) held = held.
Proof.
  intros F gone held. unfold fine, lookups. destruct (bf_keys F); cbn; (split; [split; [intros p []|exact Logic.I]|reflexivity]).
Qed.

Lemma item_ok : forall gone L F v, item_holds gone L F v.
Proof.
  intros gone L F v.
  assert (Leaf : forall k b rest held st kst out, agree held st kst -> texts [(k, b)] ->
    relates F gone held [(k, b)] rest (let '(kb, st1) := write_key F k st in (kb ++ out, st1))
      (match write_key_view text gone F k b kst with None => None | Some (kb, st1) => Some (kb ++ out, st1, rest) end)).
  { intros k b rest held st kst out A T. pose proof (key_ok gone F k b held st kst A T) as Q.
    destruct (write_key_view text gone F k b kst) as [[o k1]|]; [|exact Q]. destruct Q as [E [A1 F1]].
    destruct (write_key F k st) as [o1 s1]. cbn [fst snd] in *. subst o1. cbn [relates fst snd]. auto. }
  assert (Node : forall l tag k bs rest held st kst, Forall (fun x => item_holds gone L F (snd x)) l -> agree held st kst ->
    length bs = S (length (item_keys l)) -> texts (combine (k :: item_keys l) bs) ->
    relates F gone held (combine (k :: item_keys l) bs) rest
      (let '(kb, st1) := write_key F k st in let '(o, st2) := write_items L F l st1 in (kb ++ tag ++ o, st2))
      (match write_key_view text gone F k (hd O (bs ++ rest)) kst with
       | None => None
       | Some (kb, st1) => match write_items_view gone L F l st1 (tl (bs ++ rest)) with
         | Some (o, st2, bs') => Some (kb ++ tag ++ o, st2, bs') | None => None end end)).
  { intros l tag k bs rest held st kst Hl A Hn T. destruct bs as [|b bs]; [discriminate|]. cbn [app hd tl combine] in *.
    change ((k, b) :: combine (item_keys l) bs) with ([(k, b)] ++ combine (item_keys l) bs) in *.
    apply Forall_app in T. destruct T as [T1 T2].
    pose proof (key_ok gone F k b held st kst A T1) as Q.
    destruct (write_key_view text gone F k b kst) as [[o k1]|].
    - destruct Q as [E [A1 F1]]. destruct (write_key F k st) as [o1 s1]. cbn [fst snd] in *. subst o1.
      pose proof (items_ok gone L F l Hl bs rest _ _ _ A1 ltac:(cbn [length] in Hn; lia) T2) as Q.
      destruct (write_items_view gone L F l k1 (bs ++ rest)) as [[[o2 k2] r2]|]; cbn [relates] in Q |- *.
      + destruct Q as [-> [E [A2 F2]]]. destruct (write_items L F l s1) as [o3 s3]. cbn [fst snd] in *. subst o3.
        split; [reflexivity|]. split; [reflexivity|]. rewrite lookups_app, fold_left_app. split; [exact A2|]. apply fine_app. split; assumption.
      + intros C. apply fine_app in C. apply Q. apply C.
    - cbn [relates]. intros C. apply fine_app in C. apply Q. apply C. }
  induction v as [| |b|n|e s|l IH|d l IH] using value_ind'; intros k bs rest held st kst A Hn T.
  1-5: destruct bs as [|b0 [|b1 bs]]; try discriminate; cbn [keys_in combine] in *.
  - exact (Leaf k b0 rest held st kst [op_undefined] A T).
  - exact (Leaf k b0 rest held st kst [op_null] A T).
  - exact (Leaf k b0 rest held st kst [if b then op_true else op_false] A T).
  - exact (Leaf k b0 rest held st kst (write_number L F n) A T).
  - destruct e as [e|]; [exact (Leaf k b0 rest held st kst (write_string_bin F s op_binstring) A T)|exact (Leaf k b0 rest held st kst (write_string_bin F s op_string) A T)].
  - pose proof (Node l (write_integer F (Z.of_nat (length l)) op_array) k bs rest held st kst IH A Hn T) as Q.
    cbn [write_item write_item_view keys_in]. fold (item_keys l).
    destruct (write_key F k st) as [kb s1]. rewrite items_fix.
    destruct (write_items L F l s1) as [o s2].
    destruct (write_key_view text gone F k (hd O (bs ++ rest)) kst) as [[kb' k1]|]; [|exact Q].
    rewrite items_view_fix. exact Q.
  - pose proof (Node l (write_integer F (Z.of_nat (length l)) op_object) k bs rest held st kst IH A Hn T) as Q.
    cbn [write_item write_item_view keys_in]. fold (item_keys l).
    destruct (write_key F k st) as [kb s1]. rewrite items_fix.
    destruct (write_items L F l s1) as [o s2].
    destruct (write_key_view text gone F k (hd O (bs ++ rest)) kst) as [[kb' k1]|]; [|exact Q].
    rewrite items_view_fix. exact Q.
Qed.

(** *** Programs *)
Lemma views_gen : forall L F ops gone held st kst, agree held st kst -> Forall (lies text) ops ->
  match write_views text L F gone kst ops with
  | Some o => o = fst (write_session L F (plain_ops text ops) st) /\ no_dangling eq text F gone held ops
  | None => ~ no_dangling same_hash text F gone held ops
  end.
Proof.
  intros L F. induction ops as [|[m bs|b| |b] ops IH]; intros gone held st kst A H; cbn [write_views plain_ops write_session no_dangling].
  - auto.
  - apply Forall_cons_iff in H. destruct H as [[Hn T] H].
    pose proof (item_ok gone L F (snd m) (fst m) bs [] held st kst A Hn T) as Q. rewrite app_nil_r in Q.
    destruct (write_item_view text gone L F (fst m) (snd m) kst bs) as [[[o k1] r1]|]; cbn [relates] in Q.
    + destruct Q as [_ [E [A1 F1]]]. destruct (write_item L F (fst m) (snd m) st) as [o1 s1]. cbn [fst snd] in *. subst o1.
      pose proof (IH gone _ _ _ A1 H) as Q.
      destruct (write_views text L F gone k1 ops) as [o2|].
      * destruct Q as [-> Q]. destruct (write_session L F (plain_ops text ops) s1) as [o3 s3]. cbn [fst].
        split; [reflexivity|]. destruct F1 as [Fa Fb]. split; [exact Fa|]. split; [exact Fb|exact Q].
      * intros [_ [_ C]]. exact (Q C).
    + intros [Ca [Cb _]]. apply Q. split; assumption.
  - apply Forall_cons_iff in H. destruct H as [_ H]. pose proof (lookup_ok gone held st kst b A) as Q.
    destruct (try_compress_view text gone kst b) as [[c k1]|].
    + destruct Q as [s1 [E [A1 M]]]. unfold preload_writer. rewrite E. cbn [snd].
      pose proof (IH gone _ _ _ A1 H) as Q. destruct (write_views text L F gone k1 ops) as [o2|].
      * destruct Q as [-> Q]. auto.
      * intros [_ C]. exact (Q C).
    + intros [C _]. exact (Q C).
  - apply Forall_cons_iff in H. destruct H as [_ H]. exact (IH gone [] ws_init ks_init agree_init H).
  - apply Forall_cons_iff in H. destruct H as [_ H]. exact (IH (b :: gone) held st kst A H).
Qed.

(** The rule. *)
Lemma hold_in : forall held p q, In q (hold held p) -> q = p \/ In q held.
Proof. intros held p q. unfold hold. destruct (existsb _ held); cbn [In]; intuition. Qed.
Lemma hold_keeps : forall held p q, In q held -> In q (hold held p).
Proof. intros held p q I. unfold hold. destruct (existsb _ held); [exact I|right; exact I]. Qed.
Lemma folded_in : forall l held q, In q (fold_left hold l held) -> In q l \/ In q held.
Proof.
  induction l as [|p l IH]; intros held q I; cbn [fold_left In] in *; [auto|]. apply IH in I. destruct I as [I|I]; [auto|].
  apply hold_in in I. destruct I as [->|I]; auto.
Qed.
Lemma looked_in : forall F m bs p, In p (looked_up F m bs) -> In p (placed m bs) /\ fst p <> [].
Proof.
  intros F m bs p I. unfold looked_up in I. destruct (bf_keys F); [|destruct I]. apply filter_In in I. destruct I as [I B].
  split; [exact I|]. destruct (beqb (fst p) []) eqn:E; [discriminate|]. apply beqb_neq in E. exact E.
Qed.
Lemma may_alive : forall same gone l held, (forall p, In p l -> ~ In (snd p) gone) -> (forall p, In p held -> ~ In (snd p) gone) ->
  may_look_up same gone held l.
Proof.
  induction l as [|p l IH]; intros held Hl Hh; cbn [may_look_up]; [exact Logic.I|].
  split; [apply Hl; left; reflexivity|]. split.
  - intros k' b' I _. exact (Hh (k', b') I).
  - apply IH; [intros q I; apply Hl; right; exact I|]. intros q I. apply hold_in in I.
    destruct I as [->|I]; [apply Hl; left; reflexivity|apply Hh; exact I].
Qed.
Lemma kept_fine : forall same F ops gone used held, (forall p, In p held -> In (snd p) used) -> (forall b, In b used -> ~ In b gone) ->
  kept gone used ops -> no_dangling same text F gone held ops.
Proof.
  intros same F. induction ops as [|[m bs|b| |b] ops IH]; intros gone used held Hh Hu K; cbn [kept no_dangling] in *.
  - exact Logic.I.
  - destruct K as [Ka K].
    assert (Pl : forall p, In p (placed m bs) -> In (snd p) bs) by (intros [k0 b0] I; apply in_combine_r in I; exact I).
    split; [intros p I _; apply Ka, Pl, I|]. split.
    + apply may_alive.
      * intros p I. apply looked_in in I. apply Ka, Pl, I.
      * intros p I. apply Hu, Hh, I.
    + apply (IH gone (bs ++ used)); [|intros b I; apply in_app_or in I; destruct I; auto|exact K].
      intros p I. apply in_or_app. apply folded_in in I. destruct I as [I|I]; [left; apply looked_in in I; apply Pl, I|right; apply Hh, I].
  - destruct K as [Kb K]. split.
    + apply may_alive; [intros p [<-|[]]; exact Kb|intros p I; apply Hu, Hh, I].
    + apply (IH gone (b :: used)); [|intros b' [<-|I]; auto|exact K]. intros p I. apply hold_in in I. destruct I as [->|I]; [left; reflexivity|right; apply Hh, I].
  - apply (IH gone []); [intros p []|intros b []|exact K].
  - destruct K as [Kb K]. apply (IH (b :: gone) used); [exact Hh| |exact K]. intros b' I [<-|C]; [exact (Kb I)|exact (Hu b' I C)].
Qed.

(** Without compressed keys. *)
Lemma plain_fine : forall same F ops gone held, bf_keys F = false -> sends_alive gone ops -> no_dangling same text F gone held ops.
Proof.
  intros same F ops. induction ops as [|[m bs|b| |b] ops IH]; intros gone held B S; cbn [sends_alive no_dangling] in *.
  - exact Logic.I.
  - destruct S as [Sa S]. split; [exact Sa|]. unfold looked_up. rewrite B. split; [exact Logic.I|]. apply IH; assumption.
  - destruct S.
  - apply IH; assumption.
  - apply IH; assumption.
Qed.

(** Without collisions. *)
Lemma may_same : forall gone (K : list bytes) l held, (forall a b, In a K -> In b K -> same_hash a b -> a = b) ->
  (forall p, In p l -> In (fst p) K) -> (forall p, In p held -> In (fst p) K) ->
  may_look_up eq gone held l -> may_look_up same_hash gone held l.
Proof.
  intros gone K. induction l as [|p l IH]; intros held HK Hl Hh M; cbn [may_look_up] in *; [exact Logic.I|].
  destruct M as [Ma [Mb M]]. split; [exact Ma|]. split.
  - intros k' b' I E. apply (Mb k' b' I). apply HK; [exact (Hh (k', b') I)|apply Hl; left; reflexivity|exact E].
  - apply IH; [exact HK|intros q I; apply Hl; right; exact I| |exact M].
    intros q I. apply hold_in in I. destruct I as [->|I]; [apply Hl; left; reflexivity|apply Hh; exact I].
Qed.
Lemma fine_same : forall F (K : list bytes) ops gone held, (forall a b, In a K -> In b K -> same_hash a b -> a = b) ->
  (forall k, In k (met text ops) -> In k K) -> (forall p, In p held -> In (fst p) K) ->
  no_dangling eq text F gone held ops -> no_dangling same_hash text F gone held ops.
Proof.
  intros F K. induction ops as [|[m bs|b| |b] ops IH]; intros gone held HK Hm Hh N; cbn [no_dangling met] in *.
  - exact Logic.I.
  - destruct N as [Na [Nb N]].
    assert (Hp : forall p, In p (looked_up F m bs) -> In (fst p) K).
    { intros p I. apply Hm, in_or_app. left. apply in_map. apply looked_in in I. apply I. }
    split; [exact Na|]. split; [apply may_same with (K := K); assumption|].
    apply IH; [exact HK|intros k I; apply Hm, in_or_app; right; exact I| |exact N].
    intros p I. apply folded_in in I. destruct I as [I|I]; [apply Hp, I|apply Hh, I].
  - destruct N as [Na N].
    assert (Hb : In (text b) K) by (apply Hm; left; reflexivity). split.
    + apply may_same with (K := K); [exact HK| |exact Hh|exact Na]. intros p [<-|[]]. exact Hb.
    + apply IH; [exact HK|intros k I; apply Hm; right; exact I| |exact N].
      intros p I. apply hold_in in I. destruct I as [->|I]; [exact Hb|apply Hh, I].
  - apply IH; [exact HK|exact Hm|intros p []|exact N].
  - apply IH; assumption.
Qed.

(** A key met again after its first block was released. *)
Lemma dangling_app : forall same F a b gone held, no_dangling same text F gone held (a ++ b) ->
  exists gone', no_dangling same text F gone' (held_after text F held a) b.
Proof.
  intros same F. induction a as [|[m bs|c| |c] a IH]; intros b gone held N; cbn [app no_dangling held_after] in *.
  - exists gone. exact N.
  - apply (IH b gone). apply N.
  - apply (IH b gone). apply N.
  - apply (IH b gone). apply N.
  - apply (IH b (c :: gone)). apply N.
Qed.
Lemma may_hit : forall gone l held k b, may_look_up eq gone held l -> In (k, b) held -> In b gone -> ~ In k (map fst l).
Proof.
  intros gone. induction l as [|p l IH]; intros held k b M Ih Ig I; cbn [may_look_up map In] in *; [exact I|].
  destruct M as [_ [Mb M]]. destruct I as [E|I]; [exact (Mb k b Ih (eq_sym E) Ig)|].
  apply (IH _ k b M (hold_keeps held p (k, b) Ih) Ig I).
Qed.
End Views.

Lemma fst_combine : forall (A B : Type) (a : list A) (b : list B), length a = length b -> map fst (combine a b) = a.
Proof.
  induction a as [|x a IH]; intros [|y b] H; try discriminate; [reflexivity|]. cbn [combine map fst]. f_equal. apply IH. cbn in H. lia.
Qed.

Lemma views_kept : forall text L F ops, Forall (lies text) ops -> kept [] [] ops ->
  write_views text L F [] ks_init ops = Some (fst (write_session L F (plain_ops text ops) ws_init)).
Proof.
  intros text L F ops Hl K. pose proof (views_gen text L F ops [] [] ws_init ks_init (agree_init text) Hl) as Q.
  destruct (write_views text L F [] ks_init ops) as [o|].
  - destruct Q as [-> _]. reflexivity.
  - destruct Q. apply (kept_fine text same_hash F ops [] [] []); [intros p []|intros b []|exact K].
Qed.
Lemma views_exact : forall text L F ops, Forall (lies text) ops ->
  (forall a b, In a (met text ops) -> In b (met text ops) -> key_hash a = key_hash b -> a = b) ->
  (write_views text L F [] ks_init ops = Some (fst (write_session L F (plain_ops text ops) ws_init)) <-> no_dangling eq text F [] [] ops) /\
  (write_views text L F [] ks_init ops = None <-> ~ no_dangling eq text F [] [] ops).
Proof.
  intros text L F ops Hl HK. pose proof (views_gen text L F ops [] [] ws_init ks_init (agree_init text) Hl) as Q.
  destruct (write_views text L F [] ks_init ops) as [o|].
  - destruct Q as [-> N]. split; split; try tauto; try discriminate.
  - assert (C : ~ no_dangling eq text F [] [] ops).
    { intros C. apply Q. apply (fine_same text F (met text ops)); [exact HK|auto|intros p []|exact C]. }
    split; split; try tauto; discriminate.
Qed.
Lemma views_plain : forall text L F ops, Forall (lies text) ops -> bf_keys F = false -> sends_alive [] ops ->
  write_views text L F [] ks_init ops = Some (fst (write_session L F (plain_ops text ops) ws_init)).
Proof.
  intros text L F ops Hl B S. pose proof (views_gen text L F ops [] [] ws_init ks_init (agree_init text) Hl) as Q.
  destruct (write_views text L F [] ks_init ops) as [o|].
  - destruct Q as [-> _]. reflexivity.
  - destruct Q. apply plain_fine; assumption.
Qed.
Lemma views_again : forall text L F ops k b m bs rest, Forall (lies text) (ops ++ KFree b :: KSend m bs :: rest) ->
  bf_keys F = true -> In (k, b) (held_after text F [] ops) -> In k (fst m :: keys_in (snd m)) -> k <> [] ->
  write_views text L F [] ks_init (ops ++ KFree b :: KSend m bs :: rest) = None.
Proof.
  intros text L F ops k b m bs rest Hl B Ih Ik Ne.
  pose proof (views_gen text L F _ [] [] ws_init ks_init (agree_init text) Hl) as Q.
  destruct (write_views text L F [] ks_init _) as [o|]; [|reflexivity]. exfalso. destruct Q as [_ N].
  apply dangling_app in N. destruct N as [gone [_ [M _]]].
  apply (may_hit (b :: gone) _ _ k b M Ih (or_introl eq_refl)).
  unfold looked_up. rewrite B.
  apply Forall_app in Hl. destruct Hl as [_ Hl]. apply Forall_inv_tail, Forall_inv in Hl. destruct Hl as [Hn _].
  rewrite <- (fst_combine _ _ (fst m :: keys_in (snd m)) bs) in Ik by (cbn [length]; lia).
  apply in_map_iff in Ik. destruct Ik as [p [E I]]. rewrite <- E. apply in_map. apply filter_In. split; [exact I|].
  rewrite E. destruct (beqb k []) eqn:X; [apply beqb_eq in X; congruence|reflexivity].
Qed.

Lemma views_read : forall J text L F pe ops rest, (forall n, is_bytes (J n)) -> Forall (lies text) ops -> kept [] [] ops ->
  Forall (fun m => bin_text F (fst m) /\ bin_ok L F (snd m)) (sent (plain_ops text ops)) -> fresh_preloads [] (plain_ops text ops) ->
  session_keys (plain_ops text ops) < 2 ^ 32 - 256 ->
  exists o p', write_views text L F [] ks_init ops = Some o /\
    read_session J (Some pe) (plain_ops text ops) (ps_init (o ++ rest)) =
      Ok (map (fun m => (fst m, decoded L F pe (snd m))) (sent (plain_ops text ops)), p') /\ ps_in p' = rest.
Proof.
  intros J text L F pe ops rest HJ Hl K Hok Hf Hn. destruct (session_ok J L F pe (plain_ops text ops) rest HJ Hok Hf Hn) as [p' [E R]].
  eexists. exists p'. split; [apply views_kept; assumption|]. split; [exact E|exact R].
Qed.
