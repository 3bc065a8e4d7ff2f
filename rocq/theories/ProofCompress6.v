(** A compressor used again after [reset]. *)
From Coq Require Import Lia ZifyBool.
From Verif Require Import Base ModelCompress SpecCompress ProofCompress ProofCompress2 ProofCompress4 ProofCompress5.
Local Open Scope Z_scope.
Local Open Scope list_scope.

(** What of the dictionary shows in the output. *)
Definition shown (db : seq_db) : list (seq_key * Z) := map (fun e => (fst e, si_next (snd e))) db.
Lemma shown_find : forall k db db', shown db = shown db' ->
  match db_find k db, db_find k db' with
  | None, None => True
  | Some i, Some i' => si_next i = si_next i'
  | _, _ => False
  end.
Proof.
  intros k. induction db as [|[k1 i1] db IH]; intros [|[k2 i2] db'] H; try discriminate H; [exact I|].
  cbn [shown map fst snd] in H. injection H as K N R. subst k2. cbn [db_find]. destruct (key_eqb k k1); [exact N|]. apply IH, R.
Qed.
Lemma shown_insert : forall k i i' db db', shown db = shown db' -> si_next i = si_next i' -> shown (db_insert k i db) = shown (db_insert k i' db').
Proof.
  intros k i i' db db' H N. unfold db_insert. pose proof (shown_find k _ _ H) as F. destruct (db_find k db), (db_find k db'); try tauto.
  unfold shown in *. rewrite !map_app, H. cbn. rewrite N. reflexivity.
Qed.
Lemma shown_set : forall k i i0 db, db_find k db = Some i0 -> si_next i = si_next i0 -> shown (db_set k i db) = shown db.
Proof.
  intros k i i0. induction db as [|[k1 i1] db IH]; intros F N; [discriminate|]. cbn [db_find db_set] in *. destruct (key_eqb k k1).
  - injection F as F. subst i1. cbn. rewrite N. reflexivity.
  - cbn [shown map fst snd]. f_equal. apply IH; assumption.
Qed.
Lemma set_in : forall k i db k1 i1, In (k1, i1) (db_set k i db) -> i1 = i \/ In (k1, i1) db.
Proof.
  intros k i. induction db as [|[k2 i2] db IH]; intros k1 i1 H; [destruct H|]. cbn [db_set] in H. destruct (key_eqb k k2); destruct H as [H|H].
  - injection H as _ H. left. symmetry. exact H.
  - right. right. exact H.
  - right. left. exact H.
  - destruct (IH _ _ H) as [A|A]; [left; exact A|right; right; exact A].
Qed.
Lemma insert_in : forall k i db k1 i1, In (k1, i1) (db_insert k i db) -> i1 = i \/ In (k1, i1) db.
Proof.
  intros k i db k1 i1 H. unfold db_insert in H. destruct (db_find k db); [right; exact H|]. apply in_app_or in H. destruct H as [H|[H|[]]]; [right; exact H|].
  injection H as _ H. left. symmetry. exact H.
Qed.
Lemma find_in : forall k db i, db_find k db = Some i -> exists k', In (k', i) db.
Proof.
  intros k. induction db as [|[k1 i1] db IH]; intros i H; [discriminate|]. cbn [db_find] in H. destruct (key_eqb k k1).
  - injection H as H. subst. exists k1. left. reflexivity.
  - destruct (IH _ H) as (k' & A). exists k'. right. exact A.
Qed.

Section Mask.
Variable ext : Z.
Hypothesis M : mask ext.
Record like (s s' : cstate) : Prop := mkLike {
  lk_shown : shown (cs_db s) = shown (cs_db s'); lk_next : cs_next s = cs_next s'; lk_last : cs_last s = cs_last s'; lk_utf8 : cs_utf8 s = cs_utf8 s';
  lk_below : forall k i, In (k, i) (cs_db s) -> si_next i < cs_next s;
  lk_used : forall k i, In (k, i) (cs_db s') -> si_used i = true -> si_new i <> None;
  lk_new : cs_last s' = initial_code \/ cs_last_new s' <> None \/ max_code_opt ext <= cs_nnext s' }.
Lemma max_small : max_code ext < 2 ^ 31.
Proof. unfold max_code, flush_code. rewrite (mask_xor ext M). unfold mask in M. cbn [In] in M. lia. Qed.

Lemma like_sym : forall c s s' s1 o, like s s' -> 0 <= cs_next s <= max_code ext -> compress_sym ext c s = COk (s1, o) ->
  exists s1', compress_sym ext c s' = COk (s1', o) /\ like s1 s1' /\ 0 <= cs_next s1 <= cs_next s + 1.
Proof.
  intros c s s' s1 o K B E. destruct K as [Ks Kn Kl Ku Kb Kd Kw]. pose proof max_small as Mx. unfold compress_sym in *. destruct (first_code <=? c); [discriminate|].
  rewrite <- Kl, <- Kn, <- Ku. destruct (cs_last s =? initial_code) eqn:I.
  { injection E as E1 E2. subst s1 o. eexists. split; [reflexivity|]. split; [|cbn; lia]. constructor; cbn [cs_db cs_next cs_last cs_utf8 cs_last_new cs_nnext]; try assumption; try reflexivity. right. left. discriminate. }
  pose proof (shown_find (cs_last s, c) _ _ Ks) as F. destruct (db_find (cs_last s, c) (cs_db s)) as [i|] eqn:Fi; destruct (db_find (cs_last s, c) (cs_db s')) as [i'|] eqn:Fi'; try tauto.
  - destruct (find_in _ _ _ Fi) as (k0 & I0). pose proof (Kb _ _ I0) as B0. rewrite <- F. replace (max_code ext <=? si_next i) with false in * by lia.
    assert (L' : forall n i2 ndb nn, si_next i2 = si_next i -> (si_used i2 = true -> si_new i2 <> None) -> n <> None \/ max_code_opt ext <= nn ->
              forall db1 n1 ndb1 nn1, shown db1 = shown (cs_db s) -> (forall k j, In (k, j) db1 -> si_next j < cs_next s) ->
              like (mkCS db1 (cs_next s) (si_next i) n1 (cs_utf8 s) ndb1 nn1) (mkCS (db_set (cs_last s, c) i2 (cs_db s')) (cs_next s) (si_next i2) n (cs_utf8 s) ndb nn)).
    { intros n i2 ndb nn N2 U2 W db1 n1 ndb1 nn1 S1 B1. constructor; cbn [cs_db cs_next cs_last cs_utf8 cs_last_new cs_nnext]; try reflexivity; try assumption.
      - rewrite (shown_set _ _ i' _ Fi') by lia. rewrite S1. exact Ks.
      - symmetry. exact N2.
      - intros k j J Uj. destruct (set_in _ _ _ _ _ J) as [->|J']; [apply U2, Uj|apply (Kd _ _ J' Uj)].
      - right. exact W. }
    assert (L0 : like (mkCS (cs_db s) (cs_next s) (si_next i) (si_new i) (cs_utf8 s) (cs_ndb s) (cs_nnext s)) (mkCS (cs_db s') (cs_next s) (si_next i) (si_new i') (cs_utf8 s) (cs_ndb s') (cs_nnext s')) \/ si_used i' = false).
    { destruct (si_used i') eqn:U'; [left|right; reflexivity]. destruct (find_in _ _ _ Fi') as (k1 & I1). constructor; cbn [cs_db cs_next cs_last cs_utf8 cs_last_new cs_nnext]; try reflexivity; try assumption. right. left. apply (Kd _ _ I1 U'). }
    (* whatever the first compressor does, it shows nothing *)
    assert (G : exists db1 n1 ndb1 nn1, s1 = mkCS db1 (cs_next s) (si_next i) n1 (cs_utf8 s) ndb1 nn1 /\ o = [] /\ shown db1 = shown (cs_db s) /\ (forall k j, In (k, j) db1 -> si_next j < cs_next s)).
    { destruct (si_used i).
      - injection E as E1 E2. subst s1 o. do 4 eexists. split; [reflexivity|]. split; [reflexivity|]. split; [reflexivity|exact Kb].
      - unfold add_code in E. assert (Hset : forall i2, si_next i2 = si_next i -> shown (db_set (cs_last s, c) i2 (cs_db s)) = shown (cs_db s) /\ (forall k j, In (k, j) (db_set (cs_last s, c) i2 (cs_db s)) -> si_next j < cs_next s)).
        { intros i2 N2. split; [apply (shown_set _ _ _ _ Fi N2)|]. intros k j J. destruct (set_in _ _ _ _ _ J) as [->|J']; [rewrite N2; exact B0|apply (Kb _ _ J')]. }
        destruct (cs_nnext s <? max_code_opt ext).
        + destruct (cs_last_new s); [|discriminate]. cbn [cbind] in E. injection E as E1 E2. subst s1 o. do 4 eexists. split; [reflexivity|]. split; [reflexivity|]. apply Hset. reflexivity.
        + cbn [cbind] in E. injection E as E1 E2. subst s1 o. do 4 eexists. split; [reflexivity|]. split; [reflexivity|]. apply Hset. reflexivity. }
    clear E. destruct G as (db1 & n1 & ndb1 & nn1 & -> & -> & S1 & B1). destruct (si_used i') eqn:U'.
    + eexists. split; [reflexivity|]. split; [|cbn; lia]. destruct (find_in _ _ _ Fi') as (k1 & I1). constructor; cbn [cs_db cs_next cs_last cs_utf8 cs_last_new cs_nnext]; try reflexivity; try assumption.
      * rewrite S1. exact Ks.
      * right. left. apply (Kd _ _ I1 U').
    + unfold add_code. destruct (cs_nnext s' <? max_code_opt ext) eqn:Nm.
      * destruct (cs_last_new s') as [n'|] eqn:Ln.
        -- cbn [cbind]. eexists. split; [reflexivity|]. split; [|cbn; lia]. apply L'; cbn; try assumption; try (symmetry; exact F); [intros _; discriminate|left; discriminate].
        -- exfalso. rewrite <- Kl in Kw. destruct Kw as [W|[W|W]]; [rewrite W, Z.eqb_refl in I; discriminate|apply W; reflexivity|lia].
      * cbn [cbind]. eexists. split; [reflexivity|]. split; [|cbn; lia]. apply L'; try assumption; try (symmetry; exact F); [intros W; congruence|right; lia].
  - injection E as E1 E2. subst s1 o. eexists. split; [reflexivity|]. split.
    + constructor; cbn [cs_db cs_next cs_last cs_utf8 cs_last_new cs_nnext]; try reflexivity.
      * apply shown_insert; [exact Ks|reflexivity].
      * intros k j J. rewrite u32_small by lia. destruct (insert_in _ _ _ _ _ J) as [->|J']; [cbn; lia|pose proof (Kb _ _ J'); lia].
      * intros k j J Uj. destruct (insert_in _ _ _ _ _ J) as [->|J']; [discriminate Uj|apply (Kd _ _ J' Uj)].
      * right. left. discriminate.
    + cbn. rewrite u32_small by lia. lia.
Qed.

Lemma like_with : forall n s s', like s s' -> like (with_utf8 n s) (with_utf8 n s').
Proof. intros n s s' K. destruct K. constructor; cbn [with_utf8 cs_db cs_next cs_last cs_utf8 cs_last_new cs_nnext]; try assumption; reflexivity. Qed.
Lemma like_two : forall a b n s s' s1 o, like s s' -> 0 <= cs_next s -> cs_next s + 1 <= max_code ext -> compress_two ext a b n s = COk (s1, o) ->
  exists s1', compress_two ext a b n s' = COk (s1', o) /\ like s1 s1' /\ 0 <= cs_next s1 <= cs_next s + 2.
Proof.
  intros a b n s s' s1 o K B0 B E. unfold compress_two in *. destruct (compress_sym ext a s) as [[sa oa]| | |] eqn:Ea; try discriminate. cbn [cbind] in E.
  destruct (compress_sym ext b sa) as [[sb ob]| | |] eqn:Eb; try discriminate. cbn [cbind] in E. injection E as E1 E2. subst s1 o.
  destruct (like_sym a s s' sa oa K ltac:(lia) Ea) as (sa' & Ea' & Ka & Ba). destruct (like_sym b sa sa' sb ob Ka ltac:(lia) Eb) as (sb' & Eb' & Kb & Bb).
  rewrite Ea'. cbn [cbind]. rewrite Eb'. cbn [cbind]. eexists. split; [reflexivity|]. split; [apply like_with, Kb|]. cbn [with_utf8 cs_next]. lia.
Qed.
Lemma like_char : forall c s s' s1 o, like s s' -> 0 <= cs_next s -> cs_next s + 1 <= max_code ext -> compress_char ext c s = COk (s1, o) ->
  exists s1', compress_char ext c s' = COk (s1', o) /\ like s1 s1' /\ 0 <= cs_next s1 <= cs_next s + 2.
Proof.
  intros c s s' s1 o K B0 B E. unfold compress_char in *. rewrite <- (lk_utf8 _ _ K).
  assert (Sy : forall x a a', like a a' -> cs_next a = cs_next s -> compress_sym ext x a = COk (s1, o) -> exists s1', compress_sym ext x a' = COk (s1', o) /\ like s1 s1' /\ 0 <= cs_next s1 <= cs_next s + 2).
  { intros x a a' Ka Na Ex. destruct (like_sym x a a' s1 o Ka ltac:(lia) Ex) as (y & E1 & K1 & B1). exists y. split; [exact E1|]. split; [exact K1|lia]. }
  destruct (negb (cs_utf8 s =? 0)). { apply (Sy _ _ _ (like_with _ _ _ K)); [reflexivity|exact E]. }
  destruct (negb (Z.land c 128 =? 0)).
  { destruct (Z.land c 224 =? 192); [apply (like_two _ _ _ s s'); assumption|]. destruct (Z.land c 240 =? 224); [apply (like_two _ _ _ s s'); assumption|].
    destruct (Z.land c 248 =? 240); [apply (like_two _ _ _ s s'); assumption|]. destruct (Z.land c 252 =? 248); [apply (like_two _ _ _ s s'); assumption|discriminate]. }
  destruct (c <? 32); [discriminate|]. apply (Sy _ _ _ K); [reflexivity|exact E].
Qed.
Lemma like_text : forall t s s' s1 o, like s s' -> 0 <= cs_next s -> cs_next s + 2 * Z.of_nat (length t) <= max_code ext + 1 -> compress_text ext t s = COk (s1, o) ->
  exists s1', compress_text ext t s' = COk (s1', o) /\ like s1 s1'.
Proof.
  induction t as [|c t IH]; intros s s' s1 o K B0 B E.
  - cbn in *. injection E as E1 E2. subst. exists s'. split; [reflexivity|exact K].
  - cbn [compress_text] in *. cbn [length] in B. destruct (compress_char ext c s) as [[sa oa]| | |] eqn:Ea; try discriminate. cbn [cbind] in E.
    destruct (compress_text ext t sa) as [[sb ob]| | |] eqn:Eb; try discriminate. cbn [cbind] in E. injection E as E1 E2. subst s1 o.
    destruct (like_char c s s' sa oa K B0 ltac:(lia) Ea) as (sa' & Ea' & Ka & Ba). destruct (IH sa sa' sb ob Ka ltac:(lia) ltac:(lia) Eb) as (sb' & Eb' & Kb).
    rewrite Ea'. cbn [cbind]. rewrite Eb'. cbn [cbind]. exists sb'. split; [reflexivity|exact Kb].
Qed.
Lemma reset_short : forall s t o, cs_utf8 s = 0 -> 2 * Z.of_nat (length t) + 102 <= (255 - ext) * 256 + 253 + ext -> compress_all ext t = COk o ->
  exists s' o', compress_text ext t (c_reset s) = COk (s', o') /\ o' ++ compress_end ext s' = o.
Proof.
  intros s t o U L E. unfold compress_all in E. destruct (compress_text ext t c_init) as [[s1 o1]| | |] eqn:Et; try discriminate. cbn [cbind] in E. injection E as E. subst o.
  destruct (like_text t c_init (c_reset s) s1 o1) as (s' & E' & K); try exact Et.
  - constructor; try reflexivity; try (intros k i []); [cbn; symmetry; exact U|left; reflexivity].
  - cbn. unfold first_code. lia.
  - cbn [c_init cs_next]. unfold max_code, flush_code, first_code. rewrite (mask_xor ext M). lia.
  - exists s', o1. split; [exact E'|]. unfold compress_end. rewrite (lk_last _ _ K). reflexivity.
Qed.
End Mask.

Lemma used_whole : forall ext s, used ext s -> cs_utf8 s = 0.
Proof.
  intros ext s H. induction H as [|s t s' o _ IH P E|s _ IH]; [reflexivity| |exact IH].
  destruct (printable_coded t P) as (l & C). pose proof (coded_text ext t l [] s C IH) as T. rewrite app_nil_r, E in T.
  destruct (compress_syms ext l s) as [[s1 o1]| | |]; try discriminate. cbn in T. injection T as T _. subst s'. reflexivity.
Qed.
Lemma reset_again : forall ext, mask ext -> forall s t, used ext s -> printable t -> 2 * Z.of_nat (length t) + 102 <= (255 - ext) * 256 + 253 + ext ->
  exists s' o d, compress_text ext t (c_reset s) = COk (s', o) /\ compress_all ext t = COk (o ++ compress_end ext s') /\
    decompress_calls ext (S (length t)) d_init (o ++ compress_end ext s') = COk (t ++ [255], d, []).
Proof.
  intros ext M s t U P L. destruct (round_trip ext M t P) as (o & d & A & D). destruct (reset_short ext M s t o (used_whole ext s U) L A) as (s' & o' & E & X).
  exists s', o', d. rewrite X. split; [exact E|]. split; [exact A|exact D].
Qed.
Definition reset_fails (ext : Z) (t1 t2 : bytes) : bool :=
  match compress_text ext t1 c_init with
  | COk (s, _) =>
    match compress_text ext t2 (c_reset s) with
    | COk (s', o) => match decompress_calls ext (length t2) d_init (o ++ compress_end ext s') with CThrow => true | _ => false end
    | _ => false
    end
  | _ => false
  end.
Lemma reset_fails_spec : forall ext t1 t2, reset_fails ext t1 t2 = true -> exists s o1 s' o, compress_text ext t1 c_init = COk (s, o1) /\
  compress_text ext t2 (c_reset s) = COk (s', o) /\ decompress_calls ext (length t2) d_init (o ++ compress_end ext s') = CThrow.
Proof.
  intros ext t1 t2 H. unfold reset_fails in H. destruct (compress_text ext t1 c_init) as [[s o1]| | |] eqn:E1; try discriminate.
  destruct (compress_text ext t2 (c_reset s)) as [[s' o]| | |] eqn:E2; try discriminate.
  destruct (decompress_calls ext (length t2) d_init (o ++ compress_end ext s')) eqn:D; try discriminate.
  exists s, o1, s', o. split; [reflexivity|]. split; [exact E2|exact D].
Qed.
