(** A compressed text that was never closed. *)
From Coq Require Import Lia ZifyBool.
From Verif Require Import Base ModelCompress SpecCompress ModelKeyed ModelValue ModelText SpecUtf8 SpecText SpecDocs ProofCompress ProofCompress2 ProofCompress3 ProofCut.
Local Open Scope Z_scope.
Local Open Scope list_scope.

Section Mask.
Variable ext : Z.
Hypothesis M : mask ext.
Notation calls := (decompress_calls ext).

Lemma read_end : read_code ext [] = (flush_code ext, []).
Proof.
  pose proof (mask_all (fun e => (fst (read_code e []) =? flush_code e) && (match snd (read_code e []) with [] => true | _ => false end)) eq_refl ext M) as R. cbn beta in R.
  destruct (read_code ext []) as [x y]. cbn [fst snd] in R. destruct y; [f_equal; lia|]. rewrite andb_false_r in R. discriminate.
Qed.
Lemma one_end : forall s, ds_ready s = [] -> decompress_one ext s [] = COk (None, mkDS [] [] (ds_first s) initial_code (ds_ndb s) (ds_utf8 s), []).
Proof. intros s R. unfold decompress_one. cbn [length decompress_sym]. rewrite R, read_end, Z.eqb_refl. reflexivity. Qed.
Lemma char_end : forall s i s2, gives ext s i [] s2 [] -> ds_ready s2 = [] -> exists s', decompress_char ext s i = COk (255, s', []) /\ ds_ready s' = [].
Proof.
  intros s i s2 G R. pose proof (gives_end ext _ _ _ _ _ G (one_end s2 R)) as O. unfold decompress_char. rewrite O. cbn [cbind sym_byte].
  change (Z.lor 255 128) with 255. destruct (negb _); eexists; (split; [reflexivity|reflexivity]).
Qed.
Lemma calls_end : forall n s i s2, gives ext s i [] s2 [] -> ds_ready s2 = [] -> exists d i', calls n s i = COk (repeat 255 n, d, i').
Proof.
  induction n as [|n IH]; intros s i s2 G R; [exists s, i; reflexivity|].
  destruct (char_end s i s2 G R) as (s' & E & R'). destruct (IH s' [] s' (g_nil ext s' []) R') as (d & i' & C).
  exists d, i'. cbn [decompress_calls repeat]. rewrite E. cbn [cbind]. rewrite C. reflexivity.
Qed.

Lemma further_cut : forall bs n s i s2, Forall further bs -> Z.of_nat (length bs) <= ds_utf8 s -> gives ext s i (map (fun b => Z.land b 127) bs) s2 [] -> ds_ready s2 = [] ->
  exists d i', calls (length bs + n) s i = COk (bs ++ repeat 255 n, d, i').
Proof.
  induction bs as [|b bs IH]; intros n s i s2 F U G R; [apply (calls_end n s i s2 G R)|].
  inversion_clear F as [|? ? Fb Fs]. cbn [map] in G. destruct (gives_cons ext _ _ _ _ _ _ G) as (s1 & i1 & O & G1).
  pose proof (one_kept ext _ _ _ _ _ O) as K. cbn [length] in U.
  destruct (IH n (with_utf8' (ds_utf8 s1 - 1) s1) i1 (with_utf8' (ds_utf8 s1 - 1) s2) Fs) as (d & i' & C);
    [cbn [with_utf8' ds_utf8]; lia|apply gives_utf8; exact G1|exact R|].
  exists d, i'. cbn [length plus decompress_calls app]. unfold decompress_char. rewrite O. cbn [cbind].
  replace (ds_utf8 s1 =? 0) with false by lia. cbn [negb cbind sym_byte]. rewrite (proj2 (low7 b Fb)), C. reflexivity.
Qed.

Lemma app_prefix : forall (A : Type) (a b w l2 : list A), a ++ b = w ++ l2 -> (exists a2, a = w ++ a2) \/ (exists w2, w = a ++ w2 /\ b = w2 ++ l2).
Proof.
  induction a as [|x a IH]; intros b w l2 E; [right; exists w; auto|].
  destruct w as [|y w]; [left; exists (x :: a); reflexivity|]. cbn [app] in E. injection E as -> E.
  destruct (IH b w l2 E) as [[a2 ->]|(w2 & -> & ->)]; [left; exists a2; reflexivity|right; exists w2; auto].
Qed.

Lemma coded_cut : forall t l, coded t l -> forall w l2, l = w ++ l2 ->
  exists t1 t2, t = t1 ++ t2 /\ (l2 <> [] -> t2 <> []) /\ forall n s i s2, ds_utf8 s = 0 -> ds_utf8 s2 = 0 -> gives ext s i w s2 [] -> ds_ready s2 = [] ->
    exists d i', calls (length t1 + n) s i = COk (t1 ++ repeat 255 n, d, i').
Proof.
  intros t l H. induction H as [|b t l B _ IH|a bs t l p m L F Hc IH P Mm]; intros w l2 E.
  - symmetry in E. apply app_eq_nil in E as [-> ->]. exists [], []. split; [reflexivity|]. split; [auto|]. intros n s i s2 U U2 G R. apply (calls_end n s i s2 G R).
  - destruct w as [|c w].
    { exists [], (b :: t). split; [reflexivity|]. split; [discriminate|]. intros n s i s2 U U2 G R. apply (calls_end n s i s2 G R). }
    cbn [app] in E. injection E as <- E. destruct (IH w l2 E) as (t1 & t2 & -> & Ne & C). exists (b :: t1), t2. split; [reflexivity|]. split; [exact Ne|].
    intros n s i s2 U U2 G R. destruct (gives_cons ext _ _ _ _ _ _ G) as (s1 & i1 & O & G1).
    pose proof (one_kept ext _ _ _ _ _ O) as K. rewrite U in K.
    destruct (C n s1 i1 s2 K U2 G1 R) as (d & i' & Cn). exists d, i'. cbn [length plus decompress_calls app].
    unfold decompress_char. rewrite O. cbn [cbind]. rewrite K. cbn [Z.eqb negb].
    destruct (Z.eqb_spec (b - 26) 1); [lia|]. destruct (Z.eqb_spec (b - 26) 2); [lia|]. destruct (Z.eqb_spec (b - 26) 3); [lia|]. destruct (Z.eqb_spec (b - 26) 4); [lia|].
    cbn [cbind]. rewrite Cn. cbn [cbind]. replace (to_byte (b - 26 + code_shift)) with b by (unfold to_byte, code_shift; rewrite Z.mod_small; lia). reflexivity.
  - subst m. destruct w as [|c w].
    { exists [], (a :: bs ++ t). split; [reflexivity|]. split; [discriminate|]. intros n s i s2 U U2 G R. apply (calls_end n s i s2 G R). }
    cbn [app] in E. injection E as <- E.
    destruct w as [|c w].
    { exists [], (a :: bs ++ t). split; [reflexivity|]. split; [discriminate|]. intros [|n] s i s2 U U2 G R; [exists s, i; reflexivity|].
      destruct (gives_cons ext _ _ _ _ _ _ G) as (s1 & i1 & O & G1). pose proof (one_kept ext _ _ _ _ _ O) as K. rewrite U in K.
      pose proof (gives_utf8 ext (Z.of_nat (length bs)) _ _ _ _ _ G1) as G1'.
      assert (D : exists s', decompress_char ext s i = COk (255, s', []) /\ ds_ready s' = []).
      { unfold decompress_char. rewrite O. cbn [cbind]. rewrite K. cbn [Z.eqb negb].
        pose proof (gives_end ext _ _ _ _ _ G1' (one_end (with_utf8' (Z.of_nat (length bs)) s2) R)) as O2.
        destruct L as [[A N]|[[A N]|[[A N]|[A N]]]]; rewrite N in *; cbn [Z.of_nat Pos.of_succ_nat Pos.succ Z.eqb Pos.eqb] in *;
          rewrite O2; cbn [cbind sym_byte]; eexists; (split; [reflexivity|reflexivity]). }
      destruct D as (s' & D & R'). destruct (calls_end n s' [] s' (g_nil ext s' []) R') as (d & i' & C). exists d, i'.
      cbn [length plus app repeat decompress_calls]. rewrite D. cbn [cbind]. rewrite C. reflexivity. }
    cbn [app] in E. injection E as <- E.
    assert (Lead : forall s i s2, ds_utf8 s = 0 -> gives ext s i (Z.of_nat (length bs) :: p :: w) s2 [] ->
      exists s3 i4, decompress_char ext s i = COk (a, s3, i4) /\ ds_utf8 s3 = Z.of_nat (length bs) /\ gives ext s3 i4 w (with_utf8' (Z.of_nat (length bs)) s2) []).
    { intros s i s2 U G. destruct (gives_cons ext _ _ _ _ _ _ G) as (s1 & i1 & O & G1). pose proof (one_kept ext _ _ _ _ _ O) as K. rewrite U in K.
      pose proof (gives_utf8 ext (Z.of_nat (length bs)) _ _ _ _ _ G1) as G1'.
      destruct (gives_cons ext _ _ _ _ _ _ G1') as (s3 & i4 & O2 & G2). pose proof (one_kept ext _ _ _ _ _ O2) as K2. cbn [with_utf8' ds_utf8] in K2.
      exists s3, i4. split; [|split; [exact K2|exact G2]].
      unfold decompress_char. rewrite O. cbn [cbind]. rewrite K. cbn [Z.eqb negb]. pose proof (lead_pay a _ L) as [_ Lp].
      destruct L as [[A N]|[[A N]|[[A N]|[A N]]]]; rewrite N in *; cbn [Z.of_nat Pos.of_succ_nat Pos.succ Z.eqb Pos.eqb] in *; rewrite O2; cbn [cbind sym_byte]; subst p; unfold pay, top in Lp; rewrite Lp; reflexivity. }
    destruct (app_prefix _ _ _ _ _ E) as [[a2 Ea]|(w2 & -> & E2)].
    + assert (exists bs1 bs2, bs = bs1 ++ bs2 /\ w = map (fun b => Z.land b 127) bs1) as (bs1 & bs2 & Eb & Ew).
      { exists (firstn (length w) bs), (skipn (length w) bs). split; [symmetry; apply firstn_skipn|].
        rewrite <- firstn_map, Ea, firstn_app, Nat.sub_diag, firstn_all. cbn [firstn]. symmetry. apply app_nil_r. }
      exists (a :: bs1), (bs2 ++ t). split; [rewrite Eb, <- app_assoc; reflexivity|]. split.
      { intros Ne Z. apply app_eq_nil in Z as [Zb Zt]. subst bs2 t. rewrite app_nil_r in Eb. subst bs1. rewrite Ew in E. apply app_inv_head in E.
        assert (l = []) as El by (inversion Hc; reflexivity). rewrite El in E. exact (Ne (eq_sym E)). }
      intros n s i s2 U U2 G R.
      destruct (Lead s i s2 U G) as (s3 & i4 & D & K2 & G2).
      assert (Fb : Forall further bs1) by (rewrite Eb in F; apply Forall_app in F; tauto).
      destruct (further_cut bs1 n s3 i4 (with_utf8' (Z.of_nat (length bs)) s2) Fb) as (d & i' & C);
        [rewrite K2, Eb, app_length; lia|rewrite <- Ew; exact G2|exact R|].
      exists d, i'. cbn [length plus decompress_calls app]. rewrite D. cbn [cbind]. rewrite C. reflexivity.
    + destruct (IH w2 l2 E2) as (t1 & t2 & -> & Ne & C). exists (a :: bs ++ t1), t2. split; [cbn [app]; rewrite app_assoc; reflexivity|]. split; [exact Ne|].
      intros n s i s2 U U2 G R. destruct (Lead s i s2 U G) as (s3 & i4 & D & K2 & G2).
      destruct (d_further ext bs (length t1 + n) w2 s3 i4 _ _ F K2 G2) as (s5 & i5 & U5 & G5 & C5).
      change (with_utf8' 0 (with_utf8' (Z.of_nat (length bs)) s2)) with (with_utf8' 0 s2) in G5.
      destruct (C n s5 i5 (with_utf8' 0 s2) U5 eq_refl G5 R) as (d & i' & Cn).
      exists d, i'. cbn [length plus decompress_calls app]. rewrite D. cbn [cbind]. rewrite app_length, <- Nat.add_assoc, C5, Cn. cbn [cbind]. rewrite app_assoc. reflexivity.
Qed.
Lemma unclosed : forall t, printable t -> exists s o t1 t2, compress_text ext t c_init = COk (s, o) /\ t = t1 ++ t2 /\ (t <> [] -> t2 <> []) /\
  forall n, exists d i, calls (length t1 + n) d_init o = COk (t1 ++ repeat 255 n, d, i).
Proof.
  intros t H. destruct (printable_coded t H) as (l & C). pose proof (coded_text ext t l [] c_init C eq_refl) as T. rewrite app_nil_r in T.
  destruct l as [|c l].
  - inversion C; subst t. exists c_init, [], [], []. split; [reflexivity|]. split; [reflexivity|]. split; [auto|]. intros n. exact (calls_end n d_init [] d_init (g_nil ext d_init []) eq_refl).
  - pose proof (coded_range _ _ C) as F. inversion F as [|? ? Cc F']; subst.
    cbn [compress_syms] in T. rewrite (c_first ext c c_init Cc) in T by reflexivity. cbn [cbind c_init cs_utf8] in T.
    destruct (sim ext (mask_cap ext M) (mask_big ext M) (fun code rest => code_bytes ext code rest M) l _ _ _ _ _ 0 _ 0 (inv_start ext (mask_cap ext M) c 0 Cc) F') as (B' & U' & last' & B0' & U0' & fc' & pp' & o & w & R & I' & Eq & G).
    rewrite R in T. cbn [cbind compress_text] in T.
    destruct (coded_cut t (c :: l) C w (st B' last')) as (t1 & t2 & E & Ne & K); [rewrite <- Eq, st_small by lia; reflexivity|].
    eexists _, o, t1, t2. split; [rewrite T, app_nil_r; reflexivity|]. split; [exact E|]. split.
    + intros _. apply Ne. destruct (st_head ext B' U0' last' (inv_wf0 ext _ _ _ _ _ _ _ I') (inv_valid ext _ _ _ _ _ _ _ I')) as (a & q & Q & _). rewrite Q. discriminate.
    + intros n. specialize (G []). rewrite app_nil_r in G. exact (K n d_init o (dst B0' U0' fc' pp' 0) eq_refl eq_refl G eq_refl).
Qed.
End Mask.

Lemma repeat_map : forall (A B : Type) (f : A -> B) x n, map f (repeat x n) = repeat (f x) n.
Proof. induction n as [|n IH]; [reflexivity|]. cbn [repeat map]. rewrite IH. reflexivity. Qed.
Lemma unclosed_document : forall ext, mask ext -> forall L E F utf8 v, precise F = false -> doc_ok utf8 v -> ~ numeric v ->
  exists s o t, compress_text ext (ser E utf8 v) c_init = COk (s, o) /\
    forall n, exists d i, decompress_calls ext (length t + n) d_init o = COk (t ++ repeat 255 n, d, i) /\
      parse_source L F (map schar (t ++ repeat 255 n)) = Err.
Proof.
  intros ext M L E F utf8 v HF Hv Hn. destruct (unclosed ext M _ (ser_printable E utf8 v Hv)) as (s & o & t1 & t2 & C & Et & Ne & K).
  exists s, o, t1. split; [exact C|]. intros n. destruct (K n) as (d & i & D). exists d, i. split; [exact D|].
  rewrite map_app, repeat_map. change (schar 255) with (-1). refine (written_cut L E F true utf8 v HF Hv Hn t1 t2 n Et (Ne _)).
  destruct (ser_first E utf8 v Hv Hn) as (c0 & t0 & E0 & _). rewrite E0. discriminate.
Qed.
(** A file cut within a code. *)
Fixpoint starts (l t : bytes) : bool := match l, t with [], _ => true | a :: l', b :: t' => (a =? b) && starts l' t' | _, _ => false end.
Lemma starts_app : forall l t, starts l (l ++ t) = true.
Proof. induction l as [|a l IH]; intros t; [reflexivity|]. cbn [app starts]. rewrite Z.eqb_refl. apply IH. Qed.
Definition goes_wrong (ext : Z) (t : bytes) (k n : nat) : bool :=
  match compress_all ext t with
  | COk o => match decompress_calls ext n d_init (firstn k o) with COk (l, _, _) => negb (starts l t) && negb (existsb (Z.eqb 255) l) | _ => false end
  | _ => false
  end.
Lemma goes_wrong_spec : forall ext t k n, goes_wrong ext t k n = true -> exists o o1 o2 l d i, compress_all ext t = COk o /\ o = o1 ++ o2 /\
  decompress_calls ext n d_init o1 = COk (l, d, i) /\ ~ In 255 l /\ (forall t', t <> l ++ t').
Proof.
  intros ext t k n H. unfold goes_wrong in H. destruct (compress_all ext t) as [o| | |] eqn:E; try discriminate.
  destruct (decompress_calls ext n d_init (firstn k o)) as [[[l d] i]| | |] eqn:D; try discriminate. apply andb_true_iff in H as [A B].
  exists o, (firstn k o), (skipn k o), l, d, i. split; [reflexivity|]. split; [symmetry; apply firstn_skipn|]. split; [exact D|]. split.
  - intros I. apply negb_true_iff in B. assert (existsb (Z.eqb 255) l = true) by (apply existsb_exists; exists 255; auto). congruence.
  - intros t' ->. rewrite starts_app in A. discriminate.
Qed.
