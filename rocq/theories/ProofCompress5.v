(** One decompressor for several streams. *)
From Coq Require Import Lia ZifyBool.
From Verif Require Import Base ModelCompress SpecCompress ProofCompress ProofCompress2 ProofCompress4.
Local Open Scope Z_scope.
Local Open Scope list_scope.
Ltac Zify.zify_post_hook ::= Z.div_mod_to_equations.

Section Mask.
Variable ext : Z.
Hypothesis M : mask ext.
Notation maxc := (max_code ext).
Notation flush := (flush_code ext).
Notation opt := (optimize_code ext).
Notation state_ok := (state_ok ext).
Notation Code := (fun code rest => code_bytes ext code rest M).

(** *** States with the same future up to the next optimisation *)
Record alike (s s' : dstate) : Prop := mkAl {
  al_ok : state_ok s; al_ok' : state_ok s';
  al_dict : forget (ds_db s) = forget (ds_db s'); al_ready : ds_ready s = ds_ready s';
  al_prev : ds_prev s = ds_prev s'; al_first : ds_prev s = initial_code \/ ds_first s = ds_first s'; al_utf8 : ds_utf8 s = ds_utf8 s' }.
Definition plain (s : dstate) (i : bytes) : Prop :=
  ds_ready s <> [] \/ fst (read_code ext i) <> opt /\ Z.of_nat (length (ds_db s)) < 2 ^ 31.
Lemma alike_plain : forall s s' i, alike s s' -> plain s i -> plain s' i.
Proof.
  intros s s' i A [P|[P B]]; [left; rewrite <- (al_ready _ _ A); exact P|right]. split; [exact P|]. rewrite <- (forget_same_length _ _ (al_dict _ _ A)). exact B.
Qed.
Lemma alike_one : forall s s' i c s1 i1, alike s s' -> plain s i -> Forall is_byte i -> decompress_one ext s i = COk (Some c, s1, i1) ->
  exists s1', decompress_one ext s' i = COk (Some c, s1', i1) /\ alike s1 s1'.
Proof.
  intros s s' i c s1 i1 A P B H. pose proof (one_fine ext M s i (al_ok _ _ A) B) as H1. rewrite H in H1. destruct H1 as [Ok1 _]. cbn [fst snd] in Ok1.
  assert (Fin : forall s1', decompress_one ext s' i = COk (Some c, s1', i1) -> state_ok s1').
  { intros s1' H'. pose proof (one_fine ext M s' i (al_ok' _ _ A) B) as K. rewrite H' in K. exact (proj1 K). }
  unfold decompress_one in *. destruct (ds_ready s) as [|x r] eqn:R.
  2:{ assert (R' : ds_ready s' = x :: r) by (rewrite <- (al_ready _ _ A); exact R). cbn [decompress_sym] in *. rewrite R in H. rewrite R' in *. injection H as <- <- <-. eexists. split; [reflexivity|].
      pose proof (Fin _ eq_refl) as Ok'. destruct A. constructor; assumption || reflexivity. }
  destruct P as [P|[P Sm]]; [destruct (P R)|]. destruct (read_code ext i) as [cc rest] eqn:C. cbn [fst] in P.
  destruct (read_bytes ext M i cc rest B C) as (Cn & _ & _).
  destruct (Z.eq_dec cc flush) as [Ef|Nf].
  { cbn [decompress_sym] in H. rewrite R, C, (proj2 (Z.eqb_eq _ _) Ef) in H. discriminate. }
  pose proof (forget_same_length _ _ (al_dict _ _ A)) as Ln. assert (Nx : next_of (ds_db s') = next_of (ds_db s)) by (unfold next_of; rewrite Ln; reflexivity).
  destruct (Z.lt_ge_cases (next_of (ds_db s)) cc) as [Gt|Le]; [rewrite (throw_code ext _ s i cc rest R C Nf P Gt) in H; discriminate|].
  assert (Us : cc = next_of (ds_db s) -> ds_prev s <> initial_code).
  { intros E Ep. rewrite (bad_code ext _ s i cc rest R C Nf P E Ep Sm) in H. discriminate. }
  destruct (step_fit ext M (S (length i)) s i cc rest (al_ok _ _ A) R C Cn Nf P Le Us) as (db1 & ndb1 & E & G & F1 & I1 & Nw).
  assert (R' : ds_ready s' = []) by (rewrite <- (al_ready _ _ A); exact R).
  destruct (step_fit ext M (S (length i)) s' i cc rest (al_ok' _ _ A) R' C Cn Nf P) as (db1' & ndb1' & E' & G' & F1' & I1' & _).
  { rewrite Nx. exact Le. } { rewrite Nx, <- (al_prev _ _ A). exact Us. }
  assert (W : word_of (forget (ds_db s')) (ds_first s') (ds_prev s') cc = word_of (forget (ds_db s)) (ds_first s) (ds_prev s) cc).
  { rewrite <- (al_dict _ _ A), <- (al_prev _ _ A). unfold word_of. rewrite forget_length. change (u32 (Z.of_nat (length (ds_db s)) + first_code)) with (next_of (ds_db s)).
    destruct (Z.eqb_spec cc (next_of (ds_db s))) as [En|_]; [|reflexivity]. destruct (al_first _ _ A) as [Ai|Af]; [destruct (Us En Ai)|]. rewrite Af. reflexivity. }
  rewrite E in H. injection H as <- <- <-. rewrite W in E'. eexists. split; [exact E'|].
  constructor; cbn [ds_db ds_ready ds_prev ds_first ds_utf8]; auto.
  - rewrite G, G'. unfold dict_of. rewrite W, <- (al_dict _ _ A), <- (al_prev _ _ A). reflexivity.
  - exact (al_utf8 _ _ A).
Qed.
Inductive gives0 : dstate -> bytes -> list Z -> dstate -> bytes -> Prop :=
| g0_nil : forall s i, gives0 s i [] s i
| g0_sym : forall s i c s1 i1 l s2 i2, plain s i -> decompress_one ext s i = COk (Some c, s1, i1) -> gives0 s1 i1 l s2 i2 -> gives0 s i (c :: l) s2 i2.
Lemma gives0_gives : forall s i l s2 i2, gives0 s i l s2 i2 -> gives ext s i l s2 i2.
Proof. intros s i l s2 i2 H. induction H; [constructor|]. eapply g_sym; eassumption. Qed.
Lemma gives0_app : forall s i l s1 i1 l' s2 i2, gives0 s i l s1 i1 -> gives0 s1 i1 l' s2 i2 -> gives0 s i (l ++ l') s2 i2.
Proof. intros s i l s1 i1 l' s2 i2 H K. induction H; [exact K|]. cbn [app]. eapply g0_sym; eauto. Qed.
Lemma gives0_alike : forall s i l s2 i2, gives0 s i l s2 i2 -> forall s', alike s s' -> Forall is_byte i -> exists s2', gives0 s' i l s2' i2 /\ alike s2 s2'.
Proof.
  intros s i l s2 i2 H. induction H as [s i|s i c s1 i1 l s2 i2 P O _ IH]; intros s' A B; [exists s'; split; [constructor|exact A]|].
  destruct (alike_one s s' i c s1 i1 A P B O) as (s1' & O' & A1). pose proof (one_fine ext M s i (al_ok _ _ A) B) as F. rewrite O in F. destruct F as [_ B1]. cbn [snd] in B1.
  destruct (IH s1' A1 B1) as (s2' & G & A2). exists s2'. split; [|exact A2]. eapply g0_sym; [exact (alike_plain _ _ _ A P)|exact O'|exact G].
Qed.

(** *** Texts too short for an optimisation *)
Notation inv := (inv ext).
Notation wf := (wf ext).
Lemma ready0 : forall db r fc pp nd n inp, gives0 (mkDS db r fc pp nd n) inp r (mkDS db [] fc pp nd n) inp.
Proof.
  intros db. induction r as [|c r IH]; intros fc pp nd n inp; [apply g0_nil|]. refine (g0_sym _ _ _ _ _ _ _ _ _ _ (IH fc pp nd n inp)); [left; discriminate|reflexivity].
Qed.
Lemma last0 : forall B U last B0 U0 fc pp n rest, inv B U last B0 U0 fc pp ->
  gives0 (dst B0 U0 fc pp n) (write_code ext last ++ rest) (st B last) (dst B U (hd 0 (st B last)) last n) rest.
Proof.
  intros B U last B0 U0 fc pp n rest I.
  destruct (st_head ext B U0 last (inv_wf0 ext _ _ _ _ _ _ _ I) (inv_valid _ _ _ _ _ _ _ _ I)) as (a & l & S & _).
  pose proof (read_last ext (mask_cap ext M) (mask_big ext M) Code B U last B0 U0 fc pp n (Datatypes.S (length (write_code ext last ++ rest))) rest I) as R. rewrite S in *. cbn [hd tl] in *.
  refine (g0_sym _ _ _ _ _ _ _ _ _ R _); [|apply ready0]. right. pose proof (inv_last _ _ _ _ _ _ _ _ I) as L. pose proof (inv_valid _ _ _ _ _ _ _ _ I) as V.
  rewrite code_bytes; [|exact M|unfold valid, max_code in *; lia]. cbn [fst]. split; [unfold max_code, optimize_code in *; lia|]. cbn [dst ds_db]. rewrite render_length.
  pose proof (wf_size ext (mask_cap ext M) B0 U0 (inv_wf _ _ _ _ _ _ _ _ I)) as Sz. pose proof (mask_big ext M). unfold max_code, first_code in Sz. lia.
Qed.
Lemma sim0 : forall l B U last B0 U0 fc pp n, inv B U last B0 U0 fc pp -> Forall (fun c => 0 <= c < first_code) l ->
  first_code + Z.of_nat (length B + length l) <= maxc ->
  exists B' U' last' B0' U0' fc' pp' o w, compress_syms ext l (cst B U last n) = COk (cst B' U' last' n, o) /\ inv B' U' last' B0' U0' fc' pp' /\
    st B last ++ l = w ++ st B' last' /\ forall rest, gives0 (dst B0 U0 fc pp n) (o ++ rest) w (dst B0' U0' fc' pp' n) rest.
Proof.
  induction l as [|c l IH]; intros B U last B0 U0 fc pp n I F Sz.
  - exists B, U, last, B0, U0, fc, pp, [], []. split; [reflexivity|]. split; [exact I|]. split; [apply app_nil_r|]. intros rest. apply g0_nil.
  - inversion_clear F as [|? ? C F']. pose proof (inv_wf1 ext _ _ _ _ _ _ _ I) as W. pose proof (inv_valid _ _ _ _ _ _ _ _ I) as V. pose proof (inv_last _ _ _ _ _ _ _ _ I) as L.
    cbn [compress_syms]. cbn [length] in Sz. destruct (in_dec key_dec (last, c) B) as [In_|N].
    + apply In_nth_error in In_ as (i & E). assert (Mi : first_code + Z.of_nat i < maxc) by (assert (i < length B)%nat by (apply nth_error_Some; congruence); lia).
      rewrite (c_found ext (mask_big ext M) B U last c n i W V L C E Mi (inv_in ext _ _ _ _ _ _ _ I)). cbn [cbind].
      destruct (inv_found ext _ _ _ _ _ _ _ c i I E Mi) as [I1 S1].
      destruct (IH _ _ _ _ _ _ _ n I1 F') as (B' & U' & last' & B0' & U0' & fc' & pp' & o & w & R & I' & Eq & G); [lia|].
      rewrite R. cbn [cbind]. do 9 eexists. split; [reflexivity|]. split; [exact I'|]. split; [|exact G]. rewrite <- Eq, S1, <- app_assoc. reflexivity.
    + rewrite (c_new ext (mask_cap ext M) (mask_big ext M) B U last c n W L C N). cbn [cbind].
      pose proof (inv_new ext (mask_cap ext M) _ _ _ _ _ _ _ c I C N) as I1.
      destruct (IH _ _ _ _ _ _ _ n I1 F') as (B' & U' & last' & B0' & U0' & fc' & pp' & o & w & R & I' & Eq & G); [rewrite app_length; cbn [length]; lia|].
      rewrite R. cbn [cbind]. do 6 eexists. exists pp'. eexists. exists (st B last ++ w). split; [reflexivity|]. split; [exact I'|]. split.
      * rewrite <- app_assoc, <- Eq, (st_small _ c) by lia. reflexivity.
      * intros rest. rewrite <- !app_assoc. refine (gives0_app _ _ _ _ _ _ _ _ (last0 _ _ _ _ _ _ _ n _ I) _). apply G.
Qed.
Lemma sim_all0 : forall l, Forall (fun c => 0 <= c < first_code) l -> l <> [] -> first_code + Z.of_nat (length l) <= maxc -> exists s o,
  compress_syms ext l c_init = COk (s, o) /\ forall rest, exists d, gives0 d_init ((o ++ compress_end ext s) ++ rest) l d (write_code ext flush ++ rest) /\ ds_ready d = [].
Proof.
  intros l F Ne Sz. destruct l as [|c l]; [destruct (Ne eq_refl)|]. inversion_clear F as [|? ? C F']. cbn [length] in Sz.
  cbn [compress_syms]. rewrite (c_first ext c c_init C) by reflexivity. cbn [cbind c_init cs_utf8].
  destruct (sim0 l _ _ _ _ _ 0 _ 0 (inv_start ext (mask_cap ext M) c 0 C) F') as (B' & U' & last' & B0' & U0' & fc' & pp' & o & w & R & I' & Eq & G); [cbn [length plus]; lia|].
  rewrite R. cbn [cbind]. do 2 eexists. split; [reflexivity|]. assert (Li : last' <> initial_code).
  { pose proof (inv_last _ _ _ _ _ _ _ _ I'). pose proof (maxc_initial ext (mask_big ext M)). lia. }
  intros rest. eexists. unfold compress_end. cbn [cst cs_last]. destruct (Z.eqb_spec last' initial_code) as [E|_]; [destruct (Li E)|]. cbn [app].
  rewrite st_small in Eq by lia. cbn [app] in Eq. rewrite Eq, <- !app_assoc. split.
  - refine (gives0_app _ _ _ _ _ _ _ _ (G _) (last0 _ _ _ _ _ _ _ 0 _ I')).
  - reflexivity.
Qed.

(** *** What is written are bytes *)
Lemma write_bytes : forall code, Forall is_byte (write_code ext code).
Proof. intros code. unfold write_code. destruct (code <? ext); repeat constructor; unfold is_byte, to_byte; lia. Qed.
Lemma sym_bytes : forall c s s1 o, compress_sym ext c s = COk (s1, o) -> Forall is_byte o.
Proof.
  intros c s s1 o H. unfold compress_sym in H. destruct (first_code <=? c); [discriminate|]. destruct (cs_last s =? initial_code); [injection H as _ <-; constructor|].
  destruct (db_find _ _) as [i|]; [|injection H as _ <-; apply write_bytes]. destruct (maxc <=? si_next i); [injection H as _ <-; apply Forall_app; split; apply write_bytes|].
  destruct (si_used i); [injection H as _ <-; constructor|]. destruct (add_code _ _ _ _ _ _) as [[[? ?] ?]| | |]; try discriminate. cbn in H. injection H as _ <-. constructor.
Qed.
Lemma char_bytes : forall c s s1 o, compress_char ext c s = COk (s1, o) -> Forall is_byte o.
Proof.
  assert (T : forall a b n s s1 o, compress_two ext a b n s = COk (s1, o) -> Forall is_byte o).
  { intros a b n s s1 o H. unfold compress_two in H. destruct (compress_sym ext a s) as [[s2 o2]| | |] eqn:E; try discriminate. cbn [cbind] in H.
    destruct (compress_sym ext b s2) as [[s3 o3]| | |] eqn:E2; try discriminate. cbn [cbind] in H. injection H as _ <-. apply Forall_app. split; eapply sym_bytes; eassumption. }
  intros c s s1 o H. unfold compress_char in H. destruct (negb (cs_utf8 s =? 0)); [eapply sym_bytes; exact H|]. destruct (negb (Z.land c 128 =? 0)).
  - destruct (Z.land c 224 =? 192); [eapply T; exact H|]. destruct (Z.land c 240 =? 224); [eapply T; exact H|]. destruct (Z.land c 248 =? 240); [eapply T; exact H|].
    destruct (Z.land c 252 =? 248); [eapply T; exact H|discriminate].
  - destruct (c <? 32); [discriminate|]. eapply sym_bytes; exact H.
Qed.
Lemma text_bytes : forall t s s1 o, compress_text ext t s = COk (s1, o) -> Forall is_byte o.
Proof.
  induction t as [|c t IH]; intros s s1 o H; [injection H as _ <-; constructor|]. cbn [compress_text] in H. destruct (compress_char ext c s) as [[s2 o2]| | |] eqn:E; try discriminate.
  cbn [cbind] in H. destruct (compress_text ext t s2) as [[s3 o3]| | |] eqn:E2; try discriminate. cbn [cbind] in H. injection H as _ <-. apply Forall_app. split; [eapply char_bytes; exact E|eapply IH; exact E2].
Qed.
Lemma all_bytes : forall t o, compress_all ext t = COk o -> Forall is_byte o.
Proof.
  intros t o H. unfold compress_all in H. destruct (compress_text ext t c_init) as [[s o1]| | |] eqn:E; try discriminate. cbn [cbind] in H. injection H as <-. apply Forall_app.
  split; [eapply text_bytes; exact E|]. unfold compress_end. destruct (cs_last s =? initial_code); [constructor|]. apply Forall_app. split; apply write_bytes.
Qed.

(** *** Streams *)
Lemma coded_length : forall t l, coded t l -> (length l <= 2 * length t)%nat.
Proof.
  intros t l H. induction H as [|b t l B _ IH|a bs t l p m L F _ IH P Mm]; cbn [length]; [lia|lia|]. rewrite !app_length, map_length. lia.
Qed.
Definition short (t : bytes) : Prop := 2 * Z.of_nat (length t) + first_code <= maxc.
Lemma one_stream : forall t s rest, printable t -> t <> [] -> short t -> alike d_init s -> Forall is_byte rest ->
  exists o d, compress_all ext t = COk o /\ decompress_calls ext (S (length t)) s (o ++ rest) = COk (t ++ [255], d, rest) /\ alike d_init d.
Proof.
  intros t s rest H Ne Sh A Br. destruct (printable_coded t H) as (l & C). pose proof (coded_text ext t l [] c_init C eq_refl) as T. rewrite app_nil_r in T.
  pose proof (coded_length t l C) as Ln. assert (Nl : l <> []) by (intros ->; apply coded_nil in C; contradiction).
  destruct (sim_all0 l (coded_range _ _ C) Nl) as (cs & o & E & G); [unfold short in Sh; lia|].
  assert (Ca : compress_all ext t = COk (o ++ compress_end ext cs)).
  { unfold compress_all. rewrite T, E. cbn [cbind compress_text]. rewrite app_nil_r. reflexivity. }
  destruct (G rest) as (d & Gd & Rd). assert (Bo : Forall is_byte ((o ++ compress_end ext cs) ++ rest)) by (apply Forall_app; split; [exact (all_bytes _ _ Ca)|exact Br]).
  destruct (gives0_alike _ _ _ _ _ Gd s A Bo) as (d' & Gd' & Ad). pose proof (al_ready _ _ Ad) as Rd'. rewrite Rd in Rd'.
  pose proof (flush_read ext (mask_cap ext M) Code d' rest (eq_sym Rd')) as Fl.
  (* the count of the byte layer *)
  assert (Us : ds_utf8 s = 0) by (rewrite <- (al_utf8 _ _ A); reflexivity).
  pose proof (gives_utf8 ext 0 _ _ _ _ _ (gives0_gives _ _ _ _ _ Gd')) as G0. assert (Es : with_utf8' 0 s = s) by (rewrite <- Us; apply utf8_back). rewrite Es in G0.
  pose proof (one_utf8 ext 0 d' (write_code ext flush ++ rest)) as D0. rewrite Fl in D0. cbn [cbind] in D0.
  pose proof (coded_calls ext t l C s _ (with_utf8' 0 d') _ _ rest Us eq_refl G0 D0) as K.
  eexists. eexists. split; [exact Ca|]. split; [exact K|].
  assert (Bf : Forall is_byte (write_code ext flush ++ rest)) by (apply Forall_app; split; [apply write_bytes|exact Br]).
  pose proof (one_fine ext M d' _ (al_ok' _ _ Ad) Bf) as Ok. rewrite Fl in Ok. destruct Ok as [Ok _]. cbn [fst snd] in Ok.
  constructor; [exact (init_ok ext M)|exact Ok|reflexivity|reflexivity|reflexivity|left; reflexivity|reflexivity].
Qed.
Lemma calls_app : forall n m s i, decompress_calls ext (n + m) s i =
  cbind (decompress_calls ext n s i) (fun '(l, s1, i1) => cbind (decompress_calls ext m s1 i1) (fun '(l2, s2, i2) => COk (l ++ l2, s2, i2))).
Proof.
  induction n as [|n IH]; intros m s i; cbn [plus decompress_calls].
  - cbn [cbind app]. destruct (decompress_calls ext m s i) as [[[? ?] ?]| | |]; reflexivity.
  - destruct (decompress_char ext s i) as [[[c s1] i1]| | |]; cbn [cbind]; try reflexivity. rewrite IH. destruct (decompress_calls ext n s1 i1) as [[[l s2] i2]| | |]; cbn [cbind]; try reflexivity.
    destruct (decompress_calls ext m s2 i2) as [[[? ?] ?]| | |]; reflexivity.
Qed.
Definition answers (ts : list bytes) : bytes := flat_map (fun t => t ++ [255]) ts.
Lemma streams_from : forall ts s, Forall (fun t => printable t /\ t <> [] /\ short t) ts -> alike d_init s ->
  exists os d, Forall2 (fun t o => compress_all ext t = COk o) ts os /\ decompress_calls ext (length (answers ts)) s (concat os) = COk (answers ts, d, []).
Proof.
  intros ts. induction ts as [|t ts IH]; intros s F A.
  - exists [], s. split; constructor.
  - inversion_clear F as [|? ? (P & N & Sh) F'].
    (* the rest of the streams does not depend on the state they are read in *)
    destruct (IH d_init F') as (os & d0 & Fo & _).
    { constructor; try reflexivity; try exact (init_ok ext M). left; reflexivity. }
    assert (Br : Forall is_byte (concat os)).
    { clear - Fo M. induction Fo as [|t o ts os E _ IH]; [constructor|]. cbn [concat]. apply Forall_app. split; [exact (all_bytes _ _ E)|exact IH]. }
    destruct (one_stream t s (concat os) P N Sh A Br) as (o & d & Co & K & Ad).
    destruct (IH d F' Ad) as (os' & d2 & Fo' & K').
    assert (os' = os) as ->.
    { clear - Fo Fo'. revert os' Fo'. induction Fo as [|t o ts os E _ IH]; intros os' Fo'; inversion Fo'; subst; [reflexivity|]. f_equal; [congruence|]. apply IH. assumption. }
    exists (o :: os), d2. split; [constructor; assumption|]. cbn [answers flat_map concat]. fold (answers ts). rewrite app_length, calls_app.
    replace (length (t ++ [255])) with (S (length t)) by (rewrite app_length; cbn [length]; lia). rewrite K. cbn [cbind]. rewrite K'. reflexivity.
Qed.
Lemma streams : forall ts, Forall (fun t => printable t /\ t <> [] /\ short t) ts ->
  exists os d, Forall2 (fun t o => compress_all ext t = COk o) ts os /\ decompress_calls ext (length (answers ts)) d_init (concat os) = COk (answers ts, d, []).
Proof.
  intros ts F. apply streams_from; [exact F|]. constructor; try reflexivity; try exact (init_ok ext M). left; reflexivity.
Qed.
End Mask.
Lemma short_streams : forall ext, mask ext -> forall ts,
  Forall (fun t => printable t /\ t <> [] /\ 2 * Z.of_nat (length t) + 102 <= (255 - ext) * 256 + 253 + ext) ts ->
  exists os d, Forall2 (fun t o => compress_all ext t = COk o) ts os /\
    decompress_calls ext (length (flat_map (fun t => t ++ [255]) ts)) d_init (concat os) = COk (flat_map (fun t => t ++ [255]) ts, d, []).
Proof.
  intros ext M ts F. apply (streams ext M). eapply Forall_impl; [|exact F]. intros t (P & N & L). split; [exact P|]. split; [exact N|].
  unfold short, max_code, flush_code, first_code. rewrite (mask_xor ext M). lia.
Qed.

(** *** Codes one by one *)
Lemma next_small : forall db, Z.of_nat (length db) < 2 ^ 31 -> next_of db = first_code + Z.of_nat (length db).
Proof. intros db H. unfold next_of. rewrite u32_small by (unfold first_code; lia). lia. Qed.
Lemma code_above : forall ext, mask ext -> forall s inp cc rest, reached ext s -> ds_ready s = [] -> read_code ext inp = (cc, rest) ->
  cc <> flush_code ext -> cc <> optimize_code ext -> Z.of_nat (length (ds_db s)) < 2 ^ 31 -> first_code + Z.of_nat (length (ds_db s)) < cc ->
  decompress_one ext s inp = CThrow.
Proof. intros ext M s inp cc rest _ R C Nf No Sm L. apply (throw_code ext _ s inp cc rest R C Nf No). rewrite (next_small _ Sm). exact L. Qed.
Lemma dict_of_length : forall B f p c, length (dict_of B f p c) = if p =? initial_code then length B else S (length B).
Proof. intros B f p c. unfold dict_of. destruct (p =? initial_code); [reflexivity|]. rewrite app_length. cbn [length]. lia. Qed.
Lemma code_known : forall ext, mask ext -> forall s inp cc rest, reached ext s -> ds_ready s = [] -> read_code ext inp = (cc, rest) ->
  cc <> flush_code ext -> cc <> optimize_code ext -> Z.of_nat (length (ds_db s)) < 2 ^ 31 -> 0 <= cc < first_code + Z.of_nat (length (ds_db s)) ->
  exists c s', decompress_one ext s inp = COk (Some c, s', rest) /\ ds_prev s' = cc /\
    length (ds_db s') = if ds_prev s =? initial_code then length (ds_db s) else S (length (ds_db s)).
Proof.
  intros ext M s inp cc rest Rs R C Nf No Sm L. pose proof (next_small _ Sm) as N.
  destruct (step_fit ext M (S (length inp)) s inp cc rest (reached_ok ext M s Rs) R C ltac:(lia) Nf No ltac:(lia) ltac:(lia)) as (db1 & ndb1 & E & G & _).
  do 2 eexists. split; [exact E|]. split; [reflexivity|]. cbn [ds_db]. rewrite <- (forget_length db1), G, dict_of_length, forget_length. reflexivity.
Qed.
Lemma code_next : forall ext, mask ext -> forall s inp cc rest, reached ext s -> ds_ready s = [] -> read_code ext inp = (cc, rest) ->
  cc <> flush_code ext -> cc <> optimize_code ext -> Z.of_nat (length (ds_db s)) < 2 ^ 31 -> cc = first_code + Z.of_nat (length (ds_db s)) ->
  (ds_prev s <> initial_code -> exists c s', decompress_one ext s inp = COk (Some c, s', rest) /\ ds_prev s' = cc /\ length (ds_db s') = S (length (ds_db s))) /\
  (ds_prev s = initial_code -> decompress_one ext s inp = CBad).
Proof.
  intros ext M s inp cc rest Rs R C Nf No Sm L. pose proof (next_small _ Sm) as N. split; intros P.
  - destruct (step_fit ext M (S (length inp)) s inp cc rest (reached_ok ext M s Rs) R C ltac:(unfold first_code in *; lia) Nf No ltac:(lia) (fun _ => P)) as (db1 & ndb1 & E & G & _).
    do 2 eexists. split; [exact E|]. split; [reflexivity|]. cbn [ds_db]. rewrite <- (forget_length db1), G, dict_of_length, forget_length.
    destruct (Z.eqb_spec (ds_prev s) initial_code); [contradiction|reflexivity].
  - apply (bad_code ext _ s inp cc rest R C Nf No); [lia|exact P|exact Sm].
Qed.
Lemma byte_102 : decompress_calls 128 1 d_init [102] = CBad.
Proof.
  assert (M : mask 128) by (left; reflexivity).
  assert (R : reached 128 d_init) by (exists 0%nat, [], [], []; split; [constructor|reflexivity]).
  pose proof (proj2 (code_next 128 M d_init [102] 102 [] R eq_refl eq_refl ltac:(discriminate) ltac:(discriminate) ltac:(reflexivity) eq_refl) eq_refl) as E.
  unfold decompress_calls, decompress_char. rewrite E. reflexivity.
Qed.
Lemma eqb_same : forall l : bytes, forallb (fun p => fst p =? snd p) (combine l l) = true.
Proof. induction l as [|x l IH]; [reflexivity|]. cbn [combine forallb fst snd]. rewrite Z.eqb_refl. exact IH. Qed.
Definition streams_differ (ext : Z) (t1 t2 : bytes) : bool :=
  match compress_all ext t1, compress_all ext t2 with
  | COk o1, COk o2 =>
    match decompress_calls ext (length (t1 ++ [255] ++ t2 ++ [255])) d_init (o1 ++ o2) with
    | COk (l, _, _) => negb (forallb (fun p => fst p =? snd p) (combine l (t1 ++ [255] ++ t2 ++ [255])))
    | _ => false
    end
  | _, _ => false
  end.
Lemma streams_differ_spec : forall ext t1 t2, streams_differ ext t1 t2 = true -> exists o1 o2 l d r,
  compress_all ext t1 = COk o1 /\ compress_all ext t2 = COk o2 /\
  decompress_calls ext (length (t1 ++ [255] ++ t2 ++ [255])) d_init (o1 ++ o2) = COk (l, d, r) /\ l <> t1 ++ [255] ++ t2 ++ [255].
Proof.
  intros ext t1 t2 H. unfold streams_differ in H. destruct (compress_all ext t1) as [o1| | |]; try discriminate. destruct (compress_all ext t2) as [o2| | |]; try discriminate.
  destruct (decompress_calls ext _ d_init (o1 ++ o2)) as [[[l d] r]| | |] eqn:E; try discriminate. exists o1, o2, l, d, r.
  split; [reflexivity|]. split; [reflexivity|]. split; [exact E|]. intros ->. rewrite eqb_same in H. discriminate.
Qed.
