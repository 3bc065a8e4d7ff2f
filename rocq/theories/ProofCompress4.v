(** The decompressor on any input: every call ends, and what it depends on. *)
From Coq Require Import Lia ZifyBool.
From Verif Require Import Base ModelCompress SpecCompress ProofCompress ProofCompress2.
Local Open Scope Z_scope.
Local Open Scope list_scope.
Ltac Zify.zify_post_hook ::= Z.div_mod_to_equations.

Definition forget (db : dec_db) : dict := map (fun e => (di_prev e, di_out e)) db.
Lemma forget_nth : forall db i, nth_error (forget db) i = option_map (fun e => (di_prev e, di_out e)) (nth_error db i).
Proof. intros. unfold forget. rewrite nth_error_map. reflexivity. Qed.
Lemma forget_length : forall db, length (forget db) = length db.
Proof. intros. apply map_length. Qed.
Lemma set_at_length : forall {A} i (x : A) l, length (set_at i x l) = length l.
Proof. intros A i x l. revert i. induction l as [|y l IH]; intros i; [destruct i; reflexivity|]. destruct i; cbn; [reflexivity|]. rewrite IH. reflexivity. Qed.
Lemma forget_set : forall db i x y, nth_error db i = Some y -> di_prev x = di_prev y -> di_out x = di_out y -> forget (set_at i x db) = forget db.
Proof.
  intros db i x y E P O. apply nth_error_ext. intros k. rewrite !forget_nth, set_at_nth. destruct (Nat.eqb_spec i k) as [<-|N]; [|reflexivity].
  rewrite E. cbn. rewrite P, O. reflexivity.
Qed.

Section Mask.
Variable ext : Z.
Hypothesis M : mask ext.
Notation maxopt := (max_code_opt ext).
Notation flush := (flush_code ext).
Notation opt := (optimize_code ext).

(** What holds of the two dictionaries at any time. *)
Record fit (db ndb : dec_db) : Prop := mkFit {
  fit_prev : forall i e, nth_error db i = Some e -> 0 <= di_prev e < first_code + Z.of_nat i;
  fit_used : forall i e, nth_error db i = Some e -> di_used e = true -> exists z, di_new e = Some z /\ 0 <= z < first_code + Z.of_nat (length ndb);
  fit_unused : forall i e, nth_error db i = Some e -> di_used e = false -> di_new e = None;
  fit_next : forall i e, nth_error ndb i = Some e -> 0 <= di_prev e < first_code + Z.of_nat i /\ di_used e = false /\ di_new e = None;
  fit_cap : first_code + Z.of_nat (length ndb) <= maxopt }.
Lemma fit_next_of : forall db ndb, fit db ndb -> next_of ndb = first_code + Z.of_nat (length ndb).
Proof.
  intros db ndb F. pose proof (fit_cap _ _ F) as C. pose proof (mask_big ext M) as B. unfold next_of, max_code_opt, max_code, first_code in *.
  rewrite u32_small by lia. lia.
Qed.
Definition roomy (ndb : dec_db) : Prop := first_code + Z.of_nat (length ndb) < maxopt.
(** The answer of [translate]: a code, or nothing when the next dictionary is full. *)
Definition answer (r : option Z) (ndb : dec_db) : Prop :=
  match r with Some z => 0 <= z < first_code + Z.of_nat (length ndb) | None => ~ roomy ndb end.
Lemma set_fit : forall db ndb i e y ndb', fit db ndb -> nth_error db i = Some y -> di_prev e = di_prev y ->
  (di_used e = true -> exists z, di_new e = Some z /\ 0 <= z < first_code + Z.of_nat (length ndb')) ->
  (di_used e = false -> di_new e = None) -> (length ndb <= length ndb')%nat ->
  (forall i e, nth_error ndb' i = Some e -> 0 <= di_prev e < first_code + Z.of_nat i /\ di_used e = false /\ di_new e = None) ->
  first_code + Z.of_nat (length ndb') <= maxopt -> fit (set_at i e db) ndb'.
Proof.
  intros db ndb i e y ndb' F Y P U Nu Le Nx C. constructor; auto.
  - intros k x E. rewrite set_at_nth in E. destruct (Nat.eqb_spec i k) as [<-|N].
    + rewrite Y in E. cbn in E. injection E as <-. rewrite P. exact (fit_prev _ _ F _ _ Y).
    + exact (fit_prev _ _ F _ _ E).
  - intros k x E Ux. rewrite set_at_nth in E. destruct (Nat.eqb_spec i k) as [<-|N].
    + rewrite Y in E. cbn in E. injection E as <-. exact (U Ux).
    + destruct (fit_used _ _ F _ _ E Ux) as (z & Z1 & Z2). exists z. split; [exact Z1|lia].
  - intros k x E Ux. rewrite set_at_nth in E. destruct (Nat.eqb_spec i k) as [<-|N].
    + rewrite Y in E. cbn in E. injection E as <-. exact (Nu Ux).
    + exact (fit_unused _ _ F _ _ E Ux).
Qed.
Lemma add_fit : forall db ndb i e y r, fit db ndb -> nth_error db i = Some y -> di_prev e = di_prev y -> di_out e = di_out y ->
  (di_used e = true -> di_used y = true /\ di_new e = di_new y) -> (di_used e = false -> di_new e = None) -> answer r ndb -> exists e2 ndb2, d_add_code ext e r ndb = COk (e2, ndb2) /\
    fit (set_at i e2 db) ndb2 /\ forget (set_at i e2 db) = forget db /\ (length ndb <= length ndb2)%nat /\ answer (di_new e2) ndb2.
Proof.
  intros db ndb i e y r F Y P O Ue Un A. unfold d_add_code. rewrite (fit_next_of db ndb F). destruct (Z.ltb_spec (first_code + Z.of_nat (length ndb)) maxopt) as [R|R].
  - destruct r as [z|]; [|destruct (A R)]. do 2 eexists. split; [reflexivity|]. split; [|split; [|split]].
    + apply (set_fit db ndb i _ y _ F Y).
      * exact P.
      * intros _. eexists. split; [reflexivity|]. rewrite app_length. cbn [length]. unfold first_code. lia.
      * discriminate.
      * rewrite app_length. lia.
      * intros k x E. destruct (Nat.lt_ge_cases k (length ndb)) as [Lt|Ge].
        -- rewrite nth_error_app1 in E by exact Lt. exact (fit_next _ _ F _ _ E).
        -- rewrite nth_error_app2 in E by exact Ge. destruct (k - length ndb)%nat eqn:K; [|destruct n; discriminate]. cbn in E. injection E as <-. cbn [di_prev di_used di_new]. cbn [answer] in A. split; [lia|auto].
      * rewrite app_length. cbn [length]. lia.
    + apply (forget_set db i _ y Y); assumption.
    + rewrite app_length. lia.
    + cbn [answer di_new]. rewrite app_length. cbn [length]. unfold first_code. lia.
  - exists e, ndb. split; [reflexivity|]. split; [|split; [|split]].
    + apply (set_fit db ndb i e y ndb F Y P); [|exact Un|lia|exact (fit_next _ _ F)|exact (fit_cap _ _ F)].
      intros U. destruct (Ue U) as [Uy Ny]. rewrite Ny. exact (fit_used _ _ F _ _ Y Uy).
    + apply (forget_set db i _ y Y); assumption.
    + lia.
    + destruct (di_used e) eqn:Eu.
      * destruct (Ue eq_refl) as [Uy Ny]. rewrite Ny. destruct (fit_used _ _ F _ _ Y Uy) as (z & -> & Z1). exact Z1.
      * rewrite (Un eq_refl). exact (fun K => Z.lt_irrefl _ (Z.lt_le_trans _ _ _ K R)).
Qed.
Lemma answer_more : forall r a b, answer r a -> (length a <= length b)%nat -> answer r b.
Proof. intros [z|] a b A L; cbn [answer] in *; [lia|]. unfold roomy in *. lia. Qed.
Definition in_dict (db : dec_db) (p : Z) : Prop := 0 <= p < first_code + Z.of_nat (length db).
Lemma forget_same_length : forall a b, forget a = forget b -> length a = length b.
Proof. intros a b H. rewrite <- (forget_length a), H. apply forget_length. Qed.
Lemma forget_entry : forall a b i e, forget a = forget b -> nth_error a i = Some e -> exists e', nth_error b i = Some e' /\ di_prev e' = di_prev e /\ di_out e' = di_out e.
Proof.
  intros a b i e H E. pose proof (forget_nth a i) as A. rewrite H, forget_nth, E in A. destruct (nth_error b i) as [e'|]; [|discriminate]. cbn in A. injection A as A1 A2. eauto.
Qed.
Lemma dict_entry : forall db ndb p, fit db ndb -> in_dict db p -> first_code <= p -> exists e, nth_error db (code_at p) = Some e /\ 0 <= di_prev e < p.
Proof.
  intros db ndb p F I L. destruct (nth_error db (code_at p)) as [e|] eqn:E.
  - exists e. split; [reflexivity|]. pose proof (fit_prev _ _ F _ _ E). unfold code_at in *. lia.
  - apply nth_error_None in E. unfold in_dict, code_at in *. lia.
Qed.
Lemma translate_fit : forall f p db ndb, fit db ndb -> in_dict db p -> deep f p ->
  exists r db1 ndb1, translate ext f p db ndb = COk (r, db1, ndb1) /\ fit db1 ndb1 /\ forget db1 = forget db /\ (length ndb <= length ndb1)%nat /\ answer r ndb1.
Proof.
  induction f as [|f IH]; intros p db ndb F I D.
  - assert (S : p < first_code) by (unfold deep in D; lia). cbn [translate]. rewrite (proj2 (Z.ltb_lt _ _) S). do 3 eexists. split; [reflexivity|]. split; [exact F|]. split; [reflexivity|].
    split; [lia|]. unfold in_dict in I. cbn [answer]. lia.
  - cbn [translate]. destruct (Z.ltb_spec p first_code) as [S|S].
    { do 3 eexists. split; [reflexivity|]. split; [exact F|]. split; [reflexivity|]. split; [lia|]. unfold in_dict in I. cbn [answer]. lia. }
    destruct (dict_entry db ndb p F I S) as (e & E & P). rewrite E. destruct (di_used e) eqn:U.
    { do 3 eexists. split; [reflexivity|]. split; [exact F|]. split; [reflexivity|]. split; [lia|]. destruct (fit_used _ _ F _ _ E U) as (z & -> & Hz). exact Hz. }
    destruct (IH (di_prev e) db ndb F) as (r & db1 & ndb1 & T & F1 & G1 & L1 & A1); [unfold in_dict in *; lia|unfold deep in *; lia|].
    rewrite T. cbn [cbind]. destruct (forget_entry db db1 _ e (eq_sym G1) E) as (e1 & E1 & P1 & O1). rewrite E1.
    destruct (add_fit db1 ndb1 (code_at p) e1 e1 r F1 E1 eq_refl eq_refl (fun U1 => conj U1 eq_refl) (fit_unused _ _ F1 _ _ E1) A1) as (e2 & ndb2 & A2 & F2 & G2 & L2 & An).
    rewrite A2. cbn [cbind]. do 3 eexists. split; [reflexivity|]. split; [exact F2|]. split; [congruence|]. split; [lia|exact An].
Qed.
Lemma expand_fit : forall f p db ndb ready, fit db ndb -> in_dict db p -> deep f p ->
  exists db1 ndb1, expand ext f p db ndb ready = COk (hd 0 (str (forget db) f p), db1, ndb1, tl (str (forget db) f p) ++ ready) /\
    fit db1 ndb1 /\ forget db1 = forget db /\ str (forget db) f p <> [].
Proof.
  induction f as [|f IH]; intros p db ndb ready F I D.
  - assert (S : p < first_code) by (unfold deep in D; lia). cbn [expand str]. rewrite (proj2 (Z.ltb_lt _ _) S). do 2 eexists. split; [reflexivity|]. split; [exact F|]. split; [reflexivity|discriminate].
  - cbn [expand str]. destruct (Z.ltb_spec p first_code) as [S|S].
    { do 2 eexists. split; [reflexivity|]. split; [exact F|]. split; [reflexivity|discriminate]. }
    destruct (dict_entry db ndb p F I S) as (e & E & P). rewrite E.
    assert (Nf : nth (code_at p) (forget db) (0, 0) = (di_prev e, di_out e)) by (apply nth_error_nth; rewrite forget_nth, E; reflexivity). rewrite Nf. cbn [fst snd].
    assert (Fin : forall dbx ndbx, fit dbx ndbx -> forget dbx = forget db -> exists db1 ndb1,
      expand ext f (di_prev e) dbx ndbx (di_out e :: ready) = COk (hd 0 (str (forget db) f (di_prev e) ++ [di_out e]), db1, ndb1, tl (str (forget db) f (di_prev e) ++ [di_out e]) ++ ready) /\
      fit db1 ndb1 /\ forget db1 = forget db /\ str (forget db) f (di_prev e) ++ [di_out e] <> []).
    { intros dbx ndbx Fx Gx. destruct (IH (di_prev e) dbx ndbx (di_out e :: ready) Fx) as (db1 & ndb1 & X & F1 & G1 & N1).
      { unfold in_dict in *. rewrite (forget_same_length _ _ Gx). lia. } { unfold deep in *. lia. }
      rewrite Gx in X, N1. rewrite X. exists db1, ndb1. destruct (str (forget db) f (di_prev e)) as [|a l]; [destruct (N1 eq_refl)|]. cbn [hd tl app]. rewrite <- app_assoc.
      split; [reflexivity|]. split; [exact F1|]. split; [congruence|discriminate]. }
    destruct (di_used e) eqn:U; [exact (Fin db ndb F eq_refl)|].
    destruct (translate_fit (Datatypes.S (length db)) (di_prev e) db ndb F) as (r & db1 & ndb1 & T & F1 & G1 & L1 & A1); [unfold in_dict in *; lia|unfold deep, in_dict in *; lia|].
    rewrite T. cbn [cbind]. destruct (forget_entry db db1 _ e (eq_sym G1) E) as (e1 & E1 & P1 & O1).
    destruct (add_fit db1 ndb1 (code_at p) e e1 r F1 E1 (eq_sym P1) (eq_sym O1) (fun U1 => ltac:(congruence)) (fun _ => fit_unused _ _ F _ _ E U) A1) as (e2 & ndb2 & A2 & F2 & G2 & L2 & An).
    rewrite A2. cbn [cbind]. exact (Fin _ _ F2 (eq_trans G2 G1)).
Qed.

(** *** One code *)
Definition state_ok (s : dstate) : Prop := fit (ds_db s) (ds_ndb s) /\ (ds_prev s = initial_code \/ in_dict (ds_db s) (ds_prev s)).
Lemma next_le : forall db, 0 <= next_of db <= first_code + Z.of_nat (length db).
Proof. intros db. unfold next_of, u32, first_code. pose proof (Z.mod_le (Z.of_nat (length db) + 102) (2 ^ 32) ltac:(lia) ltac:(lia)). pose proof (Z.mod_pos_bound (Z.of_nat (length db) + 102) (2 ^ 32) ltac:(lia)). lia. Qed.
Lemma fit_grow : forall db ndb p o, fit db ndb -> in_dict db p -> fit (db ++ [mkDI p None o false]) ndb.
Proof.
  intros db ndb p o F I. assert (A : forall i e, nth_error (db ++ [mkDI p None o false]) i = Some e -> nth_error db i = Some e \/ i = length db /\ e = mkDI p None o false).
  { intros i e E. destruct (Nat.lt_ge_cases i (length db)) as [Lt|Ge]; [left; rewrite nth_error_app1 in E by exact Lt; exact E|].
    rewrite nth_error_app2 in E by exact Ge. destruct (i - length db)%nat eqn:K; [|destruct n; discriminate]. cbn in E. injection E as <-. right. split; [lia|reflexivity]. }
  constructor.
  - intros i e E. destruct (A i e E) as [H|[-> ->]]; [exact (fit_prev _ _ F _ _ H)|]. cbn [di_prev]. unfold in_dict in I. lia.
  - intros i e E U. destruct (A i e E) as [H|[-> ->]]; [exact (fit_used _ _ F _ _ H U)|]. discriminate.
  - intros i e E U. destruct (A i e E) as [H|[-> ->]]; [exact (fit_unused _ _ F _ _ H U)|]. reflexivity.
  - exact (fit_next _ _ F).
  - exact (fit_cap _ _ F).
Qed.
(** The symbols a code stands for, and the dictionary afterwards. *)
Definition word_of (B : dict) (first prev cc : Z) : list Z :=
  if cc =? u32 (Z.of_nat (length B) + first_code) then str B (S (length B)) prev ++ [first] else str B (S (length B)) cc.
Definition dict_of (B : dict) (first prev cc : Z) : dict :=
  if prev =? initial_code then B else B ++ [(prev, hd 0 (word_of B first prev cc))].
Lemma step_fit : forall f s inp cc rest, state_ok s -> ds_ready s = [] -> read_code ext inp = (cc, rest) -> 0 <= cc -> cc <> flush -> cc <> opt ->
  cc <= next_of (ds_db s) -> (cc = next_of (ds_db s) -> ds_prev s <> initial_code) ->
  exists db1 ndb1, let w := word_of (forget (ds_db s)) (ds_first s) (ds_prev s) cc in
    decompress_sym ext f s inp = COk (Some (hd 0 w), mkDS db1 (tl w) (hd 0 w) cc ndb1 (ds_utf8 s), rest) /\
    forget db1 = dict_of (forget (ds_db s)) (ds_first s) (ds_prev s) cc /\ fit db1 ndb1 /\ in_dict db1 cc /\ w <> [].
Proof.
  intros f s inp cc rest [F P] R C Cn Nf No Le Us. pose proof (next_le (ds_db s)) as NL.
  assert (D : decompress_sym ext f s inp =
      let next := next_of (ds_db s) in
        let used := cc =? next in
        cbind (expand ext (S (length (ds_db s))) (if used then ds_prev s else cc) (ds_db s) (ds_ndb s) (if used then [ds_first s] else []))
          (fun '(p, db1, ndb1, ready) =>
            if ds_prev s =? initial_code then COk (Some p, mkDS db1 ready p cc ndb1 (ds_utf8 s), rest)
            else
              let db2 := db1 ++ [mkDI (ds_prev s) None p false] in
              if used then
                cbind (translate ext (S (length db2)) next db2 ndb1) (fun '(_, db3, ndb3) =>
                  COk (Some p, mkDS db3 ready p cc ndb3 (ds_utf8 s), rest))
              else COk (Some p, mkDS db2 ready p cc ndb1 (ds_utf8 s), rest))).
  { destruct f; cbn [decompress_sym]; rewrite R, C; (destruct (Z.eqb_spec cc flush) as [E|_]; [destruct (Nf E)|]); (destruct (Z.eqb_spec cc opt) as [E|_]; [destruct (No E)|]);
      cbv zeta; (destruct (Z.ltb_spec (next_of (ds_db s)) cc); [lia|reflexivity]). }
  rewrite D. clear D. cbv zeta. unfold dict_of, word_of. rewrite forget_length. change (u32 (Z.of_nat (length (ds_db s)) + first_code)) with (next_of (ds_db s)).
  destruct (Z.eqb_spec cc (next_of (ds_db s))) as [U|U].
  - specialize (Us U). destruct P as [P|P]; [destruct (Us P)|]. destruct (Z.eqb_spec (ds_prev s) initial_code) as [E|_]; [destruct (Us E)|].
    destruct (expand_fit (S (length (ds_db s))) (ds_prev s) (ds_db s) (ds_ndb s) [ds_first s] F P) as (db1 & ndb1 & X & F1 & G1 & N1); [unfold deep, in_dict in *; lia|].
    rewrite X. cbn [cbind]. set (w := str (forget (ds_db s)) (S (length (ds_db s))) (ds_prev s)) in *.
    pose proof (forget_same_length _ _ G1) as L1.
    assert (F2 : fit (db1 ++ [mkDI (ds_prev s) None (hd 0 w) false]) ndb1) by (apply fit_grow; [exact F1|unfold in_dict in *; lia]).
    destruct (translate_fit (S (length (db1 ++ [mkDI (ds_prev s) None (hd 0 w) false]))) (next_of (ds_db s)) _ _ F2) as (r & db3 & ndb3 & T & F3 & G3 & L3 & A3).
    { unfold in_dict. rewrite app_length. cbn [length]. lia. } { unfold deep. rewrite app_length. cbn [length]. lia. }
    rewrite T. cbn [cbind]. destruct w as [|a l]; [destruct (N1 eq_refl)|]. cbn [hd tl app] in *. do 2 eexists. split; [reflexivity|].
    split; [|split; [exact F3|split; [|discriminate]]].
    + rewrite G3. unfold forget in *. rewrite map_app, G1. reflexivity.
    + unfold in_dict. rewrite (forget_same_length _ _ G3), app_length. cbn [length]. lia.
  - assert (I : in_dict (ds_db s) cc) by (unfold in_dict; lia).
    destruct (expand_fit (S (length (ds_db s))) cc (ds_db s) (ds_ndb s) [] F I) as (db1 & ndb1 & X & F1 & G1 & N1); [unfold deep, in_dict in *; lia|].
    rewrite X. cbn [cbind]. rewrite app_nil_r. pose proof (forget_same_length _ _ G1) as L1. destruct (Z.eqb_spec (ds_prev s) initial_code) as [E|E].
    + do 2 eexists. split; [reflexivity|]. split; [exact G1|]. split; [exact F1|]. split; [unfold in_dict in *; lia|exact N1].
    + destruct P as [P|P]; [destruct (E P)|]. do 2 eexists. split; [reflexivity|]. split; [unfold forget in *; rewrite map_app, G1; reflexivity|].
      split; [apply fit_grow; [exact F1|unfold in_dict in *; lia]|]. split; [unfold in_dict in *; rewrite app_length; cbn [length]; lia|exact N1].
Qed.
Lemma throw_code : forall f s inp cc rest, ds_ready s = [] -> read_code ext inp = (cc, rest) -> cc <> flush -> cc <> opt ->
  next_of (ds_db s) < cc -> decompress_sym ext f s inp = CThrow.
Proof.
  intros f s inp cc rest R C Nf No L. destruct f; cbn [decompress_sym]; rewrite R, C; (destruct (Z.eqb_spec cc flush) as [E|_]; [destruct (Nf E)|]); (destruct (Z.eqb_spec cc opt) as [E|_]; [destruct (No E)|]);
      cbv zeta; (destruct (Z.ltb_spec (next_of (ds_db s)) cc); [reflexivity|lia]).
Qed.
Lemma bad_code : forall f s inp cc rest, ds_ready s = [] -> read_code ext inp = (cc, rest) -> cc <> flush -> cc <> opt ->
  cc = next_of (ds_db s) -> ds_prev s = initial_code -> Z.of_nat (length (ds_db s)) < 2 ^ 31 -> decompress_sym ext f s inp = CBad.
Proof.
  intros f s inp cc rest R C Nf No E P B. assert (X : expand ext (S (length (ds_db s))) initial_code (ds_db s) (ds_ndb s) [ds_first s] = CBad).
  { cbn [expand]. destruct (Z.ltb_spec initial_code first_code); [unfold initial_code, first_code in *; lia|].
    assert (nth_error (ds_db s) (code_at initial_code) = None) as -> by (apply nth_error_None; unfold code_at, initial_code, first_code; lia). reflexivity. }
  destruct f; cbn [decompress_sym]; rewrite R, C; (destruct (Z.eqb_spec cc flush) as [E1|_]; [destruct (Nf E1)|]); (destruct (Z.eqb_spec cc opt) as [E1|_]; [destruct (No E1)|]);
      cbv zeta; (destruct (Z.ltb_spec (next_of (ds_db s)) cc); [lia|]); rewrite E, Z.eqb_refl, P, X; reflexivity.
Qed.

(** *** Every call ends *)
Lemma read_bytes : forall inp cc rest, Forall is_byte inp -> read_code ext inp = (cc, rest) -> 0 <= cc /\ Forall is_byte rest /\
  (inp = [] /\ cc = flush /\ rest = [] \/ (length rest < length inp)%nat).
Proof.
  intros inp cc rest B R. destruct inp as [|b inp].
  - assert (H : read_code ext [] = (flush, [])).
    { pose proof (mask_all (fun e => (fst (read_code e []) =? flush_code e) && (match snd (read_code e []) with [] => true | _ => false end)) eq_refl ext M) as H. cbn beta in H.
      destruct (read_code ext []) as [x y]. cbn [fst snd] in H. destruct y; [f_equal; lia|]. rewrite andb_false_r in H. discriminate. }
    rewrite H in R. injection R as <- <-. split; [pose proof (mask_cap ext M); unfold max_code_opt, max_code, first_code in *; lia|]. split; [constructor|]. left. auto.
  - inversion_clear B as [|? ? Bb Bi]. unfold read_code in R. cbn [next_byte] in R. destruct (Z.land b ext =? ext); cbn [negb] in R.
    + destruct inp as [|b2 inp]; cbn [next_byte] in R; injection R as <- <-; (split; [unfold u32; lia|]); (split; [first [constructor|inversion_clear Bi; assumption]|]); right; cbn [length]; lia.
    + injection R as <- <-. unfold is_byte in Bb. split; [lia|]. split; [exact Bi|]. right. cbn [length]. lia.
Qed.
(** An outcome that is no endless loop, and leaves things in order. *)
Definition fine {A} (P : A -> Prop) (r : cres A) : Prop := match r with COk a => P a | CFuel => False | _ => True end.
Definition after (inp : bytes) {A} (r : A * dstate * bytes) : Prop :=
  state_ok (snd (fst r)) /\ Forall is_byte (snd r).
Lemma sym_fine : forall f s inp, state_ok s -> Forall is_byte inp -> (length inp <= f)%nat -> fine (after inp) (decompress_sym ext f s inp).
Proof.
  intros f s inp. revert s inp. assert (G : forall f s inp, (forall s inp, state_ok s -> Forall is_byte inp -> (length inp < f)%nat -> fine (after inp) (decompress_sym ext (pred f) s inp)) ->
     state_ok s -> Forall is_byte inp -> (length inp <= f)%nat -> fine (after inp) (decompress_sym ext f s inp)).
  { clear f. intros f s inp IH Ok B L. destruct (ds_ready s) as [|c r] eqn:R.
    2:{ destruct f; cbn [decompress_sym]; rewrite R; (split; [exact Ok|exact B]). }
    destruct (read_code ext inp) as [cc rest] eqn:C. destruct (read_bytes inp cc rest B C) as (Cn & Br & Le).
    destruct (Z.eq_dec cc flush) as [Ef|Nf].
    { assert (E : decompress_sym ext f s inp = COk (None, mkDS [] [] (ds_first s) initial_code (ds_ndb s) (ds_utf8 s), rest)).
      { destruct f; cbn [decompress_sym]; rewrite R, C; (destruct (Z.eqb_spec cc flush) as [_|X]; [reflexivity|destruct (X Ef)]). }
      rewrite E. split; [|exact Br]. split; [|left; reflexivity]. cbn [ds_db ds_ndb]. destruct Ok as [F _].
      constructor; try (intros i e X; destruct i; discriminate); [exact (fit_next _ _ F)|exact (fit_cap _ _ F)]. }
    destruct (Z.eq_dec cc opt) as [Eo|No].
    { destruct Le as [(-> & Ec & _)|Le]; [contradiction|]. destruct f as [|f]; [lia|]. cbn [decompress_sym]. rewrite R, C.
      destruct (Z.eqb_spec cc flush) as [X|_]; [contradiction|]. destruct (Z.eqb_spec cc opt) as [_|X]; [|contradiction].
      pose proof (IH (mkDS (ds_ndb s) [] (ds_first s) initial_code [] (ds_utf8 s)) rest) as H. cbn [pred] in H.
      assert (Ok' : state_ok (mkDS (ds_ndb s) [] (ds_first s) initial_code [] (ds_utf8 s))).
      { split; [|left; reflexivity]. cbn [ds_db ds_ndb]. destruct Ok as [F _]. constructor.
        - intros i e X. exact (proj1 (fit_next _ _ F i e X)).
        - intros i e X U. destruct (fit_next _ _ F i e X) as (_ & Z1 & _). congruence.
        - intros i e X _. exact (proj2 (proj2 (fit_next _ _ F i e X))).
        - intros i e X; destruct i; discriminate.
        - pose proof (mask_cap ext M). change (length (@nil dec_info)) with 0%nat. lia. }
      specialize (H Ok' Br ltac:(lia)). destruct (decompress_sym ext f _ rest); try exact H. }
    destruct (Z.lt_ge_cases (next_of (ds_db s)) cc) as [Gt|Le2]; [rewrite (throw_code f s inp cc rest R C Nf No Gt); exact I|].
    destruct (Z.eq_dec cc (next_of (ds_db s))) as [En|Nn].
    - destruct (Z.eq_dec (ds_prev s) initial_code) as [Ep|Np].
      + (* the fault *)
        assert (D : decompress_sym ext f s inp = cbind (expand ext (S (length (ds_db s))) initial_code (ds_db s) (ds_ndb s) [ds_first s])
          (fun '(p, db1, ndb1, ready) => COk (Some p, mkDS db1 ready p cc ndb1 (ds_utf8 s), rest))).
        { destruct f; cbn [decompress_sym]; rewrite R, C; (destruct (Z.eqb_spec cc flush) as [E1|_]; [destruct (Nf E1)|]); (destruct (Z.eqb_spec cc opt) as [E1|_]; [destruct (No E1)|]);
            cbv zeta; (destruct (Z.ltb_spec (next_of (ds_db s)) cc); [lia|]); rewrite (proj2 (Z.eqb_eq _ _) En), Ep, Z.eqb_refl; reflexivity. }
        rewrite D. destruct (Z.ltb_spec initial_code (first_code + Z.of_nat (length (ds_db s)))) as [Big|Small].
        * destruct Ok as [F P]. assert (In1 : in_dict (ds_db s) initial_code) by (unfold in_dict, initial_code in *; lia).
          destruct (expand_fit (S (length (ds_db s))) initial_code (ds_db s) (ds_ndb s) [ds_first s] F In1) as (db1 & ndb1 & X & F1 & G1 & N1); [unfold deep; lia|].
          rewrite X. cbn [cbind fine]. split; [|exact Br]. split; [exact F1|]. right. cbn [fst snd ds_db ds_prev]. unfold in_dict. rewrite (forget_same_length _ _ G1).
          pose proof (next_le (ds_db s)) as NL. rewrite En. unfold initial_code in Big. unfold next_of, u32 in *. unfold first_code in *. lia.
        * cbn [expand]. destruct (Z.ltb_spec initial_code first_code); [unfold initial_code, first_code in *; lia|].
          assert (nth_error (ds_db s) (code_at initial_code) = None) as -> by (apply nth_error_None; unfold code_at, initial_code, first_code in *; lia). exact I.
      + destruct (step_fit f s inp cc rest Ok R C Cn Nf No Le2 (fun _ => Np)) as (db1 & ndb1 & E & _ & F1 & I1 & _). rewrite E. split; [|exact Br]. split; [exact F1|right; exact I1].
    - destruct (step_fit f s inp cc rest Ok R C Cn Nf No Le2 (fun H => False_ind _ (Nn H))) as (db1 & ndb1 & E & _ & F1 & I1 & _). rewrite E. split; [|exact Br]. split; [exact F1|right; exact I1]. }
  induction f as [|f IH]; intros s inp Ok B L; apply G; auto.
  - intros; lia.
  - intros s' inp' Ok' B' L'. cbn [pred]. apply IH; auto. lia.
Qed.
Lemma one_fine : forall s inp, state_ok s -> Forall is_byte inp -> fine (after inp) (decompress_one ext s inp).
Proof. intros s inp Ok B. apply sym_fine; auto. Qed.
Lemma ok_utf8 : forall k s, state_ok s -> state_ok (with_utf8' k s).
Proof. intros k s H. exact H. Qed.
Lemma char_fine : forall s inp, state_ok s -> Forall is_byte inp -> fine (after inp) (decompress_char ext s inp).
Proof.
  intros s inp Ok B. unfold decompress_char. pose proof (one_fine s inp Ok B) as H. destruct (decompress_one ext s inp) as [[[c s1] i1]| | |]; try exact H. cbn [cbind].
  destruct H as [H1 H2]. cbn [fst snd] in H1, H2. destruct (negb (ds_utf8 s1 =? 0)); [split; [exact H1|exact H2]|].
  assert (Ld : forall n mask, fine (after inp) (cbind (decompress_one ext (with_utf8' n s1) i1) (fun '(c2, s2, inp2) => COk (Z.lor (sym_byte c2) mask, s2, inp2)))).
  { intros n mask. pose proof (one_fine (with_utf8' n s1) i1 H1 H2) as K. destruct (decompress_one ext (with_utf8' n s1) i1) as [[[c2 s2] i2]| | |]; exact K. }
  destruct c as [c|]; [|split; [exact H1|exact H2]]. destruct (c =? 1); [apply Ld|]. destruct (c =? 2); [apply Ld|]. destruct (c =? 3); [apply Ld|]. destruct (c =? 4); [apply Ld|].
  split; [exact H1|exact H2].
Qed.
Lemma calls_fine : forall n s inp, state_ok s -> Forall is_byte inp -> fine (after inp) (decompress_calls ext n s inp).
Proof.
  induction n as [|n IH]; intros s inp Ok B; [split; [exact Ok|exact B]|]. cbn [decompress_calls]. pose proof (char_fine s inp Ok B) as H.
  destruct (decompress_char ext s inp) as [[[c s1] i1]| | |]; try exact H. cbn [cbind]. destruct H as [H1 H2]. cbn [fst snd] in H1, H2.
  specialize (IH s1 i1 H1 H2). destruct (decompress_calls ext n s1 i1) as [[[l s2] i2]| | |]; exact IH.
Qed.
Lemma init_ok : state_ok d_init.
Proof.
  split; [|left; reflexivity]. constructor; try (intros i e X; destruct i; discriminate). cbn [d_init ds_ndb]. pose proof (mask_cap ext M). change (length (@nil dec_info)) with 0%nat. lia.
Qed.
Lemma calls_end : forall n inp, Forall is_byte inp -> decompress_calls ext n d_init inp <> CFuel.
Proof. intros n inp B E. pose proof (calls_fine n d_init inp init_ok B) as H. rewrite E in H. exact H. Qed.
Lemma reached_ok : forall s, reached ext s -> state_ok s.
Proof. intros s (n & inp & l & rest & B & E). pose proof (calls_fine n d_init inp init_ok B) as H. rewrite E in H. exact (proj1 H). Qed.
End Mask.
