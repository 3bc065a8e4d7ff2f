(** Objects against templates. *)
From Coq Require Import String Ascii Lia Sorted.
From Verif Require Import Base ModelKeyed SpecKeyed ProofKeyed ModelValue ModelText ModelObject ModelArray ModelEq ModelBin
  ModelUtf8 ModelJwt ModelString ModelPath ModelRpc ModelNumView ModelDate ModelValidator SpecValidator ProofValidator ProofValidator2.
Local Open Scope Z_scope.
Local Open Scope list_scope.

(** The evaluations the loops make, when all of them accept. *)
Fixpoint pairs (wild : value) (ss : list member) : list member -> list (member * value) :=
  fix inner (ts : list member) : list (member * value) :=
    match ss, ts with
    | x :: ss', t :: ts' =>
      let '(tk, spec) := parse_key (fst t) in
      match kcmp (fst x) tk with
      | Lt => if spec then pairs wild ss' ts else (x, wild) :: pairs wild ss' ts
      | Gt => if spec then inner ts' else (([], VUndef), snd t) :: inner ts'
      | Eq => if spec then pairs wild ss' ts' else (x, snd t) :: pairs wild ss' ts'
      end
    | [], _ => map (fun t => (([], VUndef), snd t)) ts
    | _, [] => map (fun x => (x, wild)) ss
    end.

Section Loop.
Variables (V : venv) (vars : list member) (g : nat).
Notation says q b := (verdict V vars g (fst q) (snd q) b).

Lemma reject_is : forall p k r x s c b, vs_vars s = vars ->
  (out_is (reject_sub V p k r (sub_key (eval_rule V g) p (fst x) (snd x) k s) c) b <->
   exists a t, says x a /\ eval_rule V g (pkey k :: p) (fst x) (snd x) s = VDone a t /\ vs_vars t = vars /\ (if a then out_is (c t) b else b = false)).
Proof.
  intros p k r x s c b E. unfold reject_sub, sub_key. rewrite (bind_is V vars g (fst x) (pkey k :: p) (snd x) s _ b E). split.
  - intros (a & t & H & E' & Vd & U). exists a, t. split; [exact Vd|]. split; [exact H|]. split; [exact E'|].
    destruct a; [exact U|apply done_is in U; congruence].
  - intros (a & t & Vd & H & E' & U). exists a, t. split; [exact H|]. split; [exact E'|]. split; [exact Vd|].
    destruct a; [exact U|apply done_is; congruence].
Qed.

(** A run of a loop over [x :: l]. *)
Definition runs (l : list (member * value)) (o : vst -> vout) : Prop :=
  forall s, vs_vars s = vars ->
    (out_is (o s) true <-> Forall (fun q => says q true) l) /\
    (out_is (o s) false <-> exists pre q post, l = pre ++ q :: post /\ Forall (fun q => says q true) pre /\ says q false).

Lemma runs_nil : runs [] (fun s => VDone true s).
Proof.
  intros s E. rewrite !done_is. split; [split; [constructor|reflexivity]|]. split; [discriminate|].
  intros (pre & q & post & H & _). destruct pre; discriminate.
Qed.
Lemma runs_cons : forall p k r x l c, runs l c ->
  runs (x :: l) (fun s => reject_sub V p k r (sub_key (eval_rule V g) p (fst x) (snd x) k s) c).
Proof.
  intros p k r x l c R s E. rewrite !(reject_is p k r x s c _ E). split; split.
  - intros (a & t & Vd & H & E' & U). destruct a; [|discriminate]. constructor; [exact Vd|]. apply (proj1 (R t E')). exact U.
  - intros A. inversion_clear A as [|? ? A1 A2]. destruct (A1 (pkey k :: p) s E) as (t & T).
    pose proof (eval_kept V g (pkey k :: p) (fst x) (snd x) s) as K. rewrite T in K.
    assert (E' : vs_vars t = vars) by (destruct K; congruence).
    exists true, t. split; [exact A1|]. split; [exact T|]. split; [exact E'|]. apply (proj1 (R t E')). exact A2.
  - intros (a & t & Vd & H & E' & U). destruct a.
    + apply (proj2 (R t E')) in U as (pre & q & post & -> & A & B). exists (x :: pre), q, post. split; [reflexivity|]. split; [constructor; assumption|exact B].
    + exists [], x, l. auto.
  - intros (pre & q & post & H & A & B). destruct pre as [|y pre]; injection H as -> ->.
    + destruct (B (pkey k :: p) s E) as (t & T). pose proof (eval_kept V g (pkey k :: p) (fst q) (snd q) s) as K. rewrite T in K.
      exists false, t. split; [exact B|]. split; [exact T|]. split; [destruct K; congruence|reflexivity].
    + inversion_clear A as [|? ? A1 A2]. destruct (A1 (pkey k :: p) s E) as (t & T).
      pose proof (eval_kept V g (pkey k :: p) (fst y) (snd y) s) as K. rewrite T in K.
      assert (E' : vs_vars t = vars) by (destruct K; congruence).
      exists true, t. split; [exact A1|]. split; [exact T|]. split; [exact E'|]. apply (proj2 (R t E')). exists pre, q, post. auto.
Qed.

Lemma extra_runs : forall p wild ss, runs (map (fun x => (x, wild)) ss) (extra_members V (eval_rule V g) p wild ss).
Proof.
  induction ss as [|x ss IH]; [exact runs_nil|]. exact (runs_cons p (fst x) wild (x, wild) _ _ IH).
Qed.
Lemma missing_runs : forall p ts, runs (map (fun t => (([], VUndef), snd t)) ts) (missing_members V (eval_rule V g) p ts).
Proof.
  induction ts as [|t ts IH]; [exact runs_nil|]. exact (runs_cons p (fst t) (snd t) (([], VUndef), snd t) _ _ IH).
Qed.
Lemma template_runs : forall p wild ss ts, runs (pairs wild ss ts) (template_loop V (eval_rule V g) p wild ss ts).
Proof.
  intros p wild. induction ss as [|x ss IHs].
  - intros [|t ts]; apply missing_runs.
  - induction ts as [|t ts IHt]; [exact (extra_runs p wild (x :: ss))|].
    cbn [pairs template_loop]. destruct (parse_key (fst t)) as [tk spec]. destruct (kcmp (fst x) tk); destruct spec.
    + apply IHs.
    + exact (runs_cons p (fst x) (snd t) (x, snd t) _ _ (IHs ts)).
    + apply IHs.
    + exact (runs_cons p (fst x) wild (x, wild) _ _ (IHs (t :: ts))).
    + exact IHt.
    + exact (runs_cons p tk (snd t) (([], VUndef), snd t) _ _ IHt).
Qed.
End Loop.

(** *** Without a bound *)
Lemma template_ends : forall V vars k d ss d' ts,
  (accepts V vars (k, VObj d ss) (VObj d' ts) <->
   Forall (fun q => accepts V vars (fst q) (snd q)) (pairs (value_member (VObj d' ts) [37]) ss ts)) /\
  (rejects V vars (k, VObj d ss) (VObj d' ts) <->
   exists pre q post, pairs (value_member (VObj d' ts) [37]) ss ts = pre ++ q :: post /\
     Forall (fun q => accepts V vars (fst q) (snd q)) pre /\ rejects V vars (fst q) (snd q)).
Proof.
  intros V vars k d ss d' ts. set (l := pairs _ _ _). unfold accepts, rejects.
  assert (St : forall g p s b, out_is (rule_step V (eval_rule V g) p (k, VObj d ss) (VObj d' ts) s) b <->
     out_is (template_loop V (eval_rule V g) p (value_member (VObj d' ts) [37]) ss ts s) b).
  { intros g p s b. unfold rule_step, eval_object. cbn [snd members_of]. apply close_is. }
  assert (Up : forall pre, Forall (fun q => ends V vars (fst q) (snd q) true) pre ->
     exists f, forall g, (f <= g)%nat -> Forall (fun q => verdict V vars g (fst q) (snd q) true) pre).
  { intros pre H. apply (eventually_Forall (fun g q => verdict V vars g (fst q) (snd q) true)).
    eapply Forall_impl; [|exact H]. intros q. apply ends_all. }
  assert (Dn : forall g pre, Forall (fun q => verdict V vars g (fst q) (snd q) true) pre -> Forall (fun q => ends V vars (fst q) (snd q) true) pre).
  { intros g pre H. eapply Forall_impl; [|exact H]. intros q Q. apply ends_verdict. exists g. exact Q. }
  split; rewrite ends_step; split.
  - intros (f & A). specialize (A f (le_n f) [] (st0 vars) eq_refl). apply St in A.
    apply (proj1 (template_runs V vars f [] _ ss ts (st0 vars) eq_refl)) in A. exact (Dn f l A).
  - intros A. apply Up in A as (f & A). exists f. intros g Lg p s E. apply St.
    apply (proj1 (template_runs V vars g p _ ss ts s E)). apply A. exact Lg.
  - intros (f & A). specialize (A f (le_n f) [] (st0 vars) eq_refl). apply St in A.
    apply (proj2 (template_runs V vars f [] _ ss ts (st0 vars) eq_refl)) in A as (pre & q & post & H & A & B).
    exists pre, q, post. split; [exact H|]. split; [exact (Dn f pre A)|]. apply ends_verdict. exists f. exact B.
  - intros (pre & q & post & H & A & B). apply Up in A as (f1 & A). apply ends_all in B as (f2 & B).
    exists (Nat.max f1 f2). intros g Lg p s E. apply St. apply (proj2 (template_runs V vars g p _ ss ts s E)).
    exists pre, q, post. split; [exact H|]. split; [apply A; lia|apply B; lia].
Qed.

(** *** What is paired with what *)
Lemma parse_wild : parse_key wild_key = ([], true).
Proof. reflexivity. Qed.
Lemma parse_named : forall k, k <> wild_key -> parse_key k = (unescape k, false).
Proof.
  intros k H. unfold parse_key, unescape. apply beqb_neq in H. unfold wild_key in H. rewrite H. destruct (forallb _ k); reflexivity.
Qed.
Lemma nil_lt : forall k, k <> [] -> kcmp k [] = Gt.
Proof. intros [|c k] H; [congruence|reflexivity]. Qed.
Lemma names_named : forall t ts, named t -> template_names (t :: ts) = unescape (fst t) :: template_names ts.
Proof. intros t ts H. cbn. apply beqb_neq in H. rewrite H. reflexivity. Qed.
Lemma names_wild : forall t ts, fst t = wild_key -> template_names (t :: ts) = template_names ts.
Proof. intros t ts H. cbn. rewrite H. reflexivity. Qed.
Lemma before_named : forall t ts, named t -> names_before_wild (t :: ts) = unescape (fst t) :: names_before_wild ts.
Proof. intros t ts H. cbn. apply beqb_neq in H. rewrite H. reflexivity. Qed.
Lemma in_names : forall t ts, In t ts -> named t -> In (unescape (fst t)) (template_names ts).
Proof.
  induction ts as [|u ts IH]; intros H N; [destruct H|]. destruct H as [->|H].
  - rewrite names_named by exact N. left. reflexivity.
  - cbn. destruct (beqb (fst u) wild_key); [apply IH; assumption|right; apply IH; assumption].
Qed.
Lemma before_in_names : forall ts n, In n (names_before_wild ts) -> In n (template_names ts).
Proof.
  induction ts as [|t ts IH]; intros n H; [destruct H|]. cbn in *. destruct (beqb (fst t) wild_key); [destruct H|].
  destruct H as [->|H]; [left; reflexivity|right; apply IH; exact H].
Qed.
Lemma klt_asym : forall a b, klt a b -> klt b a -> False.
Proof. intros a b A B. exact (klt_irrefl _ (klt_trans _ _ _ A B)). Qed.

Lemma subject_skip : forall x ss k, fst x <> k -> subject_member (x :: ss) k = subject_member ss k.
Proof. intros [a v] ss k H. unfold subject_member. cbn in *. apply beqb_neq in H. rewrite H. reflexivity. Qed.
Lemma subject_here : forall x ss, subject_member (x :: ss) (fst x) = x.
Proof. intros [a v] ss. unfold subject_member. cbn. rewrite beqb_refl. reflexivity. Qed.
Lemma subject_none : forall ss k, (forall x, In x ss -> fst x <> k) -> subject_member ss k = ([], VUndef).
Proof.
  intros ss k H. unfold subject_member. replace (binding k ss) with (@None value); [reflexivity|]. symmetry. apply binding_none.
  intros I. apply in_map_iff in I as (x & E & I). exact (H x I E).
Qed.
Lemma wild_once : forall (t : member) ts, NoDup (map fst (t :: ts)) -> fst t = wild_key -> forall u, In u ts -> named u.
Proof.
  intros t ts N E u I Q. inversion_clear N as [|? ? N1 N2]. apply N1. rewrite E, <- Q. apply in_map. exact I.
Qed.
Lemma increasing_tail : forall (x : member) ss, keys_increasing (x :: ss) -> keys_increasing ss /\ forall y, In y ss -> klt (fst x) (fst y).
Proof.
  intros x ss H. inversion_clear H as [|? ? A B]. split; [exact A|]. intros y I. rewrite Forall_forall in B. apply B. apply in_map. exact I.
Qed.

Section Pairs.
Variables (acc : member -> value -> Prop) (wild : value).
Definition paired (ss ts : list member) : Prop :=
  (forall t, In t ts -> named t -> acc (subject_member ss (unescape (fst t))) (snd t)) /\
  (forall x, In x ss -> ~ In (fst x) (template_names ts) -> acc x wild) /\
  (forall t, In t ts -> fst t = wild_key -> ~ passes_wild ss ts -> acc ([], VUndef) (snd t)).

Lemma pairs_missing : forall ts, Forall (fun q => acc (fst q) (snd q)) (map (fun t => (([], VUndef), snd t)) ts) <-> paired [] ts.
Proof.
  intros ts. rewrite Forall_map. cbn [fst snd]. rewrite Forall_forall. split.
  - intros H. split; [intros t I N; exact (H t I)|]. split; [intros x []|]. intros t I _ _. exact (H t I).
  - intros (A & _ & C) t I. destruct (list_eq_dec Z.eq_dec (fst t) wild_key) as [E|N].
    + apply C; [exact I|exact E|]. intros (x & [] & _).
    + exact (A t I N).
Qed.
Lemma pairs_extra : forall ss, Forall (fun q => acc (fst q) (snd q)) (map (fun x => (x, wild)) ss) <-> paired ss [].
Proof.
  intros ss. rewrite Forall_map. cbn [fst snd]. rewrite Forall_forall. split.
  - intros H. split; [intros t []|]. split; [intros x I _; exact (H x I)|]. intros t [].
  - intros (_ & B & _) x I. apply B; [exact I|]. intros [].
Qed.

Lemma pairs_spec : forall ss ts, keys_increasing ss -> (forall x, In x ss -> fst x <> []) ->
  StronglySorted klt (template_names ts) -> NoDup (map fst ts) ->
  (Forall (fun q => acc (fst q) (snd q)) (pairs wild ss ts) <-> paired ss ts).
Proof.
  induction ss as [|x ss IHs].
  { intros [|t ts] _ _ _ _; apply pairs_missing. }
  induction ts as [|t ts IHt]; intros S N T D; [exact (pairs_extra (x :: ss))|].
  destruct (increasing_tail x ss S) as (S' & Sx).
  assert (N' : forall y, In y ss -> fst y <> []) by (intros y I; apply N; right; exact I).
  assert (Nx : fst x <> []) by (apply N; left; reflexivity).
  assert (D' : NoDup (map fst ts)) by (inversion D; assumption).
  cbn [pairs]. destruct (list_eq_dec Z.eq_dec (fst t) wild_key) as [W|Nm].
  - (* the wildcard *)
    rewrite W, parse_wild, (nil_lt _ Nx). rewrite names_wild in T by exact W. change (Forall (fun q => acc (fst q) (snd q)) (pairs wild (x :: ss) ts) <-> paired (x :: ss) (t :: ts)).
    rewrite (IHt S N T D'). pose proof (wild_once t ts D W) as On. unfold paired. rewrite names_wild by exact W. split; intros (A & B & C); (split; [|split]).
    + intros u [<-|I] Nu; [destruct (Nu W)|apply A; assumption].
    + exact B.
    + intros u _ _ P. exfalso. apply P. exists x. split; [left; reflexivity|]. intros n I. cbn in I. rewrite W in I. destruct I.
    + intros u I Nu. apply A; [right; exact I|exact Nu].
    + exact B.
    + intros u I E. destruct (On u I E).
  - rewrite parse_named by exact Nm. rewrite names_named in T by exact Nm. inversion_clear T as [|? ? T1 T2]. rewrite Forall_forall in T2.
    set (n := unescape (fst t)) in *.
    assert (Up : forall u, In u ts -> named u -> klt n (unescape (fst u))) by (intros u I Nu; apply T2; apply in_names; assumption).
    destruct (kcmp (fst x) n) eqn:K.
    + (* the member is named *)
      apply kcmp_eq in K. rewrite Forall_cons_iff. cbn [fst snd]. rewrite (IHs ts S' N' T1 D').
      unfold paired. rewrite names_named by exact Nm. fold n. split.
      * intros (H & A & B & C). split; [|split].
        -- intros u [<-|I] Nu; [fold n; rewrite <- K, subject_here; exact H|].
           rewrite subject_skip; [apply A; assumption|]. rewrite K. apply klt_neq. apply Up; assumption.
        -- intros y [<-|I] Q; [exfalso; apply Q; left; congruence|]. apply B; [exact I|]. intros Q'. apply Q. right. exact Q'.
        -- intros u [<-|I] E P; [destruct (Nm E)|]. apply (C u I E). intros (y & Iy & Hy). apply P. exists y. split; [right; exact Iy|].
           intros k Ik. rewrite before_named in Ik by exact Nm. destruct Ik as [<-|Ik]; [fold n; rewrite <- K; apply Sx; exact Iy|apply Hy; exact Ik].
      * intros (A & B & C). split; [|split; [|split]].
        -- specialize (A t (or_introl eq_refl) Nm). fold n in A. rewrite <- K, subject_here in A. exact A.
        -- intros u I Nu. specialize (A u (or_intror I) Nu). rewrite subject_skip in A; [exact A|]. rewrite K. apply klt_neq. apply Up; assumption.
        -- intros y I Q. apply B; [right; exact I|]. intros [Q'|Q']; [|exact (Q Q')]. apply (klt_neq _ _ (Sx y I)). congruence.
        -- intros u I E P. apply (C u (or_intror I) E). intros (y & Iy & Hy). apply P. destruct Iy as [<-|Iy].
           ++ exfalso. apply (klt_irrefl n). rewrite <- K at 2. apply Hy. rewrite before_named by exact Nm. left. reflexivity.
           ++ exists y. split; [exact Iy|]. intros k Ik. apply Hy. rewrite before_named by exact Nm. right. exact Ik.
    + (* an extra member *)
      change (klt (fst x) n) in K. rewrite Forall_cons_iff. cbn [fst snd].
      assert (T' : StronglySorted klt (template_names (t :: ts))) by (rewrite names_named by exact Nm; constructor; [exact T1|apply Forall_forall; exact T2]).
      rewrite (IHs (t :: ts) S' N' T' D). unfold paired. rewrite names_named by exact Nm. fold n.
      assert (Le : forall k, In k (n :: template_names ts) -> klt (fst x) k).
      { intros k [<-|I]; [exact K|]. exact (klt_trans _ _ _ K (T2 k I)). }
      split.
      * intros (H & A & B & C). split; [|split].
        -- intros u I Nu. rewrite subject_skip; [apply A; assumption|]. apply klt_neq, Le. destruct I as [<-|I]; [left; reflexivity|right; apply in_names; assumption].
        -- intros y [<-|I] Q; [exact H|apply B; assumption].
        -- intros u I E P. apply (C u I E). intros (y & Iy & Hy). apply P. exists y. split; [right; exact Iy|exact Hy].
      * intros (A & B & C). split; [|split; [|split]].
        -- apply B; [left; reflexivity|]. intros Q. exact (klt_irrefl _ (Le _ Q)).
        -- intros u I Nu. specialize (A u I Nu). rewrite subject_skip in A; [exact A|]. apply klt_neq, Le. destruct I as [<-|I]; [left; reflexivity|right; apply in_names; assumption].
        -- intros y I Q. apply B; [right; exact I|exact Q].
        -- intros u I E P. apply (C u I E). intros (y & Iy & Hy). apply P. destruct Iy as [<-|Iy]; [|exists y; split; assumption].
           exfalso. apply (klt_asym n (fst x)); [|exact K]. apply Hy. rewrite before_named by exact Nm. left. reflexivity.
    + (* a missing member *)
      apply kcmp_gt_lt in K. change (klt n (fst x)) in K. rewrite Forall_cons_iff. cbn [fst snd].
      change (acc ([], VUndef) (snd t) /\ Forall (fun q => acc (fst q) (snd q)) (pairs wild (x :: ss) ts) <-> paired (x :: ss) (t :: ts)).
      rewrite (IHt S N T1 D'). unfold paired. rewrite names_named by exact Nm. fold n.
      assert (Ge : forall y, In y (x :: ss) -> klt n (fst y)).
      { intros y [<-|I]; [exact K|]. exact (klt_trans _ _ _ K (Sx y I)). }
      assert (No : subject_member (x :: ss) n = ([], VUndef)).
      { apply subject_none. intros y I E. apply (klt_irrefl n). rewrite <- E at 2. apply Ge. exact I. }
      split.
      * intros (H & A & B & C). split; [|split].
        -- intros u [<-|I] Nu; [fold n; rewrite No; exact H|apply A; assumption].
        -- intros y I Q. apply B; [exact I|]. intros Q'. apply Q. right. exact Q'.
        -- intros u [<-|I] E P; [destruct (Nm E)|]. apply (C u I E). intros (y & Iy & Hy). apply P. exists y. split; [exact Iy|].
           intros k Ik. rewrite before_named in Ik by exact Nm. destruct Ik as [<-|Ik]; [apply Ge; exact Iy|apply Hy; exact Ik].
      * intros (A & B & C). split; [|split; [|split]].
        -- specialize (A t (or_introl eq_refl) Nm). fold n in A. rewrite No in A. exact A.
        -- intros u I Nu. apply (A u (or_intror I) Nu).
        -- intros y I Q. apply B; [exact I|]. intros [Q'|Q']; [|exact (Q Q')]. apply (klt_irrefl n). rewrite Q' at 2. apply Ge. exact I.
        -- intros u I E P. apply (C u (or_intror I) E). intros (y & Iy & Hy). apply P. exists y. split; [exact Iy|].
           intros k Ik. apply Hy. rewrite before_named by exact Nm. right. exact Ik.
Qed.
End Pairs.

Lemma wild_value : forall d ts, keys_increasing ts -> value_member (VObj d ts) [37] = wild_rule ts.
Proof.
  intros d ts K. unfold value_member, wild_rule. rewrite (find_member_binding ts [37] K). unfold wild_key.
  destruct (binding [37] ts); reflexivity.
Qed.

Lemma keys_nodup : forall ts : list member, keys_increasing ts -> NoDup (map fst ts).
Proof. exact keys_increasing_nodup. Qed.

Lemma template_accepts : forall V vars k d ss d' ts, keys_increasing ss -> (forall x, In x ss -> fst x <> []) ->
  keys_increasing ts -> StronglySorted klt (template_names ts) ->
  (accepts V vars (k, VObj d ss) (VObj d' ts) <->
   matches_template V vars ss ts /\
   (forall r, In (wild_key, r) ts -> ~ passes_wild ss ts -> accepts V vars ([], VUndef) r)).
Proof.
  intros V vars k d ss d' ts S N K T. rewrite (proj1 (template_ends V vars k d ss d' ts)), (wild_value d' ts K).
  rewrite (pairs_spec (accepts V vars) (wild_rule ts) ss ts S N T (keys_nodup ts K)).
  unfold paired, matches_template. split.
  - intros (A & B & C). split; [split; assumption|]. intros r I P. exact (C (wild_key, r) I eq_refl P).
  - intros ((A & B) & C). split; [exact A|]. split; [exact B|]. intros [x r] I E P. cbn in E. subst x. exact (C r I P).
Qed.

(** Names in order: enough when no key is made of two or more percent signs. *)
Lemma names_sorted : forall ts : list member, keys_increasing ts ->
  (forall t, In t ts -> forall n, fst t <> 37 :: 37 :: repeat 37 n) -> StronglySorted klt (template_names ts).
Proof.
  assert (U : forall k, (forall n, k <> 37 :: 37 :: repeat 37 n) -> unescape k = k).
  { intros k H. unfold unescape. destruct (beqb k [37]) eqn:E; [reflexivity|]. destruct (forallb (Z.eqb 37) k) eqn:A; [|reflexivity].
    enough (C : k = [] \/ False) by (destruct C as [->|[]]; reflexivity). apply beqb_neq in E. rewrite forallb_forall in A.
    assert (R : k = repeat 37 (List.length k)).
    { clear - A. induction k as [|c k IH]; [reflexivity|]. cbn [List.length repeat]. rewrite <- IH; [|intros x I; apply A; right; exact I].
      specialize (A c (or_introl eq_refl)). apply Z.eqb_eq in A. congruence. }
    destruct (List.length k) as [|[|n]] eqn:Q; cbn in R.
    - left. exact R.
    - destruct (E R).
    - destruct (H n R). }
  induction ts as [|t ts IH]; intros K H; [constructor|]. destruct (increasing_tail t ts K) as (K' & Kt).
  assert (R : StronglySorted klt (template_names ts)) by (apply IH; [exact K'|intros u I; apply H; right; exact I]).
  cbn. destruct (beqb (fst t) wild_key); [exact R|]. constructor; [exact R|]. rewrite (U _ (H t (or_introl eq_refl))).
  apply Forall_forall. intros n I. clear R IH K.
  induction ts as [|u ts IH]; [destruct I|]. cbn in I. destruct (beqb (fst u) wild_key).
  - apply IH; [|inversion K'; assumption|intros y Iy; apply Kt; right; exact Iy|exact I]. intros v Iv. apply H. destruct Iv as [<-|Iv]; [left; reflexivity|right; right; exact Iv].
  - destruct I as [<-|I].
    + rewrite U; [apply Kt; left; reflexivity|apply H; right; left; reflexivity].
    + apply IH; [|inversion K'; assumption|intros y Iy; apply Kt; right; exact Iy|exact I]. intros v Iv. apply H. destruct Iv as [<-|Iv]; [left; reflexivity|right; right; exact Iv].
Qed.

Lemma template_object_only : forall V vars m d ts, (forall e ss, snd m <> VObj e ss) -> rejects V vars m (VObj d ts).
Proof.
  intros V vars [k v] d ts H. exists 1%nat, [], (mkVst [] VUndef [] vars 0). eexists. split; [reflexivity|]. cbn [eval_rule]. unfold rule_step, eval_object.
  cbn [snd] in *. destruct v; try (cbn; reflexivity). destruct (H diff l eq_refl).
Qed.
