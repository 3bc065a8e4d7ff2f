(** Lemmas about validators used many times. *)
From Coq Require Import String.
From Verif Require Import Base ModelKeyed ModelValue ModelObject ModelEq ModelPath ModelRpc ModelNumView ModelValidator
  SpecValidator ProofValidator ProofValidator5 SpecVars ProofVars ProofVars2 ProofVars3 ProofVars4 ModelArray SpecText SpecReuse.
Local Open Scope Z_scope.
Local Open Scope list_scope.

Lemma supported_iff : forall V, supported V <->
  (let ver := value_member (v_def V) (txt "_version") in
   defined ver && negb (SpecFloat.SFeqb (value_dbl (v_L V) (v_F V) ver) (f_of_Z 1))) = false.
Proof.
  intros V. unfold supported. cbv zeta. change (f_of_Z 1) with (SpecFloat.S754_finite false 4503599627370496 (-52)).
  set (ver := value_member _ _). unfold SpecFloat.SFeqb.
  destruct ver eqn:Ev; cbn [defined is_undef negb andb]; [split; auto|..];
    destruct (SpecFloat.SFcompare _ _) as [[]|]; cbn; split; intros H; auto; try (destruct H as [H|H]; discriminate); discriminate.
Qed.

Lemma validate_same : forall V fuel m class p p' s s' b t, validate V fuel m class p s = VDone b t -> vs_vars s' = vs_vars s ->
  exists t', validate V fuel m class p' s' = VDone b t' /\ vs_vars t' = vs_vars t /\ vs_vars t = vs_vars s /\
    (supported V -> get_emits t' = get_emits t).
Proof.
  intros V fuel m class p p' s s' b t H Hv. unfold validate in *. destruct (defined _ && _) eqn:E.
  - assert (N : ~ supported V) by (rewrite supported_iff; cbv zeta; rewrite E; discriminate).
    inversion H; subst. eexists. split; [reflexivity|].
    assert (Hadd : forall q r u, vs_vars (add_rejection V q r u) = vs_vars u).
    { intros q r u. unfold add_rejection. destruct (veq _ _ _); [reflexivity|]. destruct (existsb _ _); reflexivity. }
    rewrite !Hadd. repeat split; auto. tauto.
  - destruct (emits_same _ _ _ p' _ _ _ (clear_results s') _ _ H) as (t' & l & A & B & C); [exact Hv|].
    exists t'. split; [exact A|].
    pose proof (done_kept _ _ _ _ _ _ _ _ A) as (K1 & _). pose proof (done_kept _ _ _ _ _ _ _ _ H) as (K2 & _).
    cbn in K1, K2, B, C. split; [congruence|]. split; [congruence|]. intros _. unfold get_emits. congruence.
Qed.

Lemma used_vars : forall V s us u, used V s us u -> forall before, vs_vars s = vs_vars (set_variables before v_init) ->
  vs_vars u = vs_vars (set_variables (last_vars us before) v_init).
Proof.
  intros V s us u H. induction H; intros before Hb; cbn [last_vars]; auto.
  apply IHused. destruct (validate_same V fuel m class p p s s b t H eq_refl) as (t' & _ & _ & K & _). congruence.
Qed.

Lemma reuse_same : forall V us s fuel m class p b t, used V v_init us s -> validate V fuel m class p s = VDone b t ->
  exists t', validate V fuel m class p (set_variables (last_vars us VUndef) v_init) = VDone b t' /\
    (supported V -> get_emits t = get_emits t').
Proof.
  intros V us s fuel m class p b t H Hv.
  pose proof (used_vars _ _ _ _ H VUndef eq_refl) as K.
  destruct (validate_same V fuel m class p p s (set_variables (last_vars us VUndef) v_init) b t Hv) as (t' & A & _ & _ & D); [congruence|].
  exists t'. split; [exact A|]. intros S. symmetry. auto.
Qed.

Lemma supported_class : forall V fuel m class p s b t, supported V -> validate V fuel m class p s = VDone b t ->
  ends V (vs_vars s) m (value_member (v_def V) class) b.
Proof.
  intros V fuel m class p s b t S H. apply supported_iff in S. cbv zeta in S. unfold validate in H. rewrite S in H.
  exists fuel, p, (clear_results s), t. split; [reflexivity|exact H].
Qed.

Lemma supported_runs : forall V m class b vars, supported V -> ends V vars m (value_member (v_def V) class) b ->
  exists fuel, forall g p s, (fuel <= g)%nat -> vs_vars s = vars -> exists t, validate V g m class p s = VDone b t.
Proof.
  intros V m class b vars S H. apply ends_any in H as (fuel & H). exists fuel. intros g p s G E.
  apply supported_iff in S. cbv zeta in S. unfold validate. rewrite S. apply H; auto.
Qed.

Lemma unsupported : forall V fuel m class p s, ~ supported V ->
  exists t, validate V fuel m class p s = VDone false t /\ get_emits t = get_emits s /\ vs_vars t = vs_vars s.
Proof.
  intros V fuel m class p s N. unfold validate. destruct (defined _ && _) eqn:E.
  - eexists. split; [reflexivity|]. unfold add_rejection, get_emits. destruct (veq _ _ _); [auto|]. destruct (existsb _ _); auto.
  - elim N. apply supported_iff. exact E.
Qed.

Lemma unsupported_new : forall V fuel m class p, ~ supported V ->
  let ver := value_member (v_def V) (txt "_version") in
  (forall l, ver <> VArr l) -> (forall d l, ver <> VObj d l) ->
  exists t, validate V fuel m class p v_init = VDone false t /\
    get_rejections t = VArr [([], VArr [([], VArr [([], VStr None (txt "_version"))]); ([], ver)])].
Proof.
  intros V fuel m class p N ver A O. unfold validate. fold ver. destruct (defined ver && _) eqn:E.
  - eexists. split; [reflexivity|]. unfold add_rejection. apply andb_prop in E as [D _]. unfold defined in D.
    assert (U : is_undef ver = false) by (destruct ver; [discriminate|reflexivity..]). rewrite U.
    assert (veq (v_L V) ver (vs_last v_init) = false) as -> by (cbn; clear; destruct ver; reflexivity).
    assert (members_of ver = []) as -> by (destruct ver; try reflexivity; [elim (A l)|elim (O diff l)]; reflexivity).
    reflexivity.
  - elim N. apply supported_iff. exact E.
Qed.

Lemma emit_listed : forall V fuel m class p s t' k e t rule post, supported V ->
  in_order (vs_vars s) m -> all_sorted (snd t) ->
  value_member (v_def V) class = VArr ((k, VStr e (txt "emit")) :: t :: rule :: post) ->
  validate V fuel m class p s = VDone true t' ->
  exists l w, get_emits t' = VArr (l ++ [w]) /\ instance V (vs_vars s) m t w /\
    exists f u, eval_rule V f p m (snd rule) (set_variables (VArr (rev (vs_vars s))) v_init) = VDone true u /\ get_emits u = VArr l.
Proof.
  intros V fuel m class p s t' k e t rule post S I A D H. apply supported_iff in S. cbv zeta in S.
  unfold validate in H. rewrite S, D in H.
  destruct (emit_run _ _ _ _ _ _ _ _ _ (clear_results s) _ _ I A H) as (f & s1 & E & w & W & Em).
  destruct (emits_same _ _ _ p _ _ _ (set_variables (VArr (rev (vs_vars s))) v_init) _ _ E) as (u & l & E1 & E2 & E3).
  { cbn. apply rev_involutive. }
  exists l, w. unfold get_emits. cbn in E2, E3. rewrite Em, E2, <- E3. split; [reflexivity|]. split; [exact W|].
  exists f, u. rewrite E3. auto.
Qed.
