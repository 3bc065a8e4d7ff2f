From Coq Require Import String Lia ZifyBool Sorting.Sorted.
From Verif Require Import Base ModelKeyed SpecKeyed ModelValue ModelText ModelObject ModelArray ModelEq ModelJwt ModelString ModelStreams ModelPath ModelRpc ModelNumView ModelValidator.
From Verif Require Import SpecValidator SpecVars ProofKeyed ProofValidator ProofValidator2 ProofValidator3 ProofValidator4 ProofVars2 ProofTerm ProofTemplate ModelOwnDef SpecOwnDef.
Local Open Scope Z_scope.
Local Open Scope list_scope.

Definition w (n : string) : value := VStr None (txt n).
Definition arr (l : list value) : value := VArr (map (fun v => ([], v)) l).
Definition obj (l : list (string * value)) : value := VObj false (map (fun x => (txt (fst x), snd x)) l).
Definition cnt (n : Z) : value := arr [VNum (NUInt n)].

Definition simple_items : list value :=
  [arr [w "prefix"; w "'"]; arr [w "prefix"; w "#"]] ++
  map w ["'string"; "'number"; "'boolean"; "'any"; "'base64"; "'base64url"; "'hex"; "'uppercase"; "'lowercase"; "'alpha"; "'alnum";
         "'digits"; "'integer"; "'null"; "'optional"; "'datetime"; "'datetimez"; "'date"; "'time"; "'timez"]%string ++
  [arr [w "usevar"; arr [w "$keyname"; arr [w "$this"]]; w "any"];
   w "#Simple rules are all strings, including direct values and classes"].
Definition function_items : list value := map w ["All"; "Range"; "MinMaxSize"; "Key"; "ToString"; "ToNumber"; "PrefixSuffix"; "Split"; "Not"; "Array"; "Tuple"]%string.
Definition rule_items : list value :=
  map w ["SimpleRule"; "FunctionRule"; "AlternateRule"; "ObjectRule"]%string ++
  [arr []; obj []; w "number"; VBool true; VBool false; VNull; w "#Definition of general rule"].
Definition wild_value : value := arr [arr [w "setvar"; w "$keyname"; w "Rule"]; w "'native"].
Definition version_value : value := arr [VNum (NUInt 1); w "optional"].

Lemma at_simple : value_member own_def (txt "SimpleRule") = arr simple_items. Proof. vm_compute. reflexivity. Qed.
Lemma at_function : value_member own_def (txt "FunctionRule") = arr function_items. Proof. vm_compute. reflexivity. Qed.
Lemma at_rule : value_member own_def (txt "Rule") = arr rule_items. Proof. vm_compute. reflexivity. Qed.
Lemma at_root : value_member own_def (txt "_root") = obj [("%"%string, wild_value); ("_version"%string, version_value)]. Proof. vm_compute. reflexivity. Qed.
Lemma at_all : value_member own_def (txt "All") = arr [w "prefix"; arr [w "^"]; w "AllCont"]. Proof. vm_compute. reflexivity. Qed.
Lemma at_range : value_member own_def (txt "Range") = arr [w "split"; VNum (NUInt 2); w "RangeCmd"; w "AllCont"]. Proof. vm_compute. reflexivity. Qed.

(** *** Verdicts *)
Section Own.
Variable V : venv.
Hypothesis D : v_def V = own_def.

Lemma word_ends : forall vars m n b, simple_rule V (snd m) (txt n) = SVerdict b -> ends V vars m (w n) b.
Proof.
  intros vars m n b H. apply ends_step. exists 0%nat. intros g _ p s E. unfold w. cbn [rule_step]. apply close_is.
  unfold eval_simple. rewrite H. eexists. reflexivity.
Qed.
Lemma class_ends : forall vars m n b, simple_rule V (snd m) (txt n) = SClass ->
  defined (value_member own_def (txt n)) = true -> beqb (get_string (value_member own_def (txt n))) (txt "native") = false ->
  ends V vars m (value_member own_def (txt n)) b -> ends V vars m (w n) b.
Proof.
  intros vars m n b H H1 H2 H3. apply ends_all in H3 as (f & H3). apply ends_step. exists f. intros g G p s E. unfold w. cbn [rule_step]. apply close_is.
  unfold eval_simple. rewrite H. unfold check_class. rewrite D, H1, H2. exact (H3 g G p s E).
Qed.
Lemma alts : forall vars m l bs, plain_list vars m (map (fun v => ([], v)) l) -> Forall2 (fun v b => ends V vars m v b) l bs ->
  ends V vars m (arr l) (existsb (fun b => b) bs).
Proof.
  intros vars m l bs P H. destruct (plain_ends V vars m _ P) as [A R]. destruct (existsb (fun b => b) bs) eqn:Q.
  - apply A. clear A R P. induction H as [|v b l bs H1 H2 IH]; [discriminate|]. cbn in Q. destruct b; cbn in Q.
    + exists [], ([], v), (map (fun v => ([], v)) l). split; [reflexivity|]. split; [constructor|exact H1].
    + destruct (IH Q) as (pre & x & post & E & A1 & A2). exists (([], v) :: pre), x, post. cbn [map app]. rewrite E. split; [reflexivity|]. split; [constructor; assumption|exact A2].
  - apply R. clear A R P. induction H as [|v b l bs H1 H2 IH]; [constructor|]. cbn in Q. destruct b; [discriminate|]. cbn in Q. constructor; [exact H1|exact (IH Q)].
Qed.
Lemma alts_first : forall vars m v l, plain_list vars m (map (fun v => ([], v)) (v :: l)) -> ends V vars m v true -> ends V vars m (arr (v :: l)) true.
Proof.
  intros vars m v l P H. apply (plain_ends V vars m _ P). exists [], ([], v), (map (fun v => ([], v)) l). split; [reflexivity|]. split; [constructor|exact H].
Qed.

(** What the usevar rule says. *)
Definition no_word (v : value) : bool := match v with VStr _ _ | VNum _ => false | _ => true end.
Lemma use_ends : forall k v, ends V [(txt "$keyname", v)] (k, v) (arr [w "usevar"; arr [w "$keyname"; arr [w "$this"]]; w "any"]) (no_word v).
Proof.
  intros k v.
  assert (G : get_var V [(txt "$keyname", v)] (k, v) ([], arr [w "$keyname"; arr [w "$this"]]) =
    if no_word v then ([], arr [w "$keyname"; arr [w "$this"]]) else ([], VUndef)).
  { destruct v as [| |b|n|e s|l|d l]; try reflexivity. unfold get_var, arr, w. cbn.
    unfold vitem. cbn. destruct (Z.to_nat _); reflexivity. }
  destruct (no_word v) eqn:Q.
  - apply (usevar_step V [(txt "$keyname", v)] (k, v) [] None [] (arr [w "$keyname"; arr [w "$this"]]) [([], w "any")] _ G); [discriminate|].
    exists [], ([], w "any"), []. split; [reflexivity|]. split; [constructor|]. apply word_ends. reflexivity.
  - apply (usevar_unknown V [(txt "$keyname", v)] (k, v) [] None [] (arr [w "$keyname"; arr [w "$this"]]) [([], w "any")]). left. exact G.
Qed.
Lemma prefix_ends : forall vars m c, ends V vars m (arr [w "prefix"; VStr None [c]]) (match get_string (snd m) with x :: _ => x =? c | [] => false end).
Proof.
  intros vars m c. destruct (prefix_text V vars m [] None [] None [c] [] ltac:(constructor)) as [A R].
  destruct (get_string (snd m)) as [|x t] eqn:E.
  - apply R. intros rest H. discriminate.
  - destruct (x =? c) eqn:Q.
    + apply Z.eqb_eq in Q. subst x. apply A. exists t. split; [reflexivity|]. left. reflexivity.
    + apply R. intros rest H. injection H as -> _. lia.
Qed.

Definition known_text (s : bytes) : bool :=
  match s with x :: _ => x =? 39 | [] => false end || (match s with x :: _ => x =? 35 | [] => false end ||
  existsb (beqb s) (map txt ["string"; "number"; "boolean"; "any"; "base64"; "base64url"; "hex"; "uppercase"; "lowercase"; "alpha"; "alnum";
           "digits"; "integer"; "null"; "optional"; "datetime"; "datetimez"; "date"; "time"; "timez"]%string)).
Lemma simple_ends : forall k v, ends V [(txt "$keyname", v)] (k, v) (w "SimpleRule") (known_text (get_string v) || no_word v).
Proof.
  intros k v. apply class_ends; [reflexivity|reflexivity|reflexivity|]. rewrite at_simple.
  assert (E : known_text (get_string v) || no_word v = existsb (fun b => b)
    ([match get_string v with x :: _ => x =? 39 | [] => false end; match get_string v with x :: _ => x =? 35 | [] => false end] ++
     map (beqb (get_string v)) (map txt ["string"; "number"; "boolean"; "any"; "base64"; "base64url"; "hex"; "uppercase"; "lowercase"; "alpha"; "alnum";
           "digits"; "integer"; "null"; "optional"; "datetime"; "datetimez"; "date"; "time"; "timez"]%string) ++ [no_word v; false])).
  { unfold known_text. cbn [existsb map app]. rewrite !orb_false_r, <- !orb_assoc. reflexivity. }
  rewrite E. apply alts; [exact I|]. unfold simple_items. cbn [map app].
  constructor; [apply (prefix_ends _ (k, v) 39)|]. constructor; [apply (prefix_ends _ (k, v) 35)|].
  do 20 (constructor; [apply word_ends; reflexivity|]).
  constructor; [apply use_ends|]. constructor; [apply word_ends; reflexivity|]. constructor.
Qed.

(** Texts and numbers are none of the other rules. *)
Lemma tuple_rej : forall vars m k k' n rules, (forall l, snd m <> VArr l) -> ends V vars m (VArr ((k, VArr [(k', VNum n)]) :: rules)) false.
Proof.
  intros vars m k k' n rules H. apply ends_step. exists 0%nat. intros g _ p s E. cbn [rule_step]. apply close_is. cbn [eval_params].
  unfold eval_array. destruct (snd m) as [| | | | |l|]; try (eexists; reflexivity). exfalso. exact (H l eq_refl).
Qed.
Definition scalar_kind (v : value) : Prop := match v with VStr _ _ | VNum _ => True | _ => False end.
Lemma scalar_no_array : forall v, scalar_kind v -> forall l, v <> VArr l.
Proof. intros v H l ->. exact H. Qed.
Lemma split_scalar : forall v z, scalar_kind v -> 0 < z -> scalar_kind (fst (split_value v z)).
Proof.
  intros v z H Z0. destruct v as [| |b|n|e s|l|d l]; try destruct H; cbn [split_value].
  - replace (z <? 0) with false by lia. unfold split_value_pos. cbn. replace (0 <? z) with true by lia. destruct (z <? 0) eqn:Q; [lia|]. exact I.
  - unfold str_split_at. replace (0 <? z) with true by lia. unfold split_at_pos. repeat (match goal with |- context [if ?b then _ else _] => destruct b end; try exact I).
Qed.
Lemma all_rej : forall v k, scalar_kind v -> ends V [(txt "$keyname", v)] (k, v) (w "All") false.
Proof.
  intros v k H. apply class_ends; [reflexivity|reflexivity|reflexivity|]. rewrite at_all.
  apply ends_step. exists 0%nat. intros g _ p s E. unfold arr. cbn [map rule_step]. apply close_is.
  change (out_is (op_prefix V (eval_rule V g) p (k, v) [([], w "prefix"); ([], arr [w "^"]); ([], w "AllCont")] s) false).
  unfold op_prefix. rewrite E.
  change (snd (get_var V [(txt "$keyname", v)] (k, v) (nth 1 [([], w "prefix"); ([], arr [w "^"]); ([], w "AllCont")] ([], VUndef)))) with (arr [w "^"]).
  unfold arr at 1. cbn [map snd length]. change (s32 (Z.of_nat 1)) with 1.
  pose proof (split_scalar v 1 H ltac:(lia)) as K. destruct (split_value v 1) as [a b]. cbn [fst] in K.
  destruct a; try destruct K; eexists; reflexivity.
Qed.
Lemma range_rej : forall v k, scalar_kind v -> ends V [(txt "$keyname", v)] (k, v) (w "Range") false.
Proof.
  intros v k H. apply class_ends; [reflexivity|reflexivity|reflexivity|]. rewrite at_range.
  pose proof (split_scalar v 2 H ltac:(lia)) as K. destruct (split_value v 2) as [a b] eqn:Q. cbn [fst] in K.
  assert (R : ends V [(txt "$keyname", v)] ([], a) (w "RangeCmd") false).
  { apply class_ends; [destruct a; try destruct K; reflexivity|reflexivity|reflexivity|]. apply tuple_rej, scalar_no_array, K. }
  apply ends_all in R as (f & R). apply ends_step. exists f. intros g G p s E. unfold arr. cbn [map rule_step]. apply close_is.
  change (out_is (op_split V (eval_rule V g) p (k, v) [([], w "split"); ([], VNum (NUInt 2)); ([], w "RangeCmd"); ([], w "AllCont")] s) false).
  unfold op_split. cbn [nth]. rewrite E.
  change (s32 (uint_of V (snd (get_var V [(txt "$keyname", v)] (k, v) ([], VNum (NUInt 2)))))) with 2. cbn [snd]. rewrite Q.
  destruct (R g G p s E) as (t & ->). eexists. reflexivity.
Qed.
Ltac tuple_class H := apply class_ends; [reflexivity|reflexivity|reflexivity|]; apply tuple_rej, (scalar_no_array _ H).
Lemma function_rej : forall v k, scalar_kind v -> ends V [(txt "$keyname", v)] (k, v) (w "FunctionRule") false.
Proof.
  intros v k H. apply class_ends; [reflexivity|reflexivity|reflexivity|]. rewrite at_function.
  apply (alts _ (k, v) function_items (repeat false 11)).
  - split; [cbn; intuition discriminate|]. split; [discriminate|exact I].
  - unfold function_items. cbn [map repeat]. constructor; [apply all_rej, H|]. constructor; [apply range_rej, H|].
    do 9 (constructor; [tuple_class H|]). constructor.
Qed.
Lemma const_ends : forall vars m r, match r with VNull | VBool _ | VNum _ => True | _ => False end -> ends V vars m r (veq (v_L V) (snd m) r).
Proof.
  intros vars m r H. apply ends_step. exists 0%nat. intros g _ p s E. destruct r; try destruct H; eexists; reflexivity.
Qed.
Lemma const_is : forall vars m r b, match r with VNull | VBool _ | VNum _ => True | _ => False end -> veq (v_L V) (snd m) r = b -> ends V vars m r b.
Proof. intros vars m r b H <-. exact (const_ends vars m r H). Qed.
Definition class_text (v : value) : bool := match v with VStr _ s => known_text s | _ => true end.
Lemma rule_ends : forall k v, ends V [(txt "$keyname", v)] (k, v) (w "Rule") (class_text v).
Proof.
  intros k v. apply class_ends; [reflexivity|reflexivity|reflexivity|]. rewrite at_rule.
  assert (P : plain_list [(txt "$keyname", v)] (k, v) (map (fun v => ([], v)) rule_items)).
  { split; [cbn; intuition discriminate|]. split; [discriminate|exact I]. }
  pose proof (simple_ends k v) as S1. destruct (no_word v) eqn:N.
  - rewrite orb_true_r in S1. replace (class_text v) with true by (destruct v; try discriminate; reflexivity).
    exact (alts_first _ _ _ _ P S1).
  - assert (K : scalar_kind v) by (destruct v; try discriminate; exact I). rewrite orb_false_r in S1.
    replace (class_text v) with (existsb (fun b => b) [known_text (get_string v); false; false; false; false; false;
      match v with VNum _ => true | _ => false end; false; false; false; false]).
    2:{ destruct v; try destruct K; cbn [existsb class_text get_string]; cbn [orb]; rewrite ?orb_false_r, ?orb_true_r; reflexivity. }
    apply alts; [exact P|]. unfold rule_items. cbn [map app].
    constructor; [exact S1|]. constructor; [apply function_rej, K|]. constructor; [tuple_class K|].
    constructor; [apply class_ends; [reflexivity|reflexivity|reflexivity|]; apply template_object_only; intros; destruct v; try destruct K; discriminate|].
    constructor.
    { apply ends_step. exists 0%nat. intros g _ p s E. apply close_is. destruct v; try destruct K; eexists; reflexivity. }
    constructor; [apply template_object_only; intros; destruct v; try destruct K; discriminate|].
    constructor; [apply word_ends; reflexivity|].
    do 3 (constructor; [apply const_is; [exact I|destruct v; try destruct K; reflexivity]|]).
    constructor; [apply word_ends; reflexivity|]. constructor.
Qed.
Lemma wild_ends : forall k v, ends V [] (k, v) wild_value (class_text v || beqb (get_string v) (txt "native")).
Proof.
  intros k v.
  replace (class_text v || beqb (get_string v) (txt "native")) with (existsb (fun b => b) [class_text v; beqb (get_string v) (txt "native")]) by (cbn; rewrite orb_false_r; reflexivity).
  apply alts; [exact I|]. constructor; [|constructor; [apply word_ends; reflexivity|constructor]].
  destruct (setvar_rule V [] (k, v) [] None [] None (tl (txt "$keyname")) [([], w "Rule")]) as [A R].
  pose proof (rule_ends k v) as H. destruct (class_text v).
  - apply A. exists [], ([], w "Rule"), []. split; [reflexivity|]. split; [constructor|exact H].
  - apply R. constructor; [exact H|constructor].
Qed.
Lemma version_ends : forall m, ends V [] m version_value (veq (v_L V) (snd m) (VNum (NUInt 1)) || negb (defined (snd m))).
Proof.
  intros m.
  replace (veq (v_L V) (snd m) (VNum (NUInt 1)) || negb (defined (snd m))) with (existsb (fun b => b) [veq (v_L V) (snd m) (VNum (NUInt 1)); negb (defined (snd m))]) by (cbn; rewrite orb_false_r; reflexivity).
  apply alts; [exact I|]. constructor; [apply (const_ends _ m (VNum (NUInt 1))); exact I|]. constructor; [apply word_ends; reflexivity|constructor].
Qed.

(** *** Definitions *)
Definition pass (x : bytes * value) : bool :=
  if beqb (fst x) (txt "_version") then veq (v_L V) (snd x) (VNum (NUInt 1)) || negb (defined (snd x))
  else class_text (snd x) || beqb (get_string (snd x)) (txt "native").
Lemma ends_true : forall vars m r b, ends V vars m r b -> (accepts V vars m r <-> b = true).
Proof. intros vars m r b H. split; [intros A; exact (ends_fun _ _ _ _ _ _ H A)|intros ->; exact H]. Qed.
Lemma ends_decided : forall vars m r b, ends V vars m r b -> decided V vars m r.
Proof. intros vars m r b H. destruct b; [left|right]; exact H. Qed.
Definition root_items : list member := [(txt "%", wild_value); (txt "_version", version_value)].
Lemma root_decided : forall m, decided V [] m (VObj false root_items).
Proof.
  intros m. apply decided_step. cbn [rule_step]. apply (runs_close V [] _ (fun s => length (vs_rej s))).
  unfold eval_object. destruct (snd m) as [| | | | | |d' ss]; try apply runs_done. cbn [members_of].
  assert (A : forall x r, In r root_items -> decided V [] x (snd r)).
  { intros [k v] r [<-|[<-|[]]]; cbn [snd]; [exact (ends_decided _ _ _ _ (wild_ends k v))|exact (ends_decided _ _ _ _ (version_ends (k, v)))]. }
  apply runs_template; [intros [k v] _; exact (ends_decided _ _ _ _ (wild_ends k v))|intros x r _; apply A|intros r; apply A].
Qed.
Lemma root_accepts : forall k d l, keys_increasing l -> (forall x, In x l -> fst x <> []) ->
  (accepts V [] (k, VObj d l) (value_member own_def (txt "_root")) <-> forall x, In x l -> pass x = true).
Proof.
  intros k d l K N. rewrite at_root. change (obj _) with (VObj false root_items).
  rewrite (template_accepts V [] k d l false root_items K N).
  2:{ repeat constructor. }
  2:{ repeat constructor. }
  assert (U : accepts V [] ([], VUndef) wild_value) by exact (wild_ends [] VUndef).
  split.
  - intros [[H1 H2] _] [n v] X. unfold pass. cbn [fst snd]. destruct (beqb n (txt "_version")) eqn:Q.
    + apply beqb_eq in Q. subst n. specialize (H1 (txt "_version", version_value) ltac:(right; left; reflexivity) ltac:(discriminate)).
      cbn [fst snd] in H1. change (unescape (txt "_version")) with (txt "_version") in H1. unfold subject_member in H1.
      rewrite (in_binding _ _ _ (keys_nodup _ K) X) in H1. apply (ends_true _ _ _ _ (version_ends _)) in H1. exact H1.
    + specialize (H2 (n, v) X). cbn [fst] in H2. apply (ends_true _ _ _ _ (wild_ends n v)). apply H2.
      intros [E|[]]. change (unescape (txt "_version")) with (txt "_version") in E. subst n. rewrite beqb_refl in Q. discriminate.
  - intros H. split; [|intros r [E|[E|[]]] _; inversion E; subst; exact U]. split.
    + intros t [<-|[<-|[]]] Nm; [exfalso; apply Nm; reflexivity|]. cbn [fst snd]. change (unescape (txt "_version")) with (txt "_version").
      unfold subject_member. destruct (binding (txt "_version") l) as [v|] eqn:B.
      * apply (ends_true _ _ _ _ (version_ends _)). apply binding_in in B. specialize (H _ B). unfold pass in H. cbn [fst snd] in H. rewrite beqb_refl in H. exact H.
      * apply (ends_true _ _ _ _ (version_ends _)). reflexivity.
    + intros [n v] X T. apply (ends_true _ _ _ _ (wild_ends n v)). specialize (H _ X). unfold pass in H. cbn [fst snd] in H.
      destruct (beqb n (txt "_version")) eqn:Q; [|exact H]. exfalso. apply T. left. apply beqb_eq in Q. subst n. reflexivity.
Qed.
End Own.

Lemma known_spec : forall s, known_text s || beqb s (txt "native") = true <-> In s own_names \/ (exists t, s = 39 :: t) \/ exists t, s = 35 :: t.
Proof.
  intros s. unfold known_text.
  assert (N : existsb (beqb s) (map txt ["string"; "number"; "boolean"; "any"; "base64"; "base64url"; "hex"; "uppercase"; "lowercase"; "alpha"; "alnum";
           "digits"; "integer"; "null"; "optional"; "datetime"; "datetimez"; "date"; "time"; "timez"]%string) || beqb s (txt "native") = true <-> In s own_names).
  { replace (existsb _ _ || beqb s (txt "native")) with (existsb (beqb s) own_names).
    2:{ unfold own_names. cbn [map existsb]. rewrite ?orb_false_r, <- !orb_assoc. reflexivity. }
    rewrite existsb_exists. split; [intros (x & X & E); apply beqb_eq in E; subst x; exact X|intros X; exists s; split; [exact X|apply beqb_refl]]. }
  rewrite <- !orb_assoc, !orb_true_iff, <- orb_true_iff, N. destruct s as [|c t]; split.
  - intros [H|[H|H]]; try discriminate. left. exact H.
  - intros [H|[(x & H)|(x & H)]]; try discriminate. right. right. exact H.
  - intros [H|[H|H]]; [right; left; exists t; f_equal; lia|right; right; exists t; f_equal; lia|left; exact H].
  - intros [H|[(x & H)|(x & H)]]; [right; right; exact H|left; injection H as -> _; reflexivity|right; left; injection H as -> _; reflexivity].
Qed.
Lemma pass_spec : forall V x, pass V x = true <-> passes_member (v_L V) x.
Proof.
  intros V [n v]. unfold pass, passes_member. cbn [fst snd]. destruct (beqb n (txt "_version")).
  - rewrite orb_true_iff. split.
    + intros [H|H]; [right; exact H|left; destruct v; try discriminate; reflexivity].
    + intros [->|H]; [right; reflexivity|left; exact H].
  - destruct v as [| |b|m|e s|l|d l]; cbn [class_text passes_class orb]; try tauto. apply known_spec.
Qed.
Lemma own_verdict : forall V k d l, v_def V = own_def -> keys_increasing l -> (forall x, In x l -> fst x <> []) ->
  exists fuel b, (b = true <-> Forall (passes_member (v_L V)) l) /\
    forall g p s, (fuel <= g)%nat -> vs_vars s = [] -> exists t, validate V g (k, VObj d l) (txt "_root") p s = VDone b t.
Proof.
  intros V k d l D K N. pose proof (root_accepts V D k d l K N) as A.
  assert (Q : decided V [] (k, VObj d l) (value_member own_def (txt "_root"))) by (rewrite at_root; exact (root_decided V D (k, VObj d l))).
  assert (E : exists b, ends V [] (k, VObj d l) (value_member own_def (txt "_root")) b) by (destruct Q as [Q|Q]; eexists; exact Q).
  destruct E as (b & E). pose proof (ends_true V [] _ _ b E) as T. apply ends_all in E as (f & E). exists f, b. split.
  - rewrite <- T, A, Forall_forall. split; intros H x X; apply pass_spec, H, X.
  - intros g p s G Vs. unfold validate. rewrite D.
    change (defined (value_member own_def (txt "_version")) && negb (SFeqb (value_dbl (v_L V) (v_F V) (value_member own_def (txt "_version"))) (f_of_Z 1))) with false.
    cbv iota. exact (E g G p (clear_results s) Vs).
Qed.
Lemma own_others : forall V m, v_def V = own_def -> (forall d l, snd m <> VObj d l) ->
  exists fuel, forall g p s, (fuel <= g)%nat -> vs_vars s = [] -> exists t, validate V g m (txt "_root") p s = VDone false t.
Proof.
  intros V m D N. assert (E : ends V [] m (value_member own_def (txt "_root")) false) by (rewrite at_root; apply template_object_only; exact N).
  apply ends_all in E as (f & E). exists f. intros g p s G Vs. unfold validate. rewrite D.
  change (defined (value_member own_def (txt "_version")) && negb (SFeqb (value_dbl (v_L V) (v_F V) (value_member own_def (txt "_version"))) (f_of_Z 1))) with false.
  cbv iota. exact (E g G p (clear_results s) Vs).
Qed.
Lemma own_read : forall L, from_stream L (mkPF false false) own_text = Ok own_def.
Proof. intros L. vm_compute. reflexivity. Qed.
Lemma own_self : forall L, Forall (passes_member L) (members_of own_def).
Proof.
  intros L. assert (H : forall x, In x (members_of own_def) -> pass (mkVenv L (mkPF false false) (mkSer (fun _ _ => []) (fun _ _ => [])) false VUndef (fun _ _ => false) (fun _ _ _ => []) (fun _ => 0) (fun _ _ _ => false)) x = true).
  { apply forallb_forall. vm_compute. reflexivity. }
  apply Forall_forall. intros x X. apply H, pass_spec in X. exact X.
Qed.
