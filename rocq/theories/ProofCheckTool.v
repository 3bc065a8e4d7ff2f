(** Proofs about the command line validator. *)
From Coq Require Import String Lia ZifyBool.
From Verif Require Import Base ModelValue ModelKeyed ModelText SpecText ProofText1 ModelObject ModelEq ModelEnc ModelJwt ModelString ModelStreams ModelPath ProofPath ModelRpc ModelValidator.
From Verif Require Import SpecValidator ProofValidator ProofValidator5 SpecReuse ProofReuse SpecPoints ProofPoints ModelCheckTool SpecCheckTool.
From Verif Require ProofTools.
From Verif Require SpecTerm ProofTerm.
Local Open Scope Z_scope.
Local Open Scope list_scope.
Notation length := List.length.

(** *** Printing *)
Lemma to_string_some : forall E utf8 v, exists t, to_string E utf8 v = Some t.
Proof.
  intros E utf8 v. destruct v as [| |b|n|e s|l|d l]; try (eexists; reflexivity).
  - destruct n; eexists; reflexivity.
  - destruct e as [e|]; [|eexists; reflexivity]. cbn [to_string]. assert (G : exists d, get_binary e (VStr (Some e) s) = Some d) by (destruct s; eexists; reflexivity).
    destruct G as (d & ->). eexists. reflexivity.
Qed.
Lemma print_app : forall a b, print_path (a ++ b) = match print_path a, print_path b with Some x, Some y => Some (x ++ y) | _, _ => None end.
Proof.
  induction a as [|x a IH]; intros b; cbn [app print_path]; [destruct (print_path b); reflexivity|]. rewrite IH.
  destruct (print_component (snd x)); [|reflexivity]. destruct (print_path a), (print_path b); try reflexivity. cbn [app]. rewrite <- app_assoc. reflexivity.
Qed.
Lemma print_some : forall p, exists t, print_path (path_items p) = Some t.
Proof.
  induction p as [|x p (t & IH)]; [eexists; reflexivity|]. cbn [path_items]. rewrite print_app, IH. cbn [print_path snd].
  destruct (is_index x); eexists; reflexivity.
Qed.
Lemma items_rev : forall q, path_items (rev q) = map (fun x => ([], if is_index x then VNum (NUInt (pe_index x)) else VStr None (pe_key x))) q.
Proof.
  assert (A : forall p, path_items p = rev (map (fun x => ([], if is_index x then VNum (NUInt (pe_index x)) else VStr None (pe_key x))) p)) by (induction p as [|x p IH]; [reflexivity|cbn [path_items map rev]; rewrite IH; reflexivity]).
  intros q. rewrite A, map_rev, rev_involutive. reflexivity.
Qed.
Lemma point_shown : forall v q, points v q -> exists t, print_path (path_items (rev q)) = Some t /\ shown q t.
Proof.
  intros v q H. rewrite items_rev. induction H as [v|d l k|l i I|d l k w q _ _ (t & IH & S)|l i m q _ I _ (t & IH & S)].
  - exists []. split; [reflexivity|constructor].
  - eexists. split; [reflexivity|]. apply sh_name. constructor.
  - cbn [map]. unfold is_index. cbn [pindex pe_index]. replace (i =? no_index) with false by (unfold no_index; lia). cbn [negb print_path print_component snd num_uint option_map].
    eexists. split; [reflexivity|]. cbn [app]. rewrite <- app_assoc. cbn [app]. apply sh_position; [lia|exact (write_unsigned_spec i ltac:(lia))|constructor].
  - cbn [map print_path print_component snd]. rewrite IH. eexists. split; [reflexivity|]. apply sh_name. exact S.
  - cbn [map]. unfold is_index at 1. cbn [pindex pe_index]. replace (Z.of_nat i =? no_index) with false by (unfold no_index; lia). cbn [negb print_path print_component snd num_uint option_map].
    rewrite IH. eexists. split; [reflexivity|]. cbn [app]. rewrite <- app_assoc. cbn [app]. apply sh_position; [lia|exact (write_unsigned_spec (Z.of_nat i) ltac:(lia))|exact S].
Qed.
Lemma rej_some : forall E (r : path * value), exists t, print_rej E (VArr [([], path_to_value (fst r)); ([], snd r)]) = Some t.
Proof.
  intros E r. unfold print_rej, item_of. cbn [members_of map snd nth]. rewrite path_to_value_items. cbn [members_of].
  destruct (print_some (fst r)) as (a & ->). destruct (to_string_some E false (snd r)) as (b & ->). eexists. reflexivity.
Qed.
Lemma rejs_some : forall E t, exists o, print_rejs E (members_of (get_rejections t)) = Some o.
Proof.
  intros E t. unfold get_rejections. cbn [members_of]. induction (vs_rej t) as [|r l (o & IH)]; [eexists; reflexivity|].
  cbn [map print_rejs snd]. destruct (rej_some E r) as (a & ->). rewrite IH. eexists. reflexivity.
Qed.

(** *** Verdicts *)
Section Run.
Variables (V : venv) (files : bytes -> option bytes) (cin name : bytes) (args : list bytes) (indef inp : bytes).
Hypothesis G : given files cin args indef inp.
Lemma main_run : forall fuel, validator_main V fuel files cin name args = run_validator V fuel indef inp.
Proof.
  intros fuel. unfold validator_main. destruct args as [|d [|i rest]]; cbn [given] in G; [destruct G|destruct G as [-> ->]; reflexivity|destruct G as [-> ->]; reflexivity].
Qed.
Variables (def input : value).
Hypothesis D : from_stream (v_L V) (mkPF false false) indef = Ok def.
Hypothesis I : from_stream (v_L V) (mkPF false false) inp = Ok input.
Notation W := (tool_env V def).
Notation root := (value_member def (txt "_root")).
Lemma run_done : forall fuel, validator_main V fuel files cin name args =
  match validate W fuel ([], input) (txt "_root") [] v_init with
  | VDone true _ => Exit 0 []
  | VDone false t => match print_rejs (v_E V) (members_of (get_rejections t)) with Some o => Exit 1 o | None => ExitBad end
  | VThrow _ => Exit 255 []
  | VBad => ExitBad
  | VFuel => ExitNever
  end.
Proof. intros fuel. rewrite main_run. unfold run_validator. rewrite D, I. reflexivity. Qed.
Lemma verdict : supported W ->
  (accepts W [] ([], input) root <-> exists fuel, forall g, (fuel <= g)%nat -> validator_main V g files cin name args = Exit 0 []) /\
  (rejects W [] ([], input) root <-> exists fuel, forall g, (fuel <= g)%nat -> exists out, validator_main V g files cin name args = Exit 1 out).
Proof.
  intros Sp. split; split.
  - intros A. destruct (supported_runs W ([], input) (txt "_root") true [] Sp A) as (fuel & K). exists fuel. intros g L. destruct (K g [] v_init L eq_refl) as (t & E). rewrite run_done, E. reflexivity.
  - intros (fuel & K). specialize (K fuel (le_n _)). rewrite run_done in K.
    destruct (validate W fuel ([], input) (txt "_root") [] v_init) as [[|] t|t| |] eqn:E; try discriminate K.
    + exact (supported_class W fuel _ _ _ _ _ _ Sp E).
    + destruct (rejs_some (v_E V) t) as (o & Eo). rewrite Eo in K. discriminate K.
  - intros A. destruct (supported_runs W ([], input) (txt "_root") false [] Sp A) as (fuel & K). exists fuel. intros g L. destruct (K g [] v_init L eq_refl) as (t & E). rewrite run_done, E.
    destruct (rejs_some (v_E V) t) as (o & ->). eauto.
  - intros (fuel & K). destruct (K fuel (le_n _)) as (out & K'). rewrite run_done in K'.
    destruct (validate W fuel ([], input) (txt "_root") [] v_init) as [[|] t|t| |] eqn:E; try discriminate K'.
    exact (supported_class W fuel _ _ _ _ _ _ Sp E).
Qed.
Lemma lines : supported W -> direct def -> short input -> forall fuel out, validator_main V fuel files cin name args = Exit 1 out ->
  exists t, validate W fuel ([], input) (txt "_root") [] v_init = VDone false t /\
  exists ls, out = concat ls /\
    Forall2 (fun r ln => exists q rule pt rt, snd r = VArr [([], path_to_value (rev q)); ([], rule)] /\ points input q /\ shown q pt /\
      to_string (v_E V) false rule = Some rt /\ ln = pt ++ [58; 9] ++ rt ++ [10]) (members_of (get_rejections t)) ls.
Proof.
  intros Sp Di Sh fuel out K. rewrite run_done in K.
  destruct (validate W fuel ([], input) (txt "_root") [] v_init) as [[|] t|t| |] eqn:E; try discriminate K. exists t. split; [reflexivity|].
  destruct (print_rejs (v_E V) (members_of (get_rejections t))) as [o|] eqn:P; try discriminate K. injection K as ->.
  assert (A : forall r, In r (members_of (get_rejections t)) -> exists q rule, snd r = VArr [([], path_to_value (rev q)); ([], rule)] /\ points input q).
  { intros r Hr. destruct (rejections_point W fuel ([], input) (txt "_root") [] v_init false t r Sp Di Sh E Hr) as (q & rule & H1 & H2). rewrite app_nil_r in H1. eauto. }
  clear E. revert out P A. induction (members_of (get_rejections t)) as [|r l IH]; intros out P A.
  - injection P as <-. exists []. split; [reflexivity|constructor].
  - cbn [print_rejs] in P. destruct (A r (or_introl eq_refl)) as (q & rule & Hr & Pt). destruct (point_shown _ _ Pt) as (pt & Hp & Sq).
    destruct (print_rejs (v_E V) l) as [o|] eqn:Po; [|destruct (print_rej (v_E V) (snd r)); discriminate P].
    destruct (IH o eq_refl (fun x Hx => A x (or_intror Hx))) as (ls & -> & F).
    destruct (to_string_some (v_E V) false rule) as (rt & Rt).
    assert (Pr : print_rej (v_E V) (snd r) = Some (pt ++ [58; 9] ++ rt ++ [10])).
    { rewrite Hr. unfold print_rej, item_of. cbn [members_of map snd nth]. rewrite path_to_value_items. cbn [members_of]. rewrite Hp, Rt. reflexivity. }
    rewrite Pr in P. injection P as <-. exists ((pt ++ [58; 9] ++ rt ++ [10]) :: ls). split; [reflexivity|].
    constructor; [|exact F]. exists q, rule, pt, rt. auto.
Qed.
Lemma version : ~ supported W -> let ver := value_member def (txt "_version") in (forall l, ver <> VArr l) -> (forall d l, ver <> VObj d l) ->
  forall fuel, exists vt, to_string (v_E V) false ver = Some vt /\ validator_main V fuel files cin name args = Exit 1 (txt "/_version:" ++ [9] ++ vt ++ [10]).
Proof.
  intros Sp ver A O fuel. destruct (unsupported_new W fuel ([], input) (txt "_root") [] Sp A O) as (t & E & R).
  destruct (to_string_some (v_E V) false ver) as (vt & Hv). exists vt. split; [exact Hv|]. rewrite run_done, E, R. cbn [members_of print_rejs snd]. unfold print_rej, item_of. cbn [members_of map snd nth tool_env v_def]. fold ver. rewrite Hv. cbn [print_path print_component snd get_string].
  rewrite app_nil_r. reflexivity.
Qed.
End Run.

Lemma zero_status : forall V fuel files cin name args out, args <> [] -> validator_main V fuel files cin name args = Exit 0 out ->
  out = [] /\ exists indef inp def input, given files cin args indef inp /\
    from_stream (v_L V) (mkPF false false) indef = Ok def /\ from_stream (v_L V) (mkPF false false) inp = Ok input /\
    supported (tool_env V def) /\ accepts (tool_env V def) [] ([], input) (value_member def (txt "_root")).
Proof.
  intros V fuel files cin name args out Na H.
  assert (Gv : exists indef inp, given files cin args indef inp).
  { unfold validator_main in H. destruct args as [|d rest]; [congruence|]. destruct (files d) as [indef|] eqn:Fd; [|discriminate]. destruct rest as [|i rest].
    - exists indef, cin. cbn. auto.
    - destruct (files i) as [inp|] eqn:Fi; [|discriminate]. exists indef, inp. cbn. auto. }
  destruct Gv as (indef & inp & Gv). pose proof (main_run V files cin name args indef inp Gv fuel) as M. rewrite M in H. unfold run_validator in H.
  destruct (from_stream (v_L V) (mkPF false false) indef) as [def| |] eqn:D; try discriminate.
  destruct (from_stream (v_L V) (mkPF false false) inp) as [input| |] eqn:I; try discriminate.
  destruct (validate (tool_env V def) fuel ([], input) (txt "_root") [] v_init) as [[|] t|t| |] eqn:E; try discriminate.
  2: { destruct (rejs_some (v_E V) t) as (o & Eo). rewrite Eo in H. discriminate. }
  injection H as <-. split; [reflexivity|]. exists indef, inp, def, input. split; [exact Gv|]. split; [exact D|]. split; [exact I|].
  assert (Sp : supported (tool_env V def)).
  { apply supported_iff. cbv zeta. unfold validate in E. destruct (defined _ && _) eqn:X in E; [discriminate|]. exact X. }
  split; [exact Sp|]. exact (supported_class _ fuel _ _ _ _ _ _ Sp E).
Qed.
Lemma not_json : forall V fuel files cin name args indef inp, given files cin args indef inp ->
  from_stream (v_L V) (mkPF false false) indef = Err \/ from_stream (v_L V) (mkPF false false) inp = Err ->
  validator_main V fuel files cin name args = Exit 255 [].
Proof.
  intros V fuel files cin name args indef inp G H. rewrite (main_run V files cin name args indef inp G). unfold run_validator.
  pose proof (ProofTools.stream_ends (v_L V) (mkPF false false) indef) as N. destruct H as [->| ->]; [reflexivity|].
  destruct (from_stream (v_L V) (mkPF false false) indef); congruence.
Qed.
Lemma sound_status : forall V files cin name args indef inp, given files cin args indef inp ->
  forall def input, from_stream (v_L V) (mkPF false false) indef = Ok def -> from_stream (v_L V) (mkPF false false) inp = Ok input ->
  forall rank, SpecTerm.sound_definition def rank ->
  exists status fuel, (status = 0 \/ status = 1) /\ forall g, (fuel <= g)%nat -> exists out, validator_main V g files cin name args = Exit status out.
Proof.
  intros V files cin name args indef inp G def input D I rank H.
  destruct (ProofTerm.sound_validates (tool_env V def) rank H ([], input) (txt "_root") [] v_init) as (f & b & K).
  exists (if b then 0 else 1), f. split; [destruct b; auto|]. intros g L. destruct (K g L) as (t & E).
  rewrite (run_done V files cin name args indef inp G def input D I), E. destruct b; [eauto|]. destruct (rejs_some (v_E V) t) as (o & ->). eauto.
Qed.
Lemma raised : forall V fuel files cin name args out, validator_main V fuel files cin name args = Exit 255 out <->
  out = [] /\ exists indef inp, given files cin args indef inp /\
    (from_stream (v_L V) (mkPF false false) indef = Err \/ from_stream (v_L V) (mkPF false false) inp = Err \/
     exists def input t, from_stream (v_L V) (mkPF false false) indef = Ok def /\ from_stream (v_L V) (mkPF false false) inp = Ok input /\
       validate (tool_env V def) fuel ([], input) (txt "_root") [] v_init = VThrow t).
Proof.
  intros V fuel files cin name args out. split.
  - intros H.
    assert (Gv : exists indef inp, given files cin args indef inp).
    { unfold validator_main in H. destruct args as [|d rest]; [discriminate|]. destruct (files d) as [indef|] eqn:Fd; [|discriminate]. destruct rest as [|i rest].
      - exists indef, cin. cbn. auto.
      - destruct (files i) as [inp|] eqn:Fi; [|discriminate]. exists indef, inp. cbn. auto. }
    destruct Gv as (indef & inp & Gv). rewrite (main_run V files cin name args indef inp Gv fuel) in H. unfold run_validator in H.
    destruct (from_stream (v_L V) (mkPF false false) indef) as [def| |] eqn:D; [|injection H as <-; split; [reflexivity|]; exists indef, inp; auto|discriminate].
    destruct (from_stream (v_L V) (mkPF false false) inp) as [input| |] eqn:I; [|injection H as <-; split; [reflexivity|]; exists indef, inp; auto|discriminate].
    destruct (validate (tool_env V def) fuel ([], input) (txt "_root") [] v_init) as [[|] t|t| |] eqn:E; try discriminate.
    + destruct (print_rejs (v_E V) (members_of (get_rejections t))); discriminate.
    + injection H as <-. split; [reflexivity|]. exists indef, inp. split; [exact Gv|]. right. right. exists def, input, t. auto.
  - intros (-> & indef & inp & Gv & [H|[H|(def & input & t & D & I & E)]]).
    + apply (not_json V fuel files cin name args indef inp Gv). auto.
    + apply (not_json V fuel files cin name args indef inp Gv). auto.
    + rewrite (run_done V files cin name args indef inp Gv def input D I), E. reflexivity.
Qed.

(** *** Lines that tell the place *)
Lemma cut_at : forall (c : Z) a b a' b', ~ In c a -> ~ In c a' -> a ++ c :: b = a' ++ c :: b' -> a = a' /\ b = b'.
Proof.
  intros c. induction a as [|x a IH]; intros b a' b' N N' H; destruct a' as [|y a']; cbn [app] in H.
  - injection H as ->. auto.
  - exfalso. apply N'. left. injection H as E _. congruence.
  - exfalso. apply N. left. injection H as E _. congruence.
  - injection H as -> H'. destruct (IH b a' b') as [-> ->]; auto; intros X; [apply N|apply N']; right; exact X.
Qed.
Lemma digits_no : forall ds c, Forall digit_char ds -> ~ (48 <= c <= 57) -> ~ In c ds.
Proof. intros ds c F N H. rewrite Forall_forall in F. specialize (F c H). unfold digit_char in F. lia. Qed.
Lemma decimal_same : forall i i' ds, decimal i ds -> decimal i' ds -> i = i'.
Proof. intros i i' ds (_ & _ & <- & _) (_ & _ & <- & _). reflexivity. Qed.
Lemma shown_no_tab : forall q t, shown q t -> clear_path q -> ~ In 9 t.
Proof.
  intros q t H. induction H as [|k q t S IH|i ds q t I De S IH]; intros C X.
  - destruct X.
  - inversion_clear C as [|? ? (N1 & N2 & N3) C']. cbn [pe_key] in *. destruct X as [X|X]; [discriminate|]. apply in_app_or in X as [X|X]; [auto|exact (IH C' X)].
  - inversion_clear C as [|? ? _ C']. destruct De as (_ & Fd & _). destruct X as [X|[X|X]]; try discriminate. apply in_app_or in X as [X|[X|X]]; [exact (digits_no ds 9 Fd ltac:(lia) X)|discriminate|exact (IH C' X)].
Qed.
Lemma shown_head : forall q t, shown q t -> t = [] \/ exists u, t = 47 :: u.
Proof. intros q t H. destruct H; eauto. Qed.
(** A name ends where the next step starts. *)
Lemma name_ends : forall (k : bytes) k' t t', ~ In 47 k -> ~ In 47 k' -> (t = [] \/ exists u, t = 47 :: u) -> (t' = [] \/ exists u, t' = 47 :: u) -> k ++ t = k' ++ t' -> k = k' /\ t = t'.
Proof.
  intros k k' t t' N N' [->|(u & ->)] [->|(u' & ->)] H.
  - rewrite !app_nil_r in H. auto.
  - exfalso. apply N. rewrite app_nil_r in H. rewrite H. apply in_or_app. right; left; reflexivity.
  - exfalso. apply N'. rewrite app_nil_r in H. rewrite <- H. apply in_or_app. right; left; reflexivity.
  - destruct (cut_at _ _ _ _ _ N N' H) as [-> ->]. auto.
Qed.
Lemma shown_inj : forall q t, shown q t -> forall q', shown q' t -> clear_path q -> clear_path q' -> q = q'.
Proof.
  intros q t H. induction H as [|k q t S IH|i ds q t I De S IH]; intros q' H' C C'.
  - inversion H'. reflexivity.
  - inversion H' as [|k' q2 t2 S' E1 E2|i' ds' q2 t2 I' De' S' E1 E2]; subst.
    + inversion_clear C as [|? ? (N1 & N2 & N3) C1]. inversion_clear C' as [|? ? (N1' & N2' & N3') C1']. cbn [pe_key] in *.
      destruct (name_ends k' k t2 t N1' N1 (shown_head _ _ S') (shown_head _ _ S) E2) as [-> ->]. f_equal. apply IH; auto.
    + exfalso. inversion_clear C as [|? ? (N1 & N2 & N3) C1]. cbn [pe_key] in *. destruct k as [|c k]; cbn [app hd] in *.
      * destruct (shown_head _ _ S) as [->|(u & ->)]; discriminate.
      * injection E2 as X _. congruence.
  - inversion H' as [|k' q2 t2 S' E1 E2|i' ds' q2 t2 I' De' S' E1 E2]; subst.
    + exfalso. inversion_clear C' as [|? ? (N1 & N2 & N3) C1]. cbn [pe_key] in *. destruct k' as [|c k']; cbn [app hd] in *.
      * destruct (shown_head _ _ S') as [->|(u & ->)]; discriminate.
      * injection E2 as X _. congruence.
    + inversion_clear C as [|? ? _ C1]. inversion_clear C' as [|? ? _ C1'].
      destruct (cut_at 93 ds' t2 ds t) as [-> ->]; [exact (digits_no _ 93 (proj1 (proj2 De')) ltac:(lia))|exact (digits_no _ 93 (proj1 (proj2 De)) ltac:(lia))|exact E2|].
      rewrite (decimal_same _ _ _ De De'). f_equal. apply IH; auto.
Qed.
Lemma told : forall q q' t t' r r', shown q t -> shown q' t' -> clear_path q -> clear_path q' ->
  t ++ [58; 9] ++ r ++ [10] = t' ++ [58; 9] ++ r' ++ [10] -> q = q' /\ r = r'.
Proof.
  intros q q' t t' r r' S S' C C' H.
  assert (E : forall t r, t ++ [58; 9] ++ r ++ [10] = (t ++ [58]) ++ 9 :: r ++ [10]) by (intros; rewrite <- app_assoc; reflexivity).
  rewrite !E in H. apply cut_at in H as [H1 H2].
  - apply app_inj_tail in H1 as [-> _]. apply app_inj_tail in H2 as [-> _]. split; [exact (shown_inj _ _ S _ S' C C')|reflexivity].
  - intros X. apply in_app_or in X as [X|[X|[]]]; [exact (shown_no_tab _ _ S C X)|discriminate].
  - intros X. apply in_app_or in X as [X|[X|[]]]; [exact (shown_no_tab _ _ S' C' X)|discriminate].
Qed.

Lemma run_status : forall V fuel indef inp st out, run_validator V fuel indef inp = Exit st out -> st = 0 \/ st = 1 \/ st = 255.
Proof.
  intros V fuel indef inp st out H. unfold run_validator in H.
  destruct (from_stream (v_L V) _ indef); try discriminate; [|injection H as <- _; auto].
  destruct (from_stream (v_L V) _ inp); try discriminate; [|injection H as <- _; auto].
  destruct (validate _ _ _ _ _ _) as [b t|t| |]; try discriminate; [destruct b|]; [injection H as <- _; auto| |injection H as <- _; auto].
  destruct (print_rejs _ _); [injection H as <- _; auto|discriminate].
Qed.
Lemma unreadable : forall V fuel files cin name d rest,
  (files d = None <-> exists out, validator_main V fuel files cin name (d :: rest) = Exit 2 out) /\
  ((exists indef i more, files d = Some indef /\ rest = i :: more /\ files i = None) <-> exists out, validator_main V fuel files cin name (d :: rest) = Exit 3 out).
Proof.
  intros V fuel files cin name d rest. cbn [validator_main].
  destruct (files d) as [indef|]; [|split; (split; [eauto|]); [reflexivity|intros (x & i & m & A & _); discriminate|intros (o & A); discriminate]].
  destruct rest as [|i more].
  - split; (split; [|intros (o & A); apply run_status in A; lia]); [discriminate|intros (x & i & m & _ & A & _); discriminate].
  - destruct (files i) as [inp|] eqn:Fi.
    + split; (split; [|intros (o & A); apply run_status in A; lia]); [discriminate|]. intros (x & i' & m & _ & A & B). injection A as <- _. congruence.
    + split; (split; [|intros (o & A); try discriminate; eauto 8]); [discriminate|eauto].
Qed.
