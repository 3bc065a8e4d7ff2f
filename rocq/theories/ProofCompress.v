(** Compressor and decompressor keep the same dictionary. *)
From Coq Require Import Lia ZifyBool.
From Verif Require Import Base ModelCompress.
Local Open Scope Z_scope.
Local Open Scope list_scope.

(** *** The dictionary both sides hold: pairs of a code and a symbol, and the
    positions already taken over to the next dictionary, in order. *)
Notation dict := (list (Z * Z)).
Fixpoint idx (i : nat) (U : list nat) : option nat :=
  match U with
  | [] => None
  | x :: U' => if Nat.eqb x i then Some O else option_map S (idx i U')
  end.
Definition memb (i : nat) (U : list nat) : bool := match idx i U with Some _ => true | None => false end.
Definition new_at (i : nat) (U : list nat) : option Z := option_map (fun j => first_code + Z.of_nat j) (idx i U).
Definition new_of (p : Z) (U : list nat) : option Z := if p <? first_code then Some p else new_at (code_at p) U.
Definition new_val (p : Z) (U : list nat) : Z := match new_of p U with Some z => z | None => 0 end.

Fixpoint mapi_from {A B} (f : nat -> A -> B) (n : nat) (l : list A) : list B :=
  match l with [] => [] | x :: l' => f n x :: mapi_from f (S n) l' end.
Definition mapi {A B} (f : nat -> A -> B) (l : list A) : list B := mapi_from f 0 l.
Definition render (B : dict) (U : list nat) : dec_db :=
  mapi (fun i e => mkDI (fst e) (new_at i U) (snd e) (memb i U)) B.
Definition renderC (B : dict) (U : list nat) : seq_db :=
  mapi (fun i e => (e, mkSI (first_code + Z.of_nat i) (new_at i U) (memb i U))) B.
Definition next_dict (B : dict) (U : list nat) : dict :=
  map (fun i => (new_val (fst (nth i B (0, 0))) U, snd (nth i B (0, 0)))) U.

Lemma mapi_from_length : forall {A B} (f : nat -> A -> B) l n, length (mapi_from f n l) = length l.
Proof. intros A B f. induction l as [|x l IH]; intros n; [reflexivity|]. cbn. rewrite IH. reflexivity. Qed.
Lemma mapi_length : forall {A B} (f : nat -> A -> B) l, length (mapi f l) = length l.
Proof. intros. apply mapi_from_length. Qed.
Lemma mapi_from_app : forall {A B} (f : nat -> A -> B) l n l', mapi_from f n (l ++ l') = mapi_from f n l ++ mapi_from f (n + length l) l'.
Proof.
  intros A B f. induction l as [|x l IH]; intros n l'; cbn; [rewrite Nat.add_0_r; reflexivity|].
  rewrite IH. replace (S n + length l)%nat with (n + S (length l))%nat by lia. reflexivity.
Qed.
Lemma mapi_app1 : forall {A B} (f : nat -> A -> B) l x, mapi f (l ++ [x]) = mapi f l ++ [f (length l) x].
Proof. intros. unfold mapi. rewrite mapi_from_app. reflexivity. Qed.
Lemma mapi_from_nth : forall {A B} (f : nat -> A -> B) l n i, nth_error (mapi_from f n l) i = option_map (f (n + i)%nat) (nth_error l i).
Proof.
  intros A B f. induction l as [|x l IH]; intros n i; [destruct i; reflexivity|]. destruct i as [|i]; cbn [mapi_from nth_error].
  - rewrite Nat.add_0_r. reflexivity.
  - rewrite IH. replace (S n + i)%nat with (n + S i)%nat by lia. reflexivity.
Qed.
Lemma mapi_nth : forall {A B} (f : nat -> A -> B) l i, nth_error (mapi f l) i = option_map (f i) (nth_error l i).
Proof. intros. unfold mapi. rewrite mapi_from_nth. reflexivity. Qed.
Lemma nth_error_ext : forall {A} (l l' : list A), (forall i, nth_error l i = nth_error l' i) -> l = l'.
Proof.
  intros A. induction l as [|x l IH]; intros [|y l'] H; try reflexivity; try (specialize (H O); discriminate).
  pose proof (H O) as H0. cbn in H0. f_equal; [congruence|]. apply IH. intros i. exact (H (S i)).
Qed.
Lemma set_at_nth : forall {A} (x : A) l i j, nth_error (set_at i x l) j = if Nat.eqb i j then option_map (fun _ => x) (nth_error l j) else nth_error l j.
Proof.
  intros A x. induction l as [|y l IH]; intros i j.
  - destruct i, j; cbn [set_at nth_error option_map]; match goal with |- context [if ?b then _ else _] => destruct b end; reflexivity.
  - destruct i as [|i], j as [|j]; cbn [set_at nth_error Nat.eqb]; try reflexivity. apply IH.
Qed.

(** *** Positions *)
Lemma nodup_snoc : forall {A} (l : list A) x, NoDup l -> ~ In x l -> NoDup (l ++ [x]).
Proof.
  intros A l x D N. induction D as [|y l Y D IH]; [constructor; [intros []|constructor]|]. cbn [app]. constructor.
  - intros I. apply in_app_or in I as [I|[->|[]]]; [exact (Y I)|]. apply N. left. reflexivity.
  - apply IH. intros I. apply N. right. exact I.
Qed.
Lemma idx_app : forall i U V, idx i (U ++ V) = match idx i U with Some j => Some j | None => option_map (fun j => (length U + j)%nat) (idx i V) end.
Proof.
  intros i U V. induction U as [|x U IH]; cbn [app idx length].
  - destruct (idx i V); reflexivity.
  - destruct (Nat.eqb x i); [reflexivity|]. rewrite IH. destruct (idx i U); [reflexivity|]. destruct (idx i V); reflexivity.
Qed.
Lemma idx_some : forall i U j, idx i U = Some j -> nth_error U j = Some i.
Proof.
  intros i. induction U as [|x U IH]; intros j H; [discriminate|]. cbn in H. destruct (Nat.eqb_spec x i) as [->|N].
  - injection H as <-. reflexivity.
  - destruct (idx i U) as [k|]; [|discriminate]. injection H as <-. cbn. apply IH. reflexivity.
Qed.
Lemma idx_in : forall i U, In i U <-> exists j, idx i U = Some j.
Proof.
  intros i U. split.
  - induction U as [|x U IH]; intros H; [destruct H|]. cbn. destruct (Nat.eqb_spec x i) as [E|N]; [exists O; reflexivity|].
    destruct H as [E|H]; [contradiction|]. destruct (IH H) as (j & ->). exists (S j). reflexivity.
  - intros (j & H). apply idx_some in H. exact (nth_error_In _ _ H).
Qed.
Lemma memb_in : forall i U, memb i U = true <-> In i U.
Proof.
  intros i U. rewrite idx_in. unfold memb. destruct (idx i U) as [j|]; split; try discriminate; eauto. intros (j & H). discriminate.
Qed.
Lemma idx_nodup : forall U j i, NoDup U -> nth_error U j = Some i -> idx i U = Some j.
Proof.
  induction U as [|x U IH]; intros j i H E; [destruct j; discriminate|]. inversion_clear H as [|? ? N D]. destruct j as [|j]; cbn in E.
  - injection E as ->. cbn. rewrite Nat.eqb_refl. reflexivity.
  - cbn. destruct (Nat.eqb_spec x i) as [->|_]; [destruct N; exact (nth_error_In _ _ E)|]. rewrite (IH _ _ D E). reflexivity.
Qed.
Lemma idx_lt : forall i U j, idx i U = Some j -> (j < length U)%nat.
Proof. intros i U j H. apply idx_some in H. apply nth_error_Some. congruence. Qed.

Section Mask.
Variable ext : Z.
Notation maxopt := (max_code_opt ext).
Notation maxc := (max_code ext).
Hypothesis Cap : first_code < maxopt.
Hypothesis Big : flush_code ext < 2 ^ 16.

(** *** Well-formed dictionaries *)
Record wf (B : dict) (U : list nat) : Prop := mkWf {
  wf_prev : forall i p c, nth_error B i = Some (p, c) -> 0 <= p < first_code + Z.of_nat i /\ p < maxc;
  wf_out : forall i p c, nth_error B i = Some (p, c) -> 0 <= c < first_code;
  wf_nodup : NoDup B;
  wf_unodup : NoDup U;
  wf_urange : forall i, In i U -> (i < length B)%nat;
  wf_closed : forall j i p c, nth_error U j = Some i -> nth_error B i = Some (p, c) -> first_code <= p ->
     exists k, idx (code_at p) U = Some k /\ (k < j)%nat;
  wf_cap : first_code + Z.of_nat (length U) <= maxopt }.

Definition valid (B : dict) (p : Z) : Prop := 0 <= p < first_code + Z.of_nat (length B).
(** Room is left in the next dictionary. *)
Definition room (U : list nat) : Prop := first_code + Z.of_nat (length U) < maxopt.
Definition roomb (U : list nat) : bool := first_code + Z.of_nat (length U) <? maxopt.
Definition add (i : nat) (U : list nat) : list nat := if memb i U then U else if roomb U then U ++ [i] else U.

(** The positions a code goes through, from the root; the symbols it stands for. *)
Fixpoint path (B : dict) (f : nat) (p : Z) : list nat :=
  if p <? first_code then []
  else match f with O => [] | S f' => path B f' (fst (nth (code_at p) B (0, 0))) ++ [code_at p] end.
Fixpoint str (B : dict) (f : nat) (p : Z) : list Z :=
  if p <? first_code then [p]
  else match f with O => [] | S f' => str B f' (fst (nth (code_at p) B (0, 0))) ++ [snd (nth (code_at p) B (0, 0))] end.
Definition root (B : dict) (f : nat) (p : Z) : Z := hd 0 (str B f p).
Definition marks (B : dict) (f : nat) (U : list nat) (p : Z) : list nat := fold_left (fun U i => add i U) (path B f p) U.
(** Enough steps. *)
Definition deep (f : nat) (p : Z) : Prop := (p < first_code + Z.of_nat f)%Z.

Lemma code_at_lt : forall B p, valid B p -> first_code <= p -> (code_at p < length B)%nat.
Proof. intros B p V L. unfold code_at, valid in *. lia. Qed.
Lemma code_at_eq : forall p, first_code <= p -> p = first_code + Z.of_nat (code_at p).
Proof. intros p H. unfold code_at. lia. Qed.
Lemma entry : forall B U p, wf B U -> valid B p -> first_code <= p -> exists q c, nth_error B (code_at p) = Some (q, c) /\
  nth (code_at p) B (0, 0) = (q, c) /\ valid B q /\ q < p /\ q < maxc /\ 0 <= c < first_code.
Proof.
  intros B U p W V L. pose proof (code_at_lt _ _ V L) as Lt. destruct (nth_error B (code_at p)) as [[q c]|] eqn:E; [|apply nth_error_None in E; lia].
  exists q, c. pose proof (wf_prev _ _ W _ _ _ E) as P. pose proof (wf_out _ _ W _ _ _ E) as O. split; [reflexivity|].
  split; [apply nth_error_nth; exact E|]. unfold valid in *. unfold code_at in *. lia.
Qed.

Lemma marks_step : forall B f U p, first_code <= p ->
  marks B (S f) U p = add (code_at p) (marks B f U (fst (nth (code_at p) B (0, 0)))).
Proof.
  intros B f U p L. unfold marks. cbn [path]. destruct (Z.ltb_spec p first_code); [lia|]. rewrite fold_left_app. reflexivity.
Qed.
Lemma marks_small : forall B f U p, p < first_code -> marks B f U p = U.
Proof. intros B f U p L. unfold marks. destruct f; cbn [path]; destruct (Z.ltb_spec p first_code); try lia; reflexivity. Qed.
Lemma str_step : forall B f p, first_code <= p ->
  str B (S f) p = str B f (fst (nth (code_at p) B (0, 0))) ++ [snd (nth (code_at p) B (0, 0))].
Proof. intros B f p L. cbn [str]. destruct (Z.ltb_spec p first_code); [lia|]. reflexivity. Qed.
Lemma str_small : forall B f p, p < first_code -> str B f p = [p].
Proof. intros B f p L. destruct f; cbn [str]; destruct (Z.ltb_spec p first_code); try lia; reflexivity. Qed.

(** *** Adding positions *)
Lemma add_cases : forall i U, (In i U /\ add i U = U) \/ (~ In i U /\ room U /\ add i U = U ++ [i]) \/ (~ In i U /\ ~ room U /\ add i U = U).
Proof.
  intros i U. unfold add. destruct (memb i U) eqn:M.
  - left. split; [apply memb_in, M|reflexivity].
  - assert (~ In i U) by (intros I; apply memb_in in I; congruence). unfold room, roomb. destruct (Z.ltb_spec (first_code + Z.of_nat (length U)) maxopt).
    + right. left. auto.
    + right. right. split; [assumption|]. split; [lia|reflexivity].
Qed.
Lemma add_full : forall i U, ~ room U -> add i U = U.
Proof. intros i U H. destruct (add_cases i U) as [[_ E]|[[_ [R _]]|[_ [_ E]]]]; tauto. Qed.
Lemma add_in : forall i U, room (add i U) -> In i (add i U).
Proof.
  intros i U R. destruct (add_cases i U) as [[I ->]|[[_ [_ ->]]|[_ [N E]]]]; [exact I|apply in_or_app; right; left; reflexivity|rewrite E in R; tauto].
Qed.
Lemma add_room : forall i U, room (add i U) -> room U.
Proof. intros i U R. destruct (add_cases i U) as [[_ E]|[[_ [Q _]]|[_ [N E]]]]; [rewrite E in R; exact R|exact Q|rewrite E in R; exact R]. Qed.
Lemma add_incl : forall i U, incl U (add i U).
Proof. intros i U. destruct (add_cases i U) as [[_ ->]|[[_ [_ ->]]|[_ [_ ->]]]]; try apply incl_refl. apply incl_appl, incl_refl. Qed.
Lemma marks_incl : forall B f p U, incl U (marks B f U p).
Proof.
  intros B f p. unfold marks. induction (path B f p) as [|i l IH]; intros U; [apply incl_refl|]. cbn [fold_left].
  eapply incl_tran; [apply add_incl|apply IH].
Qed.
Lemma marks_room : forall B f p U, room (marks B f U p) -> room U.
Proof.
  intros B f p. unfold marks. induction (path B f p) as [|i l IH]; intros U R; [exact R|]. cbn [fold_left] in R. exact (add_room i U (IH _ R)).
Qed.
(** Nothing changes when the positions are there, or there is no room. *)
Lemma fold_add_same : forall l U, (forall i, In i l -> In i U) \/ ~ room U -> fold_left (fun U i => add i U) l U = U.
Proof.
  induction l as [|i l IH]; intros U H; [reflexivity|]. cbn [fold_left].
  assert (E : add i U = U).
  { destruct H as [H|H]; [|apply add_full, H]. unfold add. rewrite (proj2 (memb_in i U)); [reflexivity|]. apply H. left. reflexivity. }
  rewrite E. apply IH. destruct H as [H|H]; [left|right; exact H]. intros j J. apply H. right. exact J.
Qed.
Lemma fold_add_in : forall l U, room (fold_left (fun U i => add i U) l U) -> forall i, In i l -> In i (fold_left (fun U i => add i U) l U).
Proof.
  induction l as [|j l IH]; intros U R i I; [destruct I|]. cbn [fold_left] in *. destruct I as [->|I]; [|exact (IH _ R i I)].
  assert (Q : forall l U, room (fold_left (fun U i => add i U) l U) -> room U).
  { clear. induction l as [|j l IH]; intros U R; [exact R|]. exact (add_room j U (IH _ R)). }
  assert (G : forall l U, incl U (fold_left (fun U i => add i U) l U)).
  { clear. induction l as [|j l IH]; intros U; [apply incl_refl|]. eapply incl_tran; [apply add_incl|apply IH]. }
  apply G, add_in. exact (Q _ _ R).
Qed.
Lemma marks_same : forall B f p U, (forall i, In i (path B f p) -> In i U) \/ ~ room U -> marks B f U p = U.
Proof. intros. apply fold_add_same. assumption. Qed.
Lemma marks_in : forall B f p U, room (marks B f U p) -> forall i, In i (path B f p) -> In i (marks B f U p).
Proof. intros. apply fold_add_in; assumption. Qed.

(** The ancestors of what is taken over are taken over. *)
Lemma closed_path : forall f B U p, wf B U -> valid B p -> (first_code <= p -> In (code_at p) U) -> forall i, In i (path B f p) -> In i U.
Proof.
  induction f as [|f IH]; intros B U p W V H i I; cbn [path] in I; destruct (Z.ltb_spec p first_code) as [S|S]; try destruct I.
  destruct (entry B U p W V S) as (q & c & E & N & Vq & _). rewrite N in I. cbn [fst] in I. apply in_app_or in I as [I|[<-|[]]]; [|exact (H S)].
  apply (IH B U q W Vq); [|exact I]. intros Q. specialize (H S). apply In_nth_error in H as (j & H).
  destruct (wf_closed _ _ W _ _ _ _ H E Q) as (k & K & _). apply idx_in. eauto.
Qed.

Lemma wf_add : forall B U i p c, wf B U -> nth_error B i = Some (p, c) -> (first_code <= p -> room U -> In (code_at p) U) -> wf B (add i U).
Proof.
  intros B U i p c W E H. destruct (add_cases i U) as [[_ ->]|[[N [R ->]]|[_ [_ ->]]]]; [exact W| |exact W].
  destruct W as [P O D UD UR CL CP]. constructor; auto.
  - apply nodup_snoc; [exact UD|exact N].
  - intros k K. apply in_app_or in K as [K|[<-|[]]]; [apply UR, K|]. apply nth_error_Some. congruence.
  - intros j k q d J K Q. destruct (Nat.lt_ge_cases j (length U)) as [L|L].
    + rewrite nth_error_app1 in J by exact L. destruct (CL _ _ _ _ J K Q) as (x & X & Lx). exists x. rewrite idx_app, X. auto.
    + rewrite nth_error_app2 in J by exact L. destruct (j - length U)%nat as [|m] eqn:M; [|destruct m; discriminate]. injection J as <-.
      rewrite E in K. injection K as <- <-. specialize (H Q R). apply idx_in in H as (x & X). exists x. rewrite idx_app, X. split; [reflexivity|].
      apply idx_lt in X. lia.
  - rewrite app_length. unfold room in R. cbn [length]. lia.
Qed.

(** *** Independence of the bound and of later entries *)
Lemma path_le : forall f B p i, In i (path B f p) -> (forall k, (k < length B)%nat -> fst (nth k B (0, 0)) < first_code + Z.of_nat k) ->
  valid B p -> (i <= code_at p)%nat.
Proof.
  induction f as [|f IH]; intros B p i I H V; cbn [path] in I; destruct (Z.ltb_spec p first_code) as [S|S]; try destruct I.
  apply in_app_or in I as [I|[<-|[]]]; [|lia]. pose proof (code_at_lt _ _ V S) as Lt. specialize (H _ Lt) as Hp.
  destruct (Z.ltb_spec (fst (nth (code_at p) B (0, 0))) 0) as [Ng|Nn].
  - destruct f; cbn [path] in I; destruct (Z.ltb_spec (fst (nth (code_at p) B (0, 0))) first_code); try destruct I; unfold first_code in *; lia.
  - assert (i <= code_at (fst (nth (code_at p) B (0%Z, 0%Z))))%nat.
    { apply (IH B _ i I H). unfold valid in *. unfold code_at in *. lia. }
    unfold code_at in *. lia.
Qed.
Lemma wf_prev' : forall B U, wf B U -> forall k, (k < length B)%nat -> fst (nth k B (0, 0)) < first_code + Z.of_nat k.
Proof.
  intros B U W k L. destruct (nth_error B k) as [[q c]|] eqn:E; [|apply nth_error_None in E; lia].
  rewrite (nth_error_nth _ _ _ E). apply (wf_prev _ _ W _ _ _ E).
Qed.
Lemma path_deep : forall f g B U p, wf B U -> valid B p -> deep f p -> deep g p -> path B f p = path B g p.
Proof.
  induction f as [|f IH]; intros g B U p W V F G.
  - destruct g; cbn [path]; destruct (Z.ltb_spec p first_code); try reflexivity; unfold deep in *; lia.
  - destruct g as [|g]; cbn [path]; destruct (Z.ltb_spec p first_code) as [S|S]; try reflexivity; [unfold deep in *; lia|].
    destruct (entry B U p W V S) as (q & c & E & N & Vq & Lt & _). rewrite N. cbn [fst]. f_equal. apply (IH g B U q W Vq); unfold deep in *; lia.
Qed.
Lemma str_deep : forall f g B U p, wf B U -> valid B p -> deep f p -> deep g p -> str B f p = str B g p.
Proof.
  induction f as [|f IH]; intros g B U p W V F G.
  - destruct g; cbn [str]; destruct (Z.ltb_spec p first_code); try reflexivity; unfold deep in *; lia.
  - destruct g as [|g]; cbn [str]; destruct (Z.ltb_spec p first_code) as [S|S]; try reflexivity; [unfold deep in *; lia|].
    destruct (entry B U p W V S) as (q & c & E & N & Vq & Lt & _). rewrite N. cbn [fst snd]. f_equal. apply (IH g B U q W Vq); unfold deep in *; lia.
Qed.
Lemma path_ext : forall f B U p e, wf B U -> valid B p -> path (B ++ [e]) f p = path B f p.
Proof.
  induction f as [|f IH]; intros B U p e W V; cbn [path]; destruct (Z.ltb_spec p first_code) as [S|S]; try reflexivity.
  destruct (entry B U p W V S) as (q & c & E & N & Vq & Lt & _). rewrite app_nth1 by (apply code_at_lt; assumption). rewrite N. cbn [fst].
  rewrite (IH B U q e W Vq). reflexivity.
Qed.
Lemma str_ext : forall f B U p e, wf B U -> valid B p -> str (B ++ [e]) f p = str B f p.
Proof.
  induction f as [|f IH]; intros B U p e W V; cbn [str]; destruct (Z.ltb_spec p first_code) as [S|S]; try reflexivity.
  destruct (entry B U p W V S) as (q & c & E & N & Vq & Lt & _). rewrite app_nth1 by (apply code_at_lt; assumption). rewrite N. cbn [fst snd].
  rewrite (IH B U q e W Vq). reflexivity.
Qed.

(** With the bound of the code itself. *)
Definition mk (B : dict) (U : list nat) (p : Z) : list nat := marks B (S (code_at p)) U p.
Definition st (B : dict) (p : Z) : list Z := str B (S (code_at p)) p.
Lemma deep_self : forall p, deep (S (code_at p)) p.
Proof. intros p. unfold deep, code_at, first_code. lia. Qed.
Lemma mk_small : forall B U p, p < first_code -> mk B U p = U.
Proof. intros. apply marks_small. assumption. Qed.
Lemma st_small : forall B p, p < first_code -> st B p = [p].
Proof. intros. apply str_small. assumption. Qed.
Lemma mk_step : forall B U W p q c, wf B W -> valid B p -> first_code <= p -> nth_error B (code_at p) = Some (q, c) ->
  mk B U p = add (code_at p) (mk B U q).
Proof.
  intros B U U' p q c W V L E. unfold mk. rewrite marks_step by exact L. rewrite (nth_error_nth _ _ _ E). cbn [fst]. f_equal. unfold marks.
  destruct (entry B U' p W V L) as (q' & c' & E' & _ & Vq & Lt & _). assert (q' = q) as -> by congruence.
  rewrite (path_deep (code_at p) (S (code_at q)) B U' q W Vq); [reflexivity| |apply deep_self]. unfold deep, code_at. lia.
Qed.
Lemma st_step : forall B W p q c, wf B W -> valid B p -> first_code <= p -> nth_error B (code_at p) = Some (q, c) ->
  st B p = st B q ++ [c].
Proof.
  intros B U' p q c W V L E. unfold st. rewrite str_step by exact L. rewrite (nth_error_nth _ _ _ E). cbn [fst snd]. f_equal.
  destruct (entry B U' p W V L) as (q' & c' & E' & _ & Vq & Lt & _). assert (q' = q) as -> by congruence.
  apply (str_deep _ _ B U' q W Vq); [|apply deep_self]. unfold deep, code_at. lia.
Qed.
Lemma mk_path : forall f B W p, wf B W -> valid B p -> deep f p -> path B (S (code_at p)) p = path B f p.
Proof. intros f B W p H V D. apply (path_deep _ _ B W p H V); [apply deep_self|exact D]. Qed.
Lemma path_self : forall B p, first_code <= p -> In (code_at p) (path B (S (code_at p)) p).
Proof. intros B p L. cbn [path]. destruct (Z.ltb_spec p first_code); [lia|]. apply in_or_app. right. left. reflexivity. Qed.
Lemma code_ind : forall B W (P : Z -> Prop), wf B W -> (forall p, 0 <= p < first_code -> P p) ->
  (forall p q c, first_code <= p -> valid B p -> nth_error B (code_at p) = Some (q, c) -> q < p -> valid B q -> P q -> P p) ->
  forall p, valid B p -> P p.
Proof.
  intros B U P W Small Step p V. assert (H : forall n p, (code_at p < n)%nat -> valid B p -> P p).
  { induction n as [|n IH]; intros x L Vx; [lia|]. destruct (Z.lt_ge_cases x first_code) as [S|S]; [apply Small; unfold valid in Vx; lia|].
    destruct (entry B U x W Vx S) as (q & c & E & _ & Vq & Lt & _). apply (Step x q c S Vx E Lt Vq).
    destruct (Z.lt_ge_cases q first_code) as [Q|Q]; [apply Small; unfold valid in Vq; lia|]. apply IH; [unfold code_at in *; lia|exact Vq]. }
  exact (H (S (code_at p)) p (Nat.lt_succ_diag_r _) V).
Qed.
Lemma mk_new : forall B U p, room (mk B U p) -> first_code <= p -> In (code_at p) (mk B U p).
Proof. intros B U p R L. apply (marks_in B (S (code_at p)) p U R). apply path_self, L. Qed.
Lemma wf_mk : forall B U p, wf B U -> valid B p -> wf B (mk B U p).
Proof.
  intros B U p W V. revert p V. apply (code_ind B U); [exact W| |].
  - intros p H. rewrite mk_small by lia. exact W.
  - intros p q c L V E Lt Vq IH. rewrite (mk_step B U U p q c W V L E). apply (wf_add B _ _ q c); [exact IH|exact E|].
    intros Q R. apply mk_new; assumption.
Qed.
Lemma mk_sub : forall B U p i, wf B U -> valid B p -> In i (mk B U p) -> In i U \/ In i (path B (S (code_at p)) p).
Proof.
  intros B U p i W V. unfold mk, marks. generalize (path B (S (code_at p)) p). intros l. revert U W. induction l as [|k l IH]; intros U W H; [left; exact H|].
  cbn [fold_left] in H. assert (G : forall U, In i (fold_left (fun U i => add i U) l U) -> In i U \/ In i l).
  { clear. induction l as [|k l IH]; intros U H; [left; exact H|]. apply IH in H as [H|H]; [|right; right; exact H].
    destruct (add_cases k U) as [[_ E]|[[_ [_ E]]|[_ [_ E]]]]; rewrite E in H; [left; exact H| |left; exact H].
    apply in_app_or in H as [H|[->|[]]]; [left; exact H|right; left; reflexivity]. }
  apply G in H as [H|H]; [|right; right; exact H].
  destruct (add_cases k U) as [[_ E]|[[_ [_ E]]|[_ [_ E]]]]; rewrite E in H; [left; exact H| |left; exact H].
  apply in_app_or in H as [H|[->|[]]]; [left; exact H|right; left; reflexivity].
Qed.
Lemma mk_fresh : forall B U p q c, wf B U -> valid B p -> first_code <= p -> nth_error B (code_at p) = Some (q, c) ->
  ~ In (code_at p) U -> ~ In (code_at p) (mk B U q).
Proof.
  intros B U p q c W V L E N I. destruct (entry B U p W V L) as (q' & c' & E' & _ & Vq & Lt & _). assert (q' = q) as -> by congruence.
  destruct (mk_sub B U q _ W Vq I) as [J|J]; [exact (N J)|].
  pose proof (path_le _ _ _ _ J (wf_prev' _ _ W) Vq) as H.
  destruct (Z.lt_ge_cases q first_code) as [Q|Q]; [cbn [path] in J; destruct (Z.ltb_spec q first_code); [destruct J|lia]|].
  unfold code_at in *. lia.
Qed.
(** Going up again changes nothing. *)
Lemma mk_again : forall B U p q c, wf B U -> valid B p -> first_code <= p -> nth_error B (code_at p) = Some (q, c) ->
  mk B (mk B U p) q = mk B U p.
Proof.
  intros B U p q c W V L E. apply marks_same. destruct (Z.ltb_spec (first_code + Z.of_nat (length (mk B U p))) maxopt) as [R|R];
    [left|right; unfold room; lia].
  rewrite (mk_step B U U p q c W V L E) in *. intros i I. apply add_incl. apply (marks_in B (S (code_at q)) q U); [|exact I].
  apply (add_room (code_at p)). exact R.
Qed.
Lemma mk_used : forall B U p, wf B U -> valid B p -> (first_code <= p -> In (code_at p) U) -> mk B U p = U.
Proof. intros B U p W V H. apply marks_same. left. intros i I. exact (closed_path _ B U p W V H i I). Qed.
Lemma mk_ext : forall B U W p e, wf B W -> valid B p -> mk (B ++ [e]) U p = mk B U p.
Proof. intros B U U' p e W V. unfold mk, marks. rewrite (path_ext _ B U' p e W V). reflexivity. Qed.
Lemma st_ext : forall B W p e, wf B W -> valid B p -> st (B ++ [e]) p = st B p.
Proof. intros B U' p e W V. apply (str_ext _ B U' p e W V). Qed.
Lemma st_head : forall B U p, wf B U -> valid B p -> exists a l, st B p = a :: l /\ 0 <= a < first_code.
Proof.
  intros B U p W V. revert p V. apply (code_ind B U); [exact W| |].
  - intros p H. exists p, []. rewrite st_small by lia. auto.
  - intros p q c L V E Lt Vq (a & l & S & A). exists a, (l ++ [c]). rewrite (st_step B U p q c W V L E), S. auto.
Qed.

(** *** How many entries there can be *)
Lemma wf_size : forall B U, wf B U -> Z.of_nat (length B) <= maxc * first_code.
Proof.
  intros B U W.
  assert (M : 0 < maxc) by (unfold max_code_opt, first_code in Cap; lia).
  set (all := list_prod (zrange 0 (Z.to_nat maxc)) (zrange 0 (Z.to_nat first_code))).
  assert (I : incl B all).
  { intros [p c] I. apply In_nth_error in I as (i & E). pose proof (wf_prev _ _ W _ _ _ E). pose proof (wf_out _ _ W _ _ _ E).
    unfold all. apply in_prod; unfold zrange; apply in_map_iff; [exists (Z.to_nat p)|exists (Z.to_nat c)]; (split; [lia|]); apply in_seq; lia. }
  pose proof (NoDup_incl_length (wf_nodup _ _ W) I) as L. unfold all in L. rewrite prod_length in L. unfold zrange in L. rewrite !map_length, !seq_length in L.
  unfold first_code in *. nia.
Qed.
Lemma wf_small : forall B U, wf B U -> first_code + Z.of_nat (length B) + 1 < 2 ^ 32.
Proof. intros B U W. pose proof (wf_size B U W). unfold max_code, first_code in *. lia. Qed.
Lemma wf_usmall : forall B U, wf B U -> first_code + Z.of_nat (length U) < 2 ^ 32 - 1.
Proof. intros B U W. pose proof (wf_cap _ _ W). unfold max_code_opt, max_code in *. lia. Qed.

(** *** The decompressor on such dictionaries *)
Notation rn B U := (render (next_dict B U) []).
Lemma render_nth : forall B U i, nth_error (render B U) i = option_map (fun e => mkDI (fst e) (new_at i U) (snd e) (memb i U)) (nth_error B i).
Proof. intros. unfold render. rewrite mapi_nth. reflexivity. Qed.
Lemma render_length : forall B U, length (render B U) = length B.
Proof. intros. apply mapi_length. Qed.
Lemma next_dict_length : forall B U, length (next_dict B U) = length U.
Proof. intros. apply map_length. Qed.
Lemma u32_small : forall x, 0 <= x < 2 ^ 32 -> u32 x = x.
Proof. intros x H. unfold u32. apply Z.mod_small. exact H. Qed.
Lemma next_of_render : forall B U, wf B U -> next_of (render B U) = first_code + Z.of_nat (length B).
Proof. intros B U W. unfold next_of. rewrite render_length. pose proof (wf_small _ _ W). rewrite u32_small by (unfold first_code in *; lia). lia. Qed.
Lemma next_of_next : forall B U, wf B U -> next_of (rn B U) = first_code + Z.of_nat (length U).
Proof. intros B U W. unfold next_of. rewrite render_length, next_dict_length. pose proof (wf_usmall _ _ W). rewrite u32_small by (unfold first_code in *; lia). lia. Qed.
Lemma memb_not : forall i U, memb i U = false <-> ~ In i U.
Proof. intros i U. rewrite <- memb_in. destruct (memb i U); split; intros H; try congruence. Qed.
Lemma memb_snoc : forall i k U, memb k (U ++ [i]) = memb k U || Nat.eqb i k.
Proof.
  intros i k U. unfold memb. rewrite idx_app. destruct (idx k U); [reflexivity|]. cbn [idx orb]. destruct (Nat.eqb i k); reflexivity.
Qed.
Lemma new_at_snoc : forall i k U, new_at k (U ++ [i]) = if memb k U then new_at k U else if Nat.eqb i k then Some (first_code + Z.of_nat (length U)) else None.
Proof.
  intros i k U. unfold new_at, memb. rewrite idx_app. destruct (idx k U); [reflexivity|]. cbn [idx]. destruct (Nat.eqb i k); [|reflexivity].
  cbn [option_map]. rewrite Nat.add_0_r. reflexivity.
Qed.
Lemma new_at_none : forall i U, ~ In i U -> new_at i U = None.
Proof. intros i U N. unfold new_at. destruct (idx i U) as [j|] eqn:E; [|reflexivity]. destruct N. apply idx_in. eauto. Qed.
Lemma new_of_some : forall B U p, wf B U -> valid B p -> (first_code <= p -> In (code_at p) U) -> exists n, new_of p U = Some n /\
  (p < first_code /\ n = p \/ first_code <= p /\ exists j, idx (code_at p) U = Some j /\ n = first_code + Z.of_nat j).
Proof.
  intros B U p W V H. unfold new_of. destruct (Z.ltb_spec p first_code) as [S|S]; [exists p; auto|].
  destruct (proj1 (idx_in _ _) (H S)) as (j & J). exists (first_code + Z.of_nat j). unfold new_at. rewrite J. split; [reflexivity|]. right. eauto.
Qed.
Lemma new_of_snoc : forall i p U, (first_code <= p -> In (code_at p) U) -> new_of p (U ++ [i]) = new_of p U.
Proof.
  intros i p U H. unfold new_of. destruct (Z.ltb_spec p first_code) as [S|S]; [reflexivity|]. rewrite new_at_snoc.
  rewrite (proj2 (memb_in _ _) (H S)). reflexivity.
Qed.
Lemma closed_in : forall B U i p c, wf B U -> In i U -> nth_error B i = Some (p, c) -> first_code <= p -> In (code_at p) U.
Proof.
  intros B U i p c W I E L. apply In_nth_error in I as (j & J). destruct (wf_closed _ _ W _ _ _ _ J E L) as (k & K & _). apply idx_in. eauto.
Qed.
Lemma next_dict_snoc : forall B U i p c, wf B U -> nth_error B i = Some (p, c) -> (first_code <= p -> In (code_at p) U) ->
  next_dict B (U ++ [i]) = next_dict B U ++ [(new_val p U, c)].
Proof.
  intros B U i p c W E H. unfold next_dict. rewrite map_app. f_equal.
  - apply map_ext_in. intros k K. f_equal. pose proof (wf_urange _ _ W _ K) as Lt.
    destruct (nth_error B k) as [[q d]|] eqn:Ek; [|apply nth_error_None in Ek; lia]. rewrite (nth_error_nth _ _ _ Ek). cbn [fst].
    unfold new_val. rewrite new_of_snoc; [reflexivity|]. intros L. exact (closed_in _ _ _ _ _ W K Ek L).
  - cbn [map]. rewrite (nth_error_nth _ _ _ E). cbn [fst snd]. unfold new_val. rewrite new_of_snoc by exact H. reflexivity.
Qed.
Lemma render_nil_snoc : forall B p c, render (B ++ [(p, c)]) [] = render B [] ++ [mkDI p None c false].
Proof. intros. unfold render. rewrite mapi_app1. reflexivity. Qed.
Lemma render_snoc : forall B U p c, ~ In (length B) U -> render (B ++ [(p, c)]) U = render B U ++ [mkDI p None c false].
Proof.
  intros B U p c N. unfold render. rewrite mapi_app1. cbn [fst snd]. rewrite (new_at_none _ _ N), (proj2 (memb_not _ _) N). reflexivity.
Qed.
Lemma set_at_new : forall B U i p c, nth_error B i = Some (p, c) -> ~ In i U ->
  set_at i (mkDI p (Some (first_code + Z.of_nat (length U))) c true) (render B U) = render B (U ++ [i]).
Proof.
  intros B U i p c E N. apply nth_error_ext. intros k. rewrite set_at_nth, !render_nth, memb_snoc, new_at_snoc.
  destruct (Nat.eqb_spec i k) as [<-|D].
  - rewrite E. cbn [option_map fst snd]. rewrite (proj2 (memb_not _ _) N). reflexivity.
  - destruct (nth_error B k) as [[q d]|]; cbn [option_map]; [|reflexivity]. unfold memb, new_at. destruct (idx k U); reflexivity.
Qed.
Lemma set_at_same : forall {A} (l : list A) i x, nth_error l i = Some x -> set_at i x l = l.
Proof.
  intros A l i x E. apply nth_error_ext. intros k. rewrite set_at_nth. destruct (Nat.eqb_spec i k) as [<-|D]; [rewrite E|]; reflexivity.
Qed.
(** One entry taken over. *)
Lemma d_add_spec : forall B U i p c, wf B U -> nth_error B i = Some (p, c) -> ~ In i U -> valid B p -> (room U -> first_code <= p -> In (code_at p) U) ->
  exists i2, d_add_code ext (mkDI p None c false) (new_of p U) (rn B U) = COk (i2, rn B (add i U)) /\
    set_at i i2 (render B U) = render B (add i U) /\ di_new i2 = new_at i (add i U).
Proof.
  intros B U i p c W E N V H. unfold d_add_code. rewrite (next_of_next B U W). unfold add, roomb. rewrite (proj2 (memb_not _ _) N).
  destruct (Z.ltb_spec (first_code + Z.of_nat (length U)) maxopt) as [R|R].
  - destruct (new_of_some B U p W V (H R)) as (n & Nn & _). rewrite Nn. eexists. split; [|split].
    + f_equal. f_equal. rewrite (next_dict_snoc B U i p c W E (H R)), render_nil_snoc. unfold new_val. rewrite Nn. reflexivity.
    + cbn [di_prev di_out]. apply set_at_new; assumption.
    + cbn [di_new]. rewrite new_at_snoc, (proj2 (memb_not _ _) N), Nat.eqb_refl. reflexivity.
  - exists (mkDI p None c false). split; [reflexivity|]. split.
    + apply set_at_same. rewrite render_nth, E. cbn. rewrite (new_at_none _ _ N), (proj2 (memb_not _ _) N). reflexivity.
    + symmetry. apply new_at_none. exact N.
Qed.
Lemma translate_spec : forall B f p U, wf B U -> valid B p -> deep f p ->
  translate ext f p (render B U) (rn B U) = COk (new_of p (mk B U p), render B (mk B U p), rn B (mk B U p)).
Proof.
  intros B. induction f as [|f IH]; intros p U W V D.
  - assert (S : p < first_code) by (unfold deep in D; lia). cbn [translate]. unfold new_of. rewrite (proj2 (Z.ltb_lt _ _) S). rewrite mk_small by exact S. reflexivity.
  - cbn [translate]. unfold new_of. destruct (Z.ltb_spec p first_code) as [S|S]; [rewrite mk_small by exact S; reflexivity|].
    destruct (entry B U p W V S) as (q & c & E & _ & Vq & Lt & _). rewrite render_nth, E. cbn [option_map fst snd di_used di_prev].
    destruct (memb (code_at p) U) eqn:M.
    + apply memb_in in M. rewrite (mk_used B U p W V (fun _ => M)). cbn [di_new]. reflexivity.
    + apply memb_not in M. rewrite (IH q U W Vq) by (unfold deep in *; lia). cbn [cbind]. rewrite render_nth, E. cbn [option_map fst snd].
      pose proof (mk_fresh B U p q c W V S E M) as N. rewrite (new_at_none _ _ N), (proj2 (memb_not _ _) N).
      destruct (d_add_spec B (mk B U q) (code_at p) q c (wf_mk B U q W Vq) E N Vq (fun R L => mk_new B U q R L)) as (i2 & A & T & Nw).
      rewrite A. cbn [cbind]. rewrite T, Nw, <- (mk_step B U U p q c W V S E). reflexivity.
Qed.
Lemma expand_spec : forall B f p U ready, wf B U -> valid B p -> deep f p ->
  expand ext f p (render B U) (rn B U) ready = COk (hd 0 (st B p), render B (mk B U p), rn B (mk B U p), tl (st B p) ++ ready).
Proof.
  intros B. induction f as [|f IH]; intros p U ready W V D.
  - assert (S : p < first_code) by (unfold deep in D; lia). cbn [expand]. rewrite (proj2 (Z.ltb_lt _ _) S), st_small, mk_small by exact S. reflexivity.
  - cbn [expand]. destruct (Z.ltb_spec p first_code) as [S|S]; [rewrite st_small, mk_small by exact S; reflexivity|].
    destruct (entry B U p W V S) as (q & c & E & _ & Vq & Lt & _). rewrite render_nth, E. cbn [option_map fst snd di_used di_prev di_out].
    rewrite (st_step B U p q c W V S E). destruct (st_head B U q W Vq) as (a & l & St & _).
    destruct (memb (code_at p) U) eqn:M.
    + apply memb_in in M. rewrite (mk_used B U p W V (fun _ => M)).
      rewrite (IH q U (c :: ready) W Vq) by (unfold deep in *; lia). rewrite (mk_used B U q W Vq (fun L => closed_in B U _ q c W M E L)).
      rewrite St. cbn [hd tl app]. rewrite <- app_assoc. reflexivity.
    + apply memb_not in M. rewrite (translate_spec B (Datatypes.S (length (render B U))) q U W Vq).
      2:{ unfold deep. rewrite render_length. unfold valid in Vq. lia. }
      cbn [cbind]. pose proof (mk_fresh B U p q c W V S E M) as N. rewrite (new_at_none _ _ M).
      destruct (d_add_spec B (mk B U q) (code_at p) q c (wf_mk B U q W Vq) E N Vq (fun R L => mk_new B U q R L)) as (i2 & A & T & Nw).
      rewrite A. cbn [cbind]. rewrite T, <- (mk_step B U U p q c W V S E).
      rewrite (IH q (mk B U p) (c :: ready) (wf_mk B U p W V) Vq) by (unfold deep in *; lia).
      rewrite (mk_again B U p q c W V S E), St. cbn [hd tl app]. rewrite <- app_assoc. reflexivity.
Qed.

(** *** Growing and switching dictionaries *)
Lemma wf_grow : forall B U p c, wf B U -> valid B p -> p < maxc -> 0 <= c < first_code -> ~ In (p, c) B -> wf (B ++ [(p, c)]) U.
Proof.
  intros B U p c W V L C N. constructor.
  - intros i q d E. destruct (Nat.lt_ge_cases i (length B)) as [Lt|Ge].
    + rewrite nth_error_app1 in E by exact Lt. exact (wf_prev _ _ W _ _ _ E).
    + rewrite nth_error_app2 in E by exact Ge. destruct (i - length B)%nat eqn:I; cbn in E; [|destruct n; discriminate]. injection E as <- <-. unfold valid in V. lia.
  - intros i q d E. destruct (Nat.lt_ge_cases i (length B)) as [Lt|Ge].
    + rewrite nth_error_app1 in E by exact Lt. exact (wf_out _ _ W _ _ _ E).
    + rewrite nth_error_app2 in E by exact Ge. destruct (i - length B)%nat; cbn in E; [|destruct n; discriminate]. injection E as <- <-. exact C.
  - apply nodup_snoc; [exact (wf_nodup _ _ W)|exact N].
  - exact (wf_unodup _ _ W).
  - intros i I. rewrite app_length. pose proof (wf_urange _ _ W _ I). lia.
  - intros j i q d J E Q. pose proof (wf_urange _ _ W _ (nth_error_In _ _ J)) as Lt. rewrite nth_error_app1 in E by exact Lt. exact (wf_closed _ _ W _ _ _ _ J E Q).
  - exact (wf_cap _ _ W).
Qed.
Lemma new_val_inj : forall B U p q, wf B U -> valid B p -> valid B q -> (first_code <= p -> In (code_at p) U) -> (first_code <= q -> In (code_at q) U) ->
  new_val p U = new_val q U -> p = q.
Proof.
  intros B U p q W Vp Vq Hp Hq E. unfold new_val in E. destruct (new_of_some B U p W Vp Hp) as (n & Np & Cp). destruct (new_of_some B U q W Vq Hq) as (m & Nq & Cq).
  rewrite Np, Nq in E. subst m. destruct Cp as [[P ->]|[P (j & J & ->)]]; destruct Cq as [[Q F]|[Q (k & K & F)]]; try lia.
  assert (j = k) as <- by lia. apply idx_some in J. apply idx_some in K. assert (code_at p = code_at q) by congruence. unfold code_at in *. lia.
Qed.
Lemma nodup_nth : forall {A} (l : list A) i j x, NoDup l -> nth_error l i = Some x -> nth_error l j = Some x -> i = j.
Proof.
  intros A l i j x D I J. apply (proj1 (NoDup_nth_error l) D); [apply nth_error_Some; congruence|congruence].
Qed.
Lemma next_entry : forall B U j p c, wf B U -> nth_error (next_dict B U) j = Some (p, c) ->
  exists i q, nth_error U j = Some i /\ nth_error B i = Some (q, c) /\ p = new_val q U /\ valid B q /\ (first_code <= q -> In (code_at q) U).
Proof.
  intros B U j p c W E. unfold next_dict in E. rewrite nth_error_map in E. destruct (nth_error U j) as [i|] eqn:J; [|discriminate]. cbn in E.
  pose proof (wf_urange _ _ W _ (nth_error_In _ _ J)) as Lt. destruct (nth_error B i) as [[q d]|] eqn:I; [|apply nth_error_None in I; lia].
  rewrite (nth_error_nth _ _ _ I) in E. cbn [fst snd] in E. injection E as <- <-. exists i, q. split; [reflexivity|]. split; [exact I|]. split; [reflexivity|].
  pose proof (wf_prev _ _ W _ _ _ I) as P. split; [unfold valid; lia|]. intros L. exact (closed_in _ _ _ _ _ W (nth_error_In _ _ J) I L).
Qed.
Lemma next_fresh : forall B U i p c, wf B U -> nth_error B i = Some (p, c) -> ~ In i U -> (first_code <= p -> In (code_at p) U) ->
  ~ In (new_val p U, c) (next_dict B U).
Proof.
  intros B U i p c W E N H I. apply In_nth_error in I as (j & J). destruct (next_entry B U j _ c W J) as (k & q & K & Ek & V & Vq & Hq).
  assert (p = q) as <-.
  { apply (new_val_inj B U p q W); auto. pose proof (wf_prev _ _ W _ _ _ E). assert (i < length B)%nat by (apply nth_error_Some; congruence). unfold valid. lia. }
  assert (i = k) as <- by exact (nodup_nth B i k _ (wf_nodup _ _ W) E Ek). exact (N (nth_error_In _ _ K)).
Qed.
Lemma wf_next : forall B U, wf B U -> wf (next_dict B U) [].
Proof.
  intros B U W. constructor.
  - intros j p c E. destruct (next_entry B U j p c W E) as (i & q & J & I & -> & V & H). unfold new_val.
    destruct (new_of_some B U q W V H) as (n & Nq & [[S ->]|[S (k & K & ->)]]); rewrite Nq.
    + pose proof (wf_prev _ _ W _ _ _ I). unfold max_code_opt in Cap. unfold valid in V. lia.
    + destruct (wf_closed _ _ W _ _ _ _ J I S) as (k' & K' & Lt). assert (k' = k) as -> by congruence.
      assert (j < length U)%nat by (apply nth_error_Some; congruence). pose proof (wf_cap _ _ W). unfold max_code_opt, first_code in *. lia.
  - intros j p c E. destruct (next_entry B U j p c W E) as (i & q & J & I & _). exact (wf_out _ _ W _ _ _ I).
  - apply NoDup_nth_error. intros j k Lt E. destruct (nth_error (next_dict B U) j) as [[p c]|] eqn:J; [|apply nth_error_None in J; lia].
    symmetry in E. destruct (next_entry B U j p c W J) as (i & q & Uj & I & Ep & V & H). destruct (next_entry B U k p c W E) as (i' & q' & Uk & I' & Ep' & V' & H').
    assert (q = q') as <- by (apply (new_val_inj B U); auto; congruence).
    assert (i = i') as <- by exact (nodup_nth B i i' _ (wf_nodup _ _ W) I I'). exact (nodup_nth U j k i (wf_unodup _ _ W) Uj Uk).
  - constructor.
  - intros i [].
  - intros j i p c E. destruct j; discriminate.
  - cbn. lia.
Qed.
Lemma wf_nil : wf [] [].
Proof.
  constructor.
  - intros i p c E; destruct i; discriminate.
  - intros i p c E; destruct i; discriminate.
  - constructor.
  - constructor.
  - intros i [].
  - intros j i p c E; destruct j; discriminate.
  - change (length (@nil nat)) with 0%nat. lia.
Qed.

(** *** The compressor on such dictionaries *)
Lemma key_eqb_refl : forall k, key_eqb k k = true.
Proof. intros [a b]. unfold key_eqb. cbn. rewrite !Z.eqb_refl. reflexivity. Qed.
Lemma key_eqb_eq : forall k k', key_eqb k k' = true -> k = k'.
Proof. intros [a b] [c d] H. unfold key_eqb in H. cbn in H. apply andb_true_iff in H as [H1 H2]. f_equal; lia. Qed.
Lemma find_none : forall (g : nat -> seq_info) k B n, ~ In k B -> db_find k (mapi_from (fun j e => (e, g j)) n B) = None.
Proof.
  intros g k. induction B as [|e B IH]; intros n N; [reflexivity|]. cbn [mapi_from db_find]. destruct (key_eqb k e) eqn:E.
  - apply key_eqb_eq in E. destruct N. left. congruence.
  - apply IH. intros I. apply N. right. exact I.
Qed.
Lemma find_at : forall (g : nat -> seq_info) k B n i, NoDup B -> nth_error B i = Some k ->
  db_find k (mapi_from (fun j e => (e, g j)) n B) = Some (g (n + i)%nat).
Proof.
  intros g k. induction B as [|e B IH]; intros n i D E; [destruct i; discriminate|]. inversion_clear D as [|? ? Nx Dx]. cbn [mapi_from db_find].
  destruct i as [|i]; cbn in E.
  - injection E as ->. rewrite key_eqb_refl, Nat.add_0_r. reflexivity.
  - destruct (key_eqb k e) eqn:K; [apply key_eqb_eq in K; subst e; destruct Nx; exact (nth_error_In _ _ E)|].
    rewrite (IH (S n) i Dx E). do 2 f_equal. lia.
Qed.
Lemma set_from : forall (g : nat -> seq_info) x k B n i, NoDup B -> nth_error B i = Some k ->
  db_set k x (mapi_from (fun j e => (e, g j)) n B) = set_at i (k, x) (mapi_from (fun j e => (e, g j)) n B).
Proof.
  intros g x k. induction B as [|e B IH]; intros n i D E; [destruct i; discriminate|]. inversion_clear D as [|? ? Nx Dx]. cbn [mapi_from db_set].
  destruct i as [|i]; cbn in E.
  - injection E as ->. rewrite key_eqb_refl. reflexivity.
  - destruct (key_eqb k e) eqn:K; [apply key_eqb_eq in K; subst e; destruct Nx; exact (nth_error_In _ _ E)|].
    cbn [set_at]. rewrite (IH (S n) i Dx E). reflexivity.
Qed.
Lemma renderC_nth : forall B U i, nth_error (renderC B U) i = option_map (fun e => (e, mkSI (first_code + Z.of_nat i) (new_at i U) (memb i U))) (nth_error B i).
Proof. intros. unfold renderC. rewrite mapi_nth. reflexivity. Qed.
Lemma renderC_none : forall (B : dict) U (k : Z * Z), ~ In k B -> db_find k (renderC B U) = None.
Proof. intros B U k N. unfold renderC, mapi. apply (find_none (fun i => mkSI (first_code + Z.of_nat i) (new_at i U) (memb i U))). exact N. Qed.
Lemma renderC_at : forall (B : dict) U (k : Z * Z) i, NoDup B -> nth_error B i = Some k -> db_find k (renderC B U) = Some (mkSI (first_code + Z.of_nat i) (new_at i U) (memb i U)).
Proof. intros B U k i D E. unfold renderC, mapi. apply (find_at (fun i => mkSI (first_code + Z.of_nat i) (new_at i U) (memb i U)) k B 0 i D E). Qed.
Lemma renderC_set : forall (B : dict) U (k : Z * Z) i x, NoDup B -> nth_error B i = Some k -> db_set k x (renderC B U) = set_at i (k, x) (renderC B U).
Proof. intros B U k i x D E. unfold renderC, mapi. apply (set_from (fun i => mkSI (first_code + Z.of_nat i) (new_at i U) (memb i U)) x k B 0 i D E). Qed.
Lemma renderC_new : forall (B : dict) U i (k : Z * Z), NoDup B -> nth_error B i = Some k -> ~ In i U ->
  db_set k (mkSI (first_code + Z.of_nat i) (Some (first_code + Z.of_nat (length U))) true) (renderC B U) = renderC B (U ++ [i]).
Proof.
  intros B U i k D E N. rewrite (renderC_set B U k i _ D E). apply nth_error_ext. intros j. rewrite set_at_nth, !renderC_nth, memb_snoc, new_at_snoc.
  destruct (Nat.eqb_spec i j) as [<-|Ne].
  - rewrite E. cbn [option_map]. rewrite (proj2 (memb_not _ _) N). reflexivity.
  - destruct (nth_error B j) as [e|]; cbn [option_map]; [|reflexivity]. unfold memb, new_at. destruct (idx j U); reflexivity.
Qed.
Lemma renderC_grow : forall (B : dict) U (e : Z * Z), ~ In e B -> ~ In (length B) U ->
  db_insert e (mkSI (first_code + Z.of_nat (length B)) None false) (renderC B U) = renderC (B ++ [e]) U.
Proof.
  intros B U e N M. unfold db_insert. rewrite (renderC_none B U e N). unfold renderC. rewrite mapi_app1. rewrite (new_at_none _ _ M), (proj2 (memb_not _ _) M). reflexivity.
Qed.

(** The compressor between two symbols. *)
Definition cst (B : dict) (U : list nat) (last n : Z) : cstate :=
  mkCS (renderC B U) (first_code + Z.of_nat (length B)) last (new_of last U) n (renderC (next_dict B U) []) (first_code + Z.of_nat (length U)).
Lemma maxc_initial : maxc < initial_code.
Proof. unfold max_code, initial_code in *. lia. Qed.
Lemma c_first : forall c s, 0 <= c < first_code -> cs_db s = [] -> cs_next s = first_code -> cs_last s = initial_code -> cs_ndb s = [] -> cs_nnext s = first_code ->
  compress_sym ext c s = COk (cst [] [] c (cs_utf8 s), []).
Proof.
  intros c [db nx la ln n nd nn] C Ed En El End Enn. cbn in *. subst. unfold compress_sym. cbn [cs_last cs_db cs_next cs_utf8 cs_ndb cs_nnext].
  destruct (Z.leb_spec first_code c); [lia|]. rewrite Z.eqb_refl. unfold cst, new_of. destruct (Z.ltb_spec c first_code); [reflexivity|lia].
Qed.
Lemma c_found : forall B U last c n i, wf B U -> valid B last -> last < maxc -> 0 <= c < first_code ->
  nth_error B i = Some (last, c) -> first_code + Z.of_nat i < maxc -> (room U -> first_code <= last -> In (code_at last) U) ->
  compress_sym ext c (cst B U last n) = COk (cst B (add i U) (first_code + Z.of_nat i) n, []).
Proof.
  intros B U last c n i W V L C E M H. unfold compress_sym. cbn [cst cs_last cs_db cs_next cs_utf8 cs_ndb cs_nnext cs_last_new].
  destruct (Z.leb_spec first_code c); [lia|]. destruct (Z.eqb_spec last initial_code); [pose proof maxc_initial; lia|].
  rewrite (renderC_at B U _ i (wf_nodup _ _ W) E). cbn [si_next si_used si_new]. destruct (Z.leb_spec maxc (first_code + Z.of_nat i)); [lia|].
  assert (Nw : forall U, new_of (first_code + Z.of_nat i) U = new_at i U).
  { intros V'. unfold new_of. destruct (Z.ltb_spec (first_code + Z.of_nat i) first_code); [lia|]. f_equal. unfold code_at. lia. }
  destruct (memb i U) eqn:Mb.
  - unfold add. rewrite Mb. unfold cst. rewrite Nw. reflexivity.
  - pose proof (proj1 (memb_not _ _) Mb) as N. unfold add_code, add, roomb. rewrite Mb.
    destruct (Z.ltb_spec (first_code + Z.of_nat (length U)) maxopt) as [R|R].
    + destruct (new_of_some B U last W V (H R)) as (m & Nm & _). rewrite Nm. cbn [cbind si_next si_new].
      rewrite (renderC_new B U i _ (wf_nodup _ _ W) E N). unfold cst. rewrite Nw. rewrite (next_dict_snoc B U i last c W E (H R)).
      replace (new_val last U) with m by (unfold new_val; rewrite Nm; reflexivity).
      rewrite <- (next_dict_length B U) at 2. rewrite renderC_grow; [|replace m with (new_val last U) by (unfold new_val; rewrite Nm; reflexivity); apply (next_fresh B U i); auto|intros []].
      rewrite new_at_snoc, Mb, Nat.eqb_refl, app_length. cbn [length]. pose proof (wf_usmall _ _ W). rewrite u32_small by (unfold first_code in *; lia).
      do 2 f_equal. f_equal. lia.
    + cbn [cbind si_next si_new]. rewrite (renderC_set B U _ i _ (wf_nodup _ _ W) E). rewrite set_at_same by (rewrite renderC_nth, E, Mb; reflexivity).
      unfold cst. rewrite Nw. reflexivity.
Qed.
Lemma c_full : forall B U last c n i, wf B U -> last < maxc -> 0 <= c < first_code ->
  nth_error B i = Some (last, c) -> maxc <= first_code + Z.of_nat i ->
  compress_sym ext c (cst B U last n) = COk (cst (next_dict B U) [] c n, write_code ext last ++ write_code ext (optimize_code ext)).
Proof.
  intros B U last c n i W L C E M. unfold compress_sym. cbn [cst cs_last cs_db cs_next cs_utf8 cs_ndb cs_nnext cs_last_new].
  destruct (Z.leb_spec first_code c); [lia|]. destruct (Z.eqb_spec last initial_code); [pose proof maxc_initial; lia|].
  rewrite (renderC_at B U _ i (wf_nodup _ _ W) E). cbn [si_next si_used si_new]. destruct (Z.leb_spec maxc (first_code + Z.of_nat i)); [|lia].
  unfold cst. rewrite next_dict_length. unfold new_of. destruct (Z.ltb_spec c first_code); [|lia]. reflexivity.
Qed.
Lemma next_dict_grow : forall B U e, wf B U -> next_dict (B ++ [e]) U = next_dict B U.
Proof.
  intros B U e W. unfold next_dict. apply map_ext_in. intros i I. rewrite app_nth1 by exact (wf_urange _ _ W _ I). reflexivity.
Qed.
Lemma fresh_length : forall B U, wf B U -> ~ In (length B) U.
Proof. intros B U W I. apply (wf_urange _ _ W) in I. lia. Qed.
Lemma c_new : forall B U last c n, wf B U -> last < maxc -> 0 <= c < first_code -> ~ In (last, c) B ->
  compress_sym ext c (cst B U last n) = COk (cst (B ++ [(last, c)]) U c n, write_code ext last).
Proof.
  intros B U last c n W L C N. unfold compress_sym. cbn [cst cs_last cs_db cs_next cs_utf8 cs_ndb cs_nnext cs_last_new].
  destruct (Z.leb_spec first_code c); [lia|]. destruct (Z.eqb_spec last initial_code); [pose proof maxc_initial; lia|].
  rewrite (renderC_none B U _ N). unfold cst. rewrite (renderC_grow B U _ N (fresh_length _ _ W)), (next_dict_grow B U _ W), app_length. cbn [length].
  unfold new_of. destruct (Z.ltb_spec c first_code); [|lia]. pose proof (wf_small _ _ W). rewrite u32_small by (unfold first_code in *; lia). do 2 f_equal. f_equal. lia.
Qed.

(** *** Both sides together *)
Hypothesis Code : forall code rest, 0 <= code <= flush_code ext -> read_code ext (write_code ext code ++ rest) = (code, rest).
Notation flush := (flush_code ext).
Notation opt := (optimize_code ext).
Definition dst (B : dict) (U : list nat) (fc pp n : Z) : dstate := mkDS (render B U) [] fc pp (rn B U) n.

Record inv (B : dict) (U : list nat) (last : Z) (B0 : dict) (U0 : list nat) (fc pp : Z) : Prop := mkInv {
  inv_wf : wf B0 U0;
  inv_valid : valid B last;
  inv_last : last < maxc;
  inv_marks : U = mk B U0 last;
  inv_dict : pp = initial_code /\ B = B0 \/
    valid B0 pp /\ pp < maxc /\ fc = hd 0 (st B0 pp) /\ B = B0 ++ [(pp, hd 0 (st B last))] /\ ~ In (pp, hd 0 (st B last)) B0 /\
      0 <= hd 0 (st B last) < first_code }.
Lemma inv_wf0 : forall B U last B0 U0 fc pp, inv B U last B0 U0 fc pp -> wf B U0.
Proof.
  intros B U last B0 U0 fc pp [W V L M [[_ ->]|(Vp & Lp & _ & E & N & R)]]; [exact W|]. rewrite E. apply wf_grow; assumption.
Qed.
Lemma inv_wf1 : forall B U last B0 U0 fc pp, inv B U last B0 U0 fc pp -> wf B U.
Proof. intros B U last B0 U0 fc pp I. rewrite (inv_marks _ _ _ _ _ _ _ I). apply wf_mk; [exact (inv_wf0 _ _ _ _ _ _ _ I)|exact (inv_valid _ _ _ _ _ _ _ I)]. Qed.
Lemma inv_in : forall B U last B0 U0 fc pp, inv B U last B0 U0 fc pp -> room U -> first_code <= last -> In (code_at last) U.
Proof. intros B U last B0 U0 fc pp I R L. rewrite (inv_marks _ _ _ _ _ _ _ I) in *. apply mk_new; assumption. Qed.
Lemma inv_start : forall c fc, 0 <= c < first_code -> inv [] [] c [] [] fc initial_code.
Proof.
  intros c fc C. constructor; [exact wf_nil|unfold valid; cbn; lia|unfold max_code_opt, first_code in *; lia|symmetry; apply mk_small; lia|auto].
Qed.
Lemma inv_found : forall B U last B0 U0 fc pp c i, inv B U last B0 U0 fc pp -> nth_error B i = Some (last, c) -> first_code + Z.of_nat i < maxc ->
  inv B (add i U) (first_code + Z.of_nat i) B0 U0 fc pp /\ st B (first_code + Z.of_nat i) = st B last ++ [c].
Proof.
  intros B U last B0 U0 fc pp c i I E M. pose proof (inv_wf0 _ _ _ _ _ _ _ I) as W.
  assert (Ci : code_at (first_code + Z.of_nat i) = i) by (unfold code_at; lia).
  assert (Vi : valid B (first_code + Z.of_nat i)).
  { assert (i < length B)%nat by (apply nth_error_Some; congruence). unfold valid, first_code. lia. }
  assert (St : st B (first_code + Z.of_nat i) = st B last ++ [c]) by (apply (st_step B U0 _ last c W Vi); [lia|rewrite Ci; exact E]).
  split; [|exact St]. destruct I as [W0 V L Mk D]. constructor; auto.
  - rewrite (mk_step B U0 U0 _ last c W Vi); [rewrite Ci, Mk; reflexivity|lia|rewrite Ci; exact E].
  - rewrite St. destruct (st_head B U0 last W V) as (a & l & Hd & _). rewrite Hd in *. exact D.
Qed.
Lemma inv_new : forall B U last B0 U0 fc pp c, inv B U last B0 U0 fc pp -> 0 <= c < first_code -> ~ In (last, c) B ->
  inv (B ++ [(last, c)]) U c B U (hd 0 (st B last)) last.
Proof.
  intros B U last B0 U0 fc pp c I C N. constructor.
  - exact (inv_wf1 _ _ _ _ _ _ _ I).
  - unfold valid. lia.
  - unfold max_code_opt, first_code in *; lia.
  - symmetry. apply mk_small. lia.
  - right. rewrite (st_small _ c) by lia. cbn [hd]. split; [exact (inv_valid _ _ _ _ _ _ _ I)|]. split; [exact (inv_last _ _ _ _ _ _ _ I)|]. auto.
Qed.
Lemma inv_switch : forall B U last B0 U0 fc pp c, inv B U last B0 U0 fc pp -> 0 <= c < first_code ->
  inv (next_dict B U) [] c (next_dict B U) [] (hd 0 (st B last)) initial_code.
Proof.
  intros B U last B0 U0 fc pp c I C. constructor.
  - apply wf_next. exact (inv_wf1 _ _ _ _ _ _ _ I).
  - unfold valid. lia.
  - unfold max_code_opt, first_code in *; lia.
  - symmetry. apply mk_small. lia.
  - auto.
Qed.
Lemma mk_twice : forall B U p q c, wf B U -> valid B p -> first_code <= p -> nth_error B (code_at p) = Some (q, c) ->
  mk B (mk B U q) p = mk B U p.
Proof.
  intros B U p q c W V L E. destruct (entry B U p W V L) as (q' & c' & E' & _ & Vq & _). assert (q' = q) as -> by congruence.
  rewrite (mk_step B _ (mk B U q) p q c (wf_mk B U q W Vq) V L E), (mk_step B U U p q c W V L E). f_equal. apply marks_same.
  destruct (Z.ltb_spec (first_code + Z.of_nat (length (mk B U q))) maxopt) as [R|R]; [left|right; unfold room; lia].
  intros i I. apply (marks_in B (S (code_at q)) q U R). exact I.
Qed.

(** Reading the code that stands for the pending symbols. *)
Lemma read_last : forall B U last B0 U0 fc pp n f rest, inv B U last B0 U0 fc pp ->
  decompress_sym ext f (dst B0 U0 fc pp n) (write_code ext last ++ rest) =
  COk (Some (hd 0 (st B last)), mkDS (render B U) (tl (st B last)) (hd 0 (st B last)) last (rn B U) n, rest).
Proof.
  intros B U last B0 U0 fc pp n f rest I. pose proof (inv_wf0 _ _ _ _ _ _ _ I) as WB. destruct I as [W V L M D].
  assert (Ln : 0 <= last) by (unfold valid in V; lia).
  assert (R : read_code ext (write_code ext last ++ rest) = (last, rest)) by (apply Code; unfold max_code in L; lia).
  assert (Nf : last =? flush = false) by (unfold max_code in L; lia). assert (No : last =? opt = false) by (unfold max_code, optimize_code in *; lia).
  assert (G : forall (P : cres (option Z * dstate * bytes) -> Prop), P (
      let next := next_of (render B0 U0) in
      if next <? last then CThrow
      else
        let used := last =? next in
        cbind (expand ext (S (length (render B0 U0))) (if used then pp else last) (render B0 U0) (rn B0 U0) (if used then [fc] else []))
          (fun '(p, db1, ndb1, ready) =>
            if pp =? initial_code then COk (Some p, mkDS db1 ready p last ndb1 n, rest)
            else
              let db2 := db1 ++ [mkDI pp None p false] in
              if used then
                cbind (translate ext (S (length db2)) next db2 ndb1) (fun '(_, db3, ndb3) =>
                  COk (Some p, mkDS db3 ready p last ndb3 n, rest))
              else COk (Some p, mkDS db2 ready p last ndb1 n, rest))) ->
    P (decompress_sym ext f (dst B0 U0 fc pp n) (write_code ext last ++ rest))).
  { intros P H. destruct f; cbn [decompress_sym dst ds_ready]; rewrite R, Nf, No; cbn [ds_db ds_prev ds_ndb ds_first ds_utf8]; exact H. }
  apply G. clear G. cbv zeta. rewrite (next_of_render B0 U0 W).
  destruct D as [[-> ->]|(Vp & Lp & -> & E & N & Rg)].
  - unfold valid in V. destruct (Z.ltb_spec (first_code + Z.of_nat (length B0)) last); [lia|].
    destruct (Z.eqb_spec last (first_code + Z.of_nat (length B0))); [lia|].
    rewrite (expand_spec B0 _ last U0 [] W V) by (unfold deep; rewrite render_length; lia). cbn [cbind]. rewrite Z.eqb_refl, <- M, app_nil_r. reflexivity.
  - assert (Le : last <= first_code + Z.of_nat (length B0)) by (unfold valid in V; rewrite E, app_length in V; cbn [length] in V; lia).
    destruct (Z.ltb_spec (first_code + Z.of_nat (length B0)) last); [lia|]. assert (pp <> initial_code) by (pose proof maxc_initial; lia).
    assert (Np : pp =? initial_code = false) by lia.
    destruct (Z.eqb_spec last (first_code + Z.of_nat (length B0))) as [Eq|Ne].
    + remember (hd 0 (st B last)) as h eqn:Hh. assert (Ci : code_at last = length B0) by (unfold code_at; lia).
      assert (El : nth_error B (code_at last) = Some (pp, h)) by (rewrite Ci, E; rewrite nth_error_app2, Nat.sub_diag by lia; reflexivity).
      assert (S1 : st B last = st B0 pp ++ [h]).
      { rewrite (st_step B U0 last pp _ WB V) by (exact El || lia). f_equal. rewrite E. apply (st_ext B0 U0); assumption. }
      destruct (st_head B0 U0 pp W Vp) as (a & l & Sp & _). assert (Hd : h = a) by (rewrite Hh, S1, Sp; reflexivity).
      assert (Tl : tl (st B last) = l ++ [a]) by (rewrite S1, Sp, Hd; reflexivity).
      rewrite (expand_spec B0 _ pp U0 _ W Vp) by (unfold deep; rewrite render_length; unfold valid in Vp; lia). cbn [cbind]. rewrite Np, Sp. cbn [hd tl].
      rewrite Tl. clear Hh Tl S1. subst h.
      assert (M1 : mk B0 U0 pp = mk B U0 pp) by (rewrite E; symmetry; apply (mk_ext B0 U0 U0 pp _ W Vp)).
      assert (W1 : wf B0 (mk B0 U0 pp)) by (apply wf_mk; assumption).
      assert (W2 : wf B (mk B0 U0 pp)) by (rewrite E; apply wf_grow; assumption).
      rewrite <- (render_snoc B0 _ pp a) by exact (fresh_length _ _ W1). rewrite <- (next_dict_grow B0 _ (pp, a) W1). rewrite <- E.
      rewrite (translate_spec B _ _ _ W2).
      2:{ unfold valid. rewrite E, app_length. cbn [length]. unfold first_code. lia. }
      2:{ unfold deep. rewrite render_length, E, app_length. cbn [length]. lia. }
      cbn [cbind]. rewrite <- Eq, M1. rewrite (mk_twice B U0 last pp a WB V) by (exact El || lia). rewrite <- M. reflexivity.
    + assert (V0 : valid B0 last) by (unfold valid in *; lia).
      assert (S1 : st B last = st B0 last) by (rewrite E at 1; apply (st_ext B0 U0); assumption).
      assert (M1 : mk B0 U0 last = U) by (rewrite M, E; symmetry; apply (mk_ext B0 U0 U0 last _ W V0)).
      rewrite (expand_spec B0 _ last U0 _ W V0) by (unfold deep; rewrite render_length; unfold valid in V0; lia). cbn [cbind]. rewrite Np, M1, app_nil_r.
      assert (W1 : wf B0 U) by (rewrite <- M1; apply wf_mk; assumption).
      rewrite <- (render_snoc B0 _ pp _) by exact (fresh_length _ _ W1). rewrite S1 in *. rewrite <- E.
      rewrite <- (next_dict_grow B0 _ (pp, hd 0 (st B0 last)) W1), <- E. reflexivity.
Qed.

(** *** Symbols, one after the other *)
Inductive gives : dstate -> bytes -> list Z -> dstate -> bytes -> Prop :=
| g_nil : forall s i, gives s i [] s i
| g_sym : forall s i c s1 i1 l s2 i2, decompress_one ext s i = COk (Some c, s1, i1) -> gives s1 i1 l s2 i2 -> gives s i (c :: l) s2 i2
| g_opt : forall s i s1 i1 l s2 i2, (forall r, decompress_one ext s1 i1 = COk r -> decompress_one ext s i = COk r) -> gives s1 i1 l s2 i2 -> gives s i l s2 i2.
Lemma gives_app : forall s i l s1 i1 l' s2 i2, gives s i l s1 i1 -> gives s1 i1 l' s2 i2 -> gives s i (l ++ l') s2 i2.
Proof.
  intros s i l s1 i1 l' s2 i2 H. induction H as [s i|s i c s1 i1 l s3 i3 E _ IH|s i s1 i1 l s3 i3 E _ IH]; intros K.
  - exact K.
  - exact (g_sym _ _ _ _ _ _ _ _ E (IH K)).
  - exact (g_opt _ _ _ _ _ _ _ E (IH K)).
Qed.
Lemma gives_cons : forall s i c l s2 i2, gives s i (c :: l) s2 i2 -> exists s1 i1, decompress_one ext s i = COk (Some c, s1, i1) /\ gives s1 i1 l s2 i2.
Proof.
  intros s i c l s2 i2 H. remember (c :: l) as k eqn:K. induction H as [s i|s i d s1 i1 m s3 i3 E G IH|s i s1 i1 m s3 i3 E G IH].
  - discriminate.
  - injection K as -> ->. eauto.
  - destruct (IH K) as (t & j & A & B). exists t, j. auto.
Qed.
Lemma gives_end : forall s i s2 i2 r, gives s i [] s2 i2 -> decompress_one ext s2 i2 = COk r -> decompress_one ext s i = COk r.
Proof.
  intros s i s2 i2 r H. remember (@nil Z) as k eqn:K. induction H as [s i|s i d s1 i1 m s3 i3 E G IH|s i s1 i1 m s3 i3 E G IH]; intros R; auto. discriminate.
Qed.
Lemma fuel_more : forall f f' s inp r, decompress_sym ext f s inp = COk r -> (f <= f')%nat -> decompress_sym ext f' s inp = COk r.
Proof.
  induction f as [|f IH]; intros f' s inp r H L.
  - destruct f'; [exact H|]. cbn [decompress_sym] in *. destruct (ds_ready s); [|exact H]. destruct (read_code ext inp) as [cc inp1].
    destruct (cc =? flush); [exact H|]. destruct (cc =? opt); [discriminate|exact H].
  - destruct f'; [lia|]. cbn [decompress_sym] in *. destruct (ds_ready s); [|exact H]. destruct (read_code ext inp) as [cc inp1].
    destruct (cc =? flush); [exact H|]. destruct (cc =? opt); [|exact H]. apply IH; [exact H|lia].
Qed.
Lemma write_nonempty : forall code, (1 <= length (write_code ext code))%nat.
Proof. intros code. unfold write_code. destruct (code <? ext); cbn; lia. Qed.
Lemma opt_range : 0 <= opt <= flush.
Proof. unfold optimize_code, max_code_opt, max_code, first_code in *. lia. Qed.
Lemma gives_opt : forall B U fc pp n rest l s2 i2, gives (dst (next_dict B U) [] fc initial_code n) rest l s2 i2 ->
  gives (dst B U fc pp n) (write_code ext opt ++ rest) l s2 i2.
Proof.
  intros B U fc pp n rest l s2 i2 G. refine (g_opt _ _ _ _ _ _ _ _ G). intros r H. unfold decompress_one in *. cbn [decompress_sym dst ds_ready].
  rewrite (Code opt rest opt_range). assert (opt =? flush = false) as -> by (unfold optimize_code; lia). rewrite Z.eqb_refl. cbn [ds_ndb ds_first ds_utf8].
  refine (fuel_more _ _ _ _ _ H _). rewrite app_length. pose proof (write_nonempty opt). lia.
Qed.
Lemma gives_ready : forall db r fc pp nd n inp, gives (mkDS db r fc pp nd n) inp r (mkDS db [] fc pp nd n) inp.
Proof.
  intros db. induction r as [|c r IH]; intros fc pp nd n inp; [apply g_nil|]. refine (g_sym _ _ _ _ _ _ _ _ _ (IH fc pp nd n inp)). reflexivity.
Qed.
Lemma gives_last : forall B U last B0 U0 fc pp n rest, inv B U last B0 U0 fc pp ->
  gives (dst B0 U0 fc pp n) (write_code ext last ++ rest) (st B last) (dst B U (hd 0 (st B last)) last n) rest.
Proof.
  intros B U last B0 U0 fc pp n rest I. destruct (st_head B U0 last (inv_wf0 _ _ _ _ _ _ _ I) (inv_valid _ _ _ _ _ _ _ I)) as (a & l & S & _).
  pose proof (read_last B U last B0 U0 fc pp n (Datatypes.S (length (write_code ext last ++ rest))) rest I) as R. rewrite S in *. cbn [hd tl] in *.
  refine (g_sym _ _ _ _ _ _ _ _ R _). apply gives_ready.
Qed.

Fixpoint compress_syms (l : list Z) (s : cstate) : cres (cstate * bytes) :=
  match l with
  | [] => COk (s, [])
  | c :: l' => cbind (compress_sym ext c s) (fun '(s1, o1) => cbind (compress_syms l' s1) (fun '(s2, o2) => COk (s2, o1 ++ o2)))
  end.
Lemma key_dec : forall a b : Z * Z, {a = b} + {a <> b}.
Proof. decide equality; apply Z.eq_dec. Qed.
Lemma sim : forall l B U last B0 U0 fc pp n, inv B U last B0 U0 fc pp -> Forall (fun c => 0 <= c < first_code) l ->
  exists B' U' last' B0' U0' fc' pp' o w, compress_syms l (cst B U last n) = COk (cst B' U' last' n, o) /\ inv B' U' last' B0' U0' fc' pp' /\
    st B last ++ l = w ++ st B' last' /\ forall rest, gives (dst B0 U0 fc pp n) (o ++ rest) w (dst B0' U0' fc' pp' n) rest.
Proof.
  induction l as [|c l IH]; intros B U last B0 U0 fc pp n I F.
  - exists B, U, last, B0, U0, fc, pp, [], []. split; [reflexivity|]. split; [exact I|]. split; [apply app_nil_r|]. intros rest. apply g_nil.
  - inversion_clear F as [|? ? C F']. pose proof (inv_wf1 _ _ _ _ _ _ _ I) as W. pose proof (inv_valid _ _ _ _ _ _ _ I) as V. pose proof (inv_last _ _ _ _ _ _ _ I) as L.
    cbn [compress_syms]. destruct (in_dec key_dec (last, c) B) as [In_|N].
    + apply In_nth_error in In_ as (i & E). destruct (Z.ltb_spec (first_code + Z.of_nat i) maxc) as [M|M].
      * rewrite (c_found B U last c n i W V L C E M (inv_in _ _ _ _ _ _ _ I)). cbn [cbind].
        destruct (inv_found _ _ _ _ _ _ _ c i I E M) as [I1 S1].
        destruct (IH _ _ _ _ _ _ _ n I1 F') as (B' & U' & last' & B0' & U0' & fc' & pp' & o & w & R & I' & Eq & G).
        rewrite R. cbn [cbind]. do 9 eexists. split; [reflexivity|]. split; [exact I'|]. split; [|exact G]. rewrite <- Eq, S1, <- app_assoc. reflexivity.
      * rewrite (c_full B U last c n i W L C E M). cbn [cbind].
        pose proof (inv_switch _ _ _ _ _ _ _ c I C) as I1.
        destruct (IH _ _ _ _ _ _ _ n I1 F') as (B' & U' & last' & B0' & U0' & fc' & pp' & o & w & R & I' & Eq & G).
        rewrite R. cbn [cbind]. do 6 eexists. exists pp'. eexists. exists (st B last ++ w). split; [reflexivity|]. split; [exact I'|]. split.
        -- rewrite <- app_assoc, <- Eq, (st_small _ c) by lia. reflexivity.
        -- intros rest. rewrite <- !app_assoc. refine (gives_app _ _ _ _ _ _ _ _ (gives_last _ _ _ _ _ _ _ n _ I) _). apply gives_opt. apply G.
    + rewrite (c_new B U last c n W L C N). cbn [cbind].
      pose proof (inv_new _ _ _ _ _ _ _ c I C N) as I1.
      destruct (IH _ _ _ _ _ _ _ n I1 F') as (B' & U' & last' & B0' & U0' & fc' & pp' & o & w & R & I' & Eq & G).
      rewrite R. cbn [cbind]. do 6 eexists. exists pp'. eexists. exists (st B last ++ w). split; [reflexivity|]. split; [exact I'|]. split.
      * rewrite <- app_assoc, <- Eq, (st_small _ c) by lia. reflexivity.
      * intros rest. rewrite <- !app_assoc. refine (gives_app _ _ _ _ _ _ _ _ (gives_last _ _ _ _ _ _ _ n _ I) _). apply G.
Qed.
Lemma flush_read : forall s rest, ds_ready s = [] -> decompress_one ext s (write_code ext flush ++ rest) =
  COk (None, mkDS [] [] (ds_first s) initial_code (ds_ndb s) (ds_utf8 s), rest).
Proof.
  intros s rest R. unfold decompress_one. cbn [decompress_sym]. rewrite R. rewrite Code by (pose proof opt_range; unfold optimize_code in *; lia). rewrite Z.eqb_refl. reflexivity.
Qed.
(** A whole run on symbols. *)
Lemma sim_all : forall l, Forall (fun c => 0 <= c < first_code) l -> l <> [] -> exists s o d i d2,
  compress_syms l c_init = COk (s, o) /\ gives d_init (o ++ compress_end ext s) l d i /\ decompress_one ext d i = COk (None, d2, []).
Proof.
  intros l F Ne. destruct l as [|c l]; [destruct (Ne eq_refl)|]. inversion_clear F as [|? ? C F'].
  cbn [compress_syms]. rewrite (c_first c c_init C) by reflexivity. cbn [cbind c_init cs_utf8].
  destruct (sim l _ _ _ _ _ 0 _ 0 (inv_start c 0 C) F') as (B' & U' & last' & B0' & U0' & fc' & pp' & o & w & R & I' & Eq & G).
  rewrite R. cbn [cbind]. do 5 eexists. split; [reflexivity|]. assert (Li : last' <> initial_code).
  { pose proof (inv_last _ _ _ _ _ _ _ I'). pose proof maxc_initial. lia. }
  unfold compress_end. cbn [cst cs_last]. destruct (Z.eqb_spec last' initial_code) as [E|_]; [destruct (Li E)|]. cbn [app].
  rewrite st_small in Eq by lia. cbn [app] in Eq. rewrite Eq. split.
  - refine (gives_app _ _ _ _ _ _ _ _ (G _) (gives_last _ _ _ _ _ _ _ 0 _ I')).
  - rewrite <- (app_nil_r (write_code ext flush)). apply flush_read. reflexivity.
Qed.

(** *** The count of the byte layer *)
Lemma sym_utf8 : forall k f s inp, decompress_sym ext f (with_utf8' k s) inp =
  cbind (decompress_sym ext f s inp) (fun '(c, s1, i1) => COk (c, with_utf8' k s1, i1)).
Proof.
  intros k. induction f as [|f IH]; intros s inp; cbn [decompress_sym with_utf8' ds_ready ds_db ds_first ds_prev ds_ndb ds_utf8].
  - destruct (ds_ready s); [|reflexivity]. destruct (read_code ext inp) as [cc inp1]. destruct (cc =? flush); [reflexivity|]. destruct (cc =? opt); [reflexivity|].
    destruct (next_of (ds_db s) <? cc); [reflexivity|]. destruct (expand _ _ _ _ _ _) as [[[[p db1] ndb1] ready]| | |]; try reflexivity. cbn [cbind].
    destruct (ds_prev s =? initial_code); [reflexivity|]. destruct (cc =? next_of (ds_db s)); [|reflexivity].
    destruct (translate _ _ _ _ _) as [[[? ?] ?]| | |]; reflexivity.
  - destruct (ds_ready s); [|reflexivity]. destruct (read_code ext inp) as [cc inp1]. destruct (cc =? flush); [reflexivity|]. destruct (cc =? opt).
    { exact (IH (mkDS (ds_ndb s) [] (ds_first s) initial_code [] (ds_utf8 s)) inp1). }
    destruct (next_of (ds_db s) <? cc); [reflexivity|]. destruct (expand _ _ _ _ _ _) as [[[[p db1] ndb1] ready]| | |]; try reflexivity. cbn [cbind].
    destruct (ds_prev s =? initial_code); [reflexivity|]. destruct (cc =? next_of (ds_db s)); [|reflexivity].
    destruct (translate _ _ _ _ _) as [[[? ?] ?]| | |]; reflexivity.
Qed.
Lemma one_utf8 : forall k s inp, decompress_one ext (with_utf8' k s) inp = cbind (decompress_one ext s inp) (fun '(c, s1, i1) => COk (c, with_utf8' k s1, i1)).
Proof. intros. apply sym_utf8. Qed.
Lemma utf8_utf8 : forall k s, with_utf8' k (with_utf8' 0 s) = with_utf8' k s.
Proof. reflexivity. Qed.
Lemma utf8_back : forall s, with_utf8' (ds_utf8 s) s = s.
Proof. intros []. reflexivity. Qed.
Lemma one_back : forall k s i r, decompress_one ext (with_utf8' k s) i = COk r -> exists c s1 i1, decompress_one ext s i = COk (c, s1, i1) /\ r = (c, with_utf8' k s1, i1).
Proof.
  intros k s i r H. rewrite one_utf8 in H. destruct (decompress_one ext s i) as [[[c s1] i1]| | |]; try discriminate. cbn in H. injection H as <-. eauto.
Qed.
Lemma gives_utf8 : forall k s i l s2 i2, gives s i l s2 i2 -> gives (with_utf8' k s) i l (with_utf8' k s2) i2.
Proof.
  intros k s i l s2 i2 H. induction H as [s i|s i c s1 i1 l s3 i3 E _ IH|s i s1 i1 l s3 i3 E _ IH].
  - apply g_nil.
  - refine (g_sym _ _ _ _ _ _ _ _ _ IH). rewrite one_utf8, E. reflexivity.
  - refine (g_opt _ _ _ _ _ _ _ _ IH). intros r H. destruct (one_back _ _ _ _ H) as (c & s4 & i4 & A & ->). rewrite one_utf8, (E _ A). reflexivity.
Qed.
Lemma csym_utf8 : forall k c s, compress_sym ext c (with_utf8 k s) = cbind (compress_sym ext c s) (fun '(s1, o) => COk (with_utf8 k s1, o)).
Proof.
  intros k c s. unfold compress_sym. cbn [with_utf8 cs_db cs_next cs_last cs_last_new cs_utf8 cs_ndb cs_nnext].
  destruct (first_code <=? c); [reflexivity|]. destruct (cs_last s =? initial_code); [reflexivity|].
  destruct (db_find (cs_last s, c) (cs_db s)) as [i|]; [|reflexivity]. destruct (maxc <=? si_next i); [reflexivity|]. destruct (si_used i); [reflexivity|].
  destruct (add_code _ _ _ _ _ _) as [[[? ?] ?]| | |]; reflexivity.
Qed.
End Mask.
