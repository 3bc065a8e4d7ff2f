(** The check of definitions is right. *)
From Coq Require Import String Ascii Lia.
From Verif Require Import Base ModelKeyed SpecKeyed ProofKeyed ModelValue ProofValue ModelObject ModelArray ModelEq ModelJwt ModelString ModelPath ModelRpc
  ModelNumView ModelValidator SpecValidator SpecTerm SpecTermCheck ProofTerm.
Local Open Scope Z_scope.
Local Open Scope list_scope.

Lemma one_of_in : forall l w, one_of l w = true <-> In w l.
Proof.
  intros l w. unfold one_of. rewrite existsb_exists. split.
  - intros (x & X & E). apply beqb_eq in E. subst. exact X.
  - intros I. exists w. split; [exact I|]. apply beqb_refl.
Qed.
Lemma may_useb_spec : forall c p d, may_useb c p d = true -> may_use c p d.
Proof.
  intros c p d H. unfold may_useb in H. apply Bool.orb_true_iff in H as [H|H]; [left; apply Nat.ltb_lt, H|right].
  apply Bool.andb_true_iff in H as [A B]. apply Nat.eqb_eq in A. split; [exact A|]. destruct p; [apply Nat.ltb_lt, B|exact I|discriminate].
Qed.
Section Check.
Variables (def : value) (rank : bytes -> nat * nat) (c : nat * nat).
Notation snd_ := (sound def rank c).
Lemma word_ok_sound : forall p e w, word_ok def rank c p w = true -> snd_ p (VStr e w).
Proof.
  intros p e w H. destruct w as [|a w]; [apply So_word; left; reflexivity|]. unfold word_ok in H.
  destruct (a =? 39) eqn:E1; [apply Z.eqb_eq in E1 as ->; apply So_word; right; left; eauto|].
  destruct (a =? 35) eqn:E2; [apply Z.eqb_eq in E2 as ->; apply So_word; right; right; left; eauto|]. cbn [orb] in H.
  destruct (a =? 91) eqn:E3.
  - apply Z.eqb_eq in E3 as ->. rewrite !Bool.andb_true_iff, !Bool.negb_true_iff in H. destruct H as [[[A B] C] D].
    apply So_word. right. right. right. left. apply Nat.ltb_lt in A. apply Z.eqb_eq in B. apply Nat.eqb_neq in C.
    destruct (exists_last (l := w)) as (w' & z & ->); [destruct w; [cbn in A; lia|discriminate]|].
    change (91 :: w' ++ [z]) with ((91 :: w') ++ [z]) in B. rewrite last_last in B. subst z. exists w'. split; [reflexivity|]. split; [exact C|].
    intros N L. rewrite N, L in D. discriminate.
  - destruct (one_of builtin_words (a :: w)) eqn:E4; [apply So_word; do 4 right; apply one_of_in, E4|].
    assert (C : class_word (a :: w)).
    { split; [discriminate|]. split; [intros t; split; intros Q; injection Q as -> _; discriminate|].
      split; [intros t Q; injection Q as -> _; discriminate|]. intros I. apply one_of_in in I. congruence. }
    assert (value_member def (a :: w) <> VUndef /\ (beqb (get_string (value_member def (a :: w))) (txt "native") || may_useb c p (rank (a :: w)) = true))
      as [D O] by (destruct (value_member def (a :: w)); try discriminate; split; congruence || exact H).
    apply Bool.orb_true_iff in O as [O|O]; [apply So_native; [exact C|apply beqb_eq, O]|].
    apply So_class; [exact C|exact D|apply may_useb_spec, O].
Qed.

Fixpoint each (p : place) (l : list member) {struct l} : bool :=
  match l with [] => true | x :: l' => sound_check def rank c p (snd x) && each p l' end.
Section Seq.
Variable p : place.
Fixpoint seq (skip : bool) (l : list member) {struct l} : bool :=
  match l with
  | [] => true
  | x :: l' =>
    if skip then seq false l'
    else
      match snd x with
      | VStr _ w =>
        if one_of (map txt [">"; ">="; "<"; "<="]%string) w then seq true l'
        else if is_comment w then seq false l'
        else sound_check def rank c p (snd x) && seq false l'
      | _ => sound_check def rank c p (snd x) && seq false l'
      end
  end.
End Seq.
Lemma check_arr : forall p l, sound_check def rank c p (VArr l) =
    match l with
    | [] => true
    | x :: args =>
      match snd x with
      | VArr [] => each (inner p) args
      | VArr [(_, VNum _)] => each (inner p) args
      | VStr _ w =>
        if one_of (map txt ["minsize"; "maxsize"; "datetime"]%string) w then true
        else if one_of (map txt ["key"; "tostring"; "tonumber"; "not"; "!"]%string) w then each p args
        else if one_of (map txt ["all"; "^"]%string) w then seq p false args
        else if one_of (map txt [">"; ">="; "<"; "<="]%string) w then seq p true args
        else if one_of (map txt ["prefix"; "suffix"; "setvar"; "emit"]%string) w then match args with _ :: rest => each p rest | [] => true end
        else if one_of (map txt ["split"; "explode"; "usevar"]%string) w then match args with _ :: rest => each Other rest | [] => true end
        else word_ok def rank c p w && each p args
      | _ => each p l
      end
    end.
Proof. reflexivity. Qed.
Lemma each_sound : forall p (l : list member), Forall (fun x => forall p, sound_check def rank c p (snd x) = true -> snd_ p (snd x)) l ->
  each p l = true -> forall x, In x l -> snd_ p (snd x).
Proof.
  intros p l H E x I. induction l as [|y l IH]; [destruct I|]. inversion_clear H as [|? ? Hy Hl]. cbn [each] in E. apply Bool.andb_true_iff in E as [E1 E2].
  destruct I as [<-|I]; [apply Hy, E1|apply IH; assumption].
Qed.
Lemma seq_sound : forall p (l : list member) s, Forall (fun x => forall p, sound_check def rank c p (snd x) = true -> snd_ p (snd x)) l ->
  seq p s l = true -> if s then sound_all def rank c p (tl l) else sound_all def rank c p l.
Proof.
  intros p l. induction l as [|x l IH]; intros s H E; [destruct s; apply SA_nil|].
  inversion_clear H as [|? ? Hx Hl]. cbn [seq] in E. destruct s; [exact (IH false Hl E)|].
  assert (G : plain_rule (snd x) -> sound_check def rank c p (snd x) && seq p false l = true -> sound_all def rank c p (x :: l)).
  { intros Pl B. apply Bool.andb_true_iff in B as [B1 B2]. apply SA_rule; [exact Pl|apply Hx, B1|exact (IH false Hl B2)]. }
  destruct x as [k v]. cbn [snd] in *. destruct v as [| | | |e w| |]; try (apply G; [exact I|exact E]).
  destruct (one_of _ w) eqn:O.
  - apply one_of_in in O. specialize (IH true Hl E). destruct l as [|y l]; [apply SA_last, O|]. apply SA_compare; [exact O|exact IH].
  - destruct w as [|a w]; [apply G; [split; [intros I; apply one_of_in in I; congruence|discriminate]|exact E]|].
    cbn [is_comment] in E. destruct (a =? 35) eqn:A.
    + apply Z.eqb_eq in A as ->. apply SA_comment. exact (IH false Hl E).
    + apply G; [|exact E]. split; [intros I; apply one_of_in in I; congruence|]. intros w' Q. injection Q as -> _. discriminate.
Qed.
Lemma check_sound : forall r p, sound_check def rank c p r = true -> snd_ p r.
Proof.
  induction r as [| |b|n|e s|l IH|d l IH] using value_ind'; intros p H.
  - apply So_undef.
  - apply So_null.
  - apply So_bool.
  - apply So_num.
  - apply word_ok_sound, H.
  - rewrite check_arr in H. destruct l as [|[k v] args]; [apply So_empty|]. cbn [snd] in H.
    pose proof IH as IHall. inversion_clear IH as [|? ? Hx Hl].
    assert (Plain : each p ((k, v) :: args) = true -> match v with VArr [] | VArr [(_, VNum _)] => False | VStr _ w => ~ In w keywords | _ => True end ->
      snd_ p (VArr ((k, v) :: args))).
    { intros E Pl. apply So_plain; [exact Pl|]. apply each_sound; assumption. }
    assert (Rest : forall q, match args with _ :: rest => each q rest | [] => true end = true -> forall x, In x (skipn 1 args) -> snd_ q (snd x)).
    { intros q E. destruct args as [|y rest]; [intros x []|]. inversion_clear Hl. apply each_sound; assumption. }
    destruct v as [| | | |e w|h|]; try (apply Plain; [exact H|exact I]).
    + destruct (one_of _ w) eqn:O1; [apply one_of_in in O1; apply So_free; exact O1|].
      destruct (one_of (map txt ["key"; _; _; _; _]%string) w) eqn:O2; [apply one_of_in in O2; apply So_list; [exact O2|apply each_sound; assumption]|].
      destruct (one_of (map txt ["all"; _]%string) w) eqn:O3; [apply one_of_in in O3; apply So_all; [exact O3|exact (seq_sound p args false Hl H)]|].
      destruct (one_of (map txt [">"; _; _; _]%string) w) eqn:O4.
      { apply one_of_in in O4. apply So_compare; [exact O4|]. pose proof (seq_sound p args true Hl H) as Q.
        destruct args as [|y args]; [apply SA_last, O4|apply SA_compare; [exact O4|exact Q]]. }
      destruct (one_of (map txt ["prefix"; _; _; _]%string) w) eqn:O5.
      { apply one_of_in in O5. cbn [map In] in O5. destruct O5 as [<-|[<-|[<-|[<-|[]]]]];
          first [apply So_emit; apply Rest, H | apply So_first; [cbn [map In]; tauto|apply Rest, H]]. }
      destruct (one_of (map txt ["split"; _; _]%string) w) eqn:O6; [apply one_of_in in O6; apply So_other; [exact O6|apply Rest, H]|].
      apply Plain; [exact H|]. intros I. unfold keywords in I.
      assert (N : forall L, one_of L w = false -> ~ In w L) by (intros L E J; apply one_of_in in J; congruence).
      apply N in O1, O2, O3, O4, O5, O6. cbn [map In] in *. tauto.
    + destruct h as [|[k' u] h]; [apply So_items, each_sound; assumption|].
      destruct u; try (apply Plain; [exact H|exact I]). destruct h as [|y h]; [|apply Plain; [exact H|exact I]].
      apply So_tuple, each_sound; assumption.
  - apply So_object. apply each_sound; [exact IH|]. revert H. cbn [sound_check].
    induction l as [|x l IHl]; [reflexivity|]. intros H. cbn [each]. apply Bool.andb_true_iff in H as [A B]. rewrite A. inversion_clear IH. apply IHl; assumption.
Qed.
End Check.

Lemma find_loop_key : forall fuel (l : list member) w a b m, find_loop fuel l w a b = Ok (Some m) -> In m l /\ fst m = w.
Proof.
  induction fuel as [|fuel IH]; intros l w a b m; cbn [find_loop]; [discriminate|].
  destruct (a <? b)%nat; [|discriminate]. destruct (nth_error l _) as [it|] eqn:E; [|discriminate].
  destruct (kcmp w (fst it)) eqn:K; try apply IH. intros X. injection X as <-. split; [exact (nth_error_In _ _ E)|].
  symmetry. apply kcmp_eq. exact K.
Qed.
Theorem check_definition_sound : forall def rank, check_definition def rank = true -> sound_definition def rank.
Proof.
  intros def rank H w. destruct def as [| | | | | |d l]; try apply So_undef. cbn [value_member]. unfold find_member.
  destruct (findSorted l w) as [[x|]| |] eqn:E; try apply So_undef. unfold findSorted in E. apply find_loop_key in E as [I <-].
  apply check_sound. cbn [check_definition] in H. rewrite forallb_forall in H. exact (H x I).
Qed.
