From Coq Require Import Sorted Permutation.
From Coq Require Import String.
From Verif Require Import Base ModelKeyed SpecKeyed ProofKeyed ModelStd ProofStd ModelEnum ModelRpc SpecString.
Local Open Scope string_scope.
Local Open Scope list_scope.
Local Open Scope Z_scope.

Lemma bytes_less_lt : forall a b, bytes_less a b = true <-> klt a b.
Proof. intros a b. unfold bytes_less, klt. destruct (kcmp a b); split; congruence. Qed.
Lemma bytes_less_false : forall a b, bytes_less a b = false -> a = b \/ klt b a.
Proof.
  intros a b H. unfold bytes_less in H. destruct (kcmp a b) eqn:E; [left; apply kcmp_eq, E|discriminate|right; apply kcmp_gt_lt, E].
Qed.

(** The search by name, common to both functions. *)
Lemma by_name_search : forall defs E n, ne_built defs E ->
  exists i, lower_bound (fun x => bytes_less (snd x) n) (ne_byname E) = Ok i /\
  match nth_error (ne_byname E) i with
  | Some x => (snd x = n /\ In x defs) \/ (snd x <> n /\ ~ In n (map snd defs))
  | None => ~ In n (map snd defs)
  end.
Proof.
  intros defs E n (_ & Hp & Hs).
  destruct (sorted_parts cmp_by_name (fun x => bytes_less (snd x) n) (ne_byname E)) as (a & b & El & Ha & Hb); [|exact Hs|].
  { intros x y H1 H2. unfold cmp_by_name in H1. apply bytes_less_lt in H2. apply bytes_less_lt. apply bytes_less_false in H1 as [H|H]; [rewrite H in H2; exact H2|].
    eapply klt_trans; eauto. }
  exists (length a). split; [rewrite El; apply lower_bound_spec; auto|].
  assert (Hin : In n (map snd defs) -> In n (map snd b)).
  { intros H. apply (Permutation_in (l' := map snd (ne_byname E))) in H; [|apply Permutation_map, Hp].
    rewrite El, map_app, in_app_iff in H. destruct H as [H|H]; [|exact H]. apply in_map_iff in H as (y & <- & Hy).
    rewrite Forall_forall in Ha. apply Ha in Hy. apply bytes_less_lt in Hy. apply klt_irrefl in Hy. tauto. }
  rewrite El, nth_error_app2, Nat.sub_diag by lia. destruct b as [|x b]; cbn [nth_error]; [intros H; apply Hin in H; exact H|].
  destruct (bytes_eq_dec (snd x) n) as [Hx|Hx].
  - left. split; [exact Hx|]. apply (Permutation_in (l := ne_byname E)); [apply Permutation_sym, Hp|]. rewrite El. apply in_elt.
  - right. split; [exact Hx|]. intros H. apply Hin in H. apply in_map_iff in H as (y & Hy & Hiy). destruct Hiy as [->|Hiy]; [exact (Hx Hy)|].
    inversion_clear Hb as [|? ? Hbx Hb']. apply bytes_less_false in Hbx as [K|K]; [exact (Hx K)|].
    rewrite El in Hs.
    assert (Hs2 : StronglySorted (fun a b : edef => cmp_by_name b a = false) (x :: b)).
    { clear - Hs. induction a as [|z a IH]; [exact Hs|]. apply IH. inversion Hs; auto. }
    inversion_clear Hs2 as [|? ? _ Hf]. rewrite Forall_forall in Hf. specialize (Hf y Hiy). unfold cmp_by_name in Hf.
    rewrite Hy in Hf. apply bytes_less_false in Hf as [F|F]; [apply Hx; congruence|]. apply (klt_irrefl n). eapply klt_trans; eauto.
Qed.
Lemma by_val_search : forall defs E v, ne_built defs E ->
  exists i, lower_bound (fun x => fst x <? v) (ne_byval E) = Ok i /\
  match nth_error (ne_byval E) i with
  | Some x => (fst x = v /\ In x defs) \/ (fst x <> v /\ ~ In v (map fst defs))
  | None => ~ In v (map fst defs)
  end.
Proof.
  intros defs E v ((Hp & Hs) & _).
  destruct (sorted_parts cmp_by_val (fun x => fst x <? v) (ne_byval E)) as (a & b & El & Ha & Hb); [|exact Hs|].
  { intros x y H1 H2. unfold cmp_by_val in H1. lia. }
  exists (length a). split; [rewrite El; apply lower_bound_spec; auto|].
  assert (Hin : In v (map fst defs) -> In v (map fst b)).
  { intros H. apply (Permutation_in (l' := map fst (ne_byval E))) in H; [|apply Permutation_map, Hp].
    rewrite El, map_app, in_app_iff in H. destruct H as [H|H]; [|exact H]. apply in_map_iff in H as (y & <- & Hy).
    rewrite Forall_forall in Ha. apply Ha in Hy. lia. }
  rewrite El, nth_error_app2, Nat.sub_diag by lia. destruct b as [|x b]; cbn [nth_error]; [intros H; apply Hin in H; exact H|].
  destruct (Z.eq_dec (fst x) v) as [Hx|Hx].
  - left. split; [exact Hx|]. apply (Permutation_in (l := ne_byval E)); [apply Permutation_sym, Hp|]. rewrite El. apply in_elt.
  - right. split; [exact Hx|]. intros H. apply Hin in H. apply in_map_iff in H as (y & Hy & Hiy). destruct Hiy as [->|Hiy]; [exact (Hx Hy)|].
    inversion_clear Hb as [|? ? Hbx Hb']. rewrite El in Hs.
    assert (Hs2 : StronglySorted (fun a b : edef => cmp_by_val b a = false) (x :: b)).
    { clear - Hs. induction a as [|z a IH]; [exact Hs|]. apply IH. inversion Hs; auto. }
    inversion_clear Hs2 as [|? ? _ Hf]. rewrite Forall_forall in Hf. specialize (Hf y Hiy). unfold cmp_by_val in Hf. lia.
Qed.

Lemma value_spec : forall defs E n, ne_built defs E ->
  (exists v, ne_value E n = Ok (Found v) /\ In (v, n) defs) \/
  (exists names, ne_value E n = Ok (UnknownEnum n names) /\ ~ In n (map snd defs) /\ Permutation (map snd defs) names).
Proof.
  intros defs E n H. destruct (by_name_search defs E n H) as (i & Hi & Hc). unfold ne_value. rewrite Hi. cbn [bind].
  assert (P : Permutation (map snd defs) (map snd (ne_byname E))) by (apply Permutation_map, H).
  destruct (nth_error (ne_byname E) i) as [[v m]|]; cbn [fst snd] in *; [|right; eexists; split; [reflexivity|]; auto].
  destruct (beqb m n) eqn:B.
  - apply beqb_eq in B. subst m. destruct Hc as [[_ Hc]|[Hc _]]; [|congruence]. left. exists v. auto.
  - apply beqb_neq in B. destruct Hc as [[Hc _]|[_ Hc]]; [congruence|]. right. eexists. split; [reflexivity|]. auto.
Qed.
Lemma find_spec : forall defs E n, ne_built defs E ->
  (exists v, ne_find E n = Ok (Some v) /\ ne_value E n = Ok (Found v)) \/
  (ne_find E n = Ok None /\ exists names, ne_value E n = Ok (UnknownEnum n names)).
Proof.
  intros defs E n H. destruct (by_name_search defs E n H) as (i & Hi & Hc). unfold ne_find, ne_value. rewrite Hi. cbn [bind].
  destruct (nth_error (ne_byname E) i) as [[v m]|]; cbn [fst snd] in *; [|right; eauto]. destruct (beqb m n); [left|right]; eauto.
Qed.
Lemma name_spec : forall defs E v, ne_built defs E ->
  (exists n, ne_name E v = Ok n /\ In (v, n) defs) \/ (ne_name E v = Ok [] /\ ~ In v (map fst defs)).
Proof.
  intros defs E v H. destruct (by_val_search defs E v H) as (i & Hi & Hc). unfold ne_name. rewrite Hi. cbn [bind].
  destruct (nth_error (ne_byval E) i) as [[w m]|]; cbn [fst snd] in *; [|right; auto].
  destruct (w =? v) eqn:B.
  - assert (w = v) by lia. subst w. destruct Hc as [[_ Hc]|[Hc _]]; [|congruence]. left. exists m. auto.
  - destruct Hc as [[Hc _]|[_ Hc]]; [lia|]. right. auto.
Qed.
Lemma nodup_snd : forall {A B} (l : list (A * B)) a1 a2 b, NoDup (map snd l) -> In (a1, b) l -> In (a2, b) l -> a1 = a2.
Proof.
  intros A B l a1 a2 b. induction l as [|[a c] l IH]; cbn [map snd In]; intros N H1 H2; [tauto|]. inversion_clear N as [|? ? N1 N2].
  destruct H1 as [H1|H1], H2 as [H2|H2]; [congruence| | |auto].
  - injection H1 as -> ->. exfalso. apply N1. apply in_map_iff. exists (a2, b). auto.
  - injection H2 as -> ->. exfalso. apply N1. apply in_map_iff. exists (a1, b). auto.
Qed.
Lemma nodup_fst : forall {A B} (l : list (A * B)) a b1 b2, NoDup (map fst l) -> In (a, b1) l -> In (a, b2) l -> b1 = b2.
Proof.
  intros A B l a b1 b2. induction l as [|[c b] l IH]; cbn [map fst In]; intros N H1 H2; [tauto|]. inversion_clear N as [|? ? N1 N2].
  destruct H1 as [H1|H1], H2 as [H2|H2]; [congruence| | |auto].
  - injection H1 as -> ->. exfalso. apply N1. apply in_map_iff. exists (a, b2). auto.
  - injection H2 as -> ->. exfalso. apply N1. apply in_map_iff. exists (a, b1). auto.
Qed.
Lemma inverse_spec : forall defs E v n, ne_built defs E -> NoDup (map fst defs) -> NoDup (map snd defs) ->
  (In (v, n) defs <-> ne_value E n = Ok (Found v)) /\ (In (v, n) defs -> ne_name E v = Ok n) /\
  (ne_name E v = Ok n -> n <> [] -> In (v, n) defs).
Proof.
  intros defs E v n H N1 N2. repeat split.
  - intros K. destruct (value_spec defs E n H) as [(w & Hw & Hi)|(names & _ & Hn & _)].
    + rewrite Hw. do 2 f_equal. eapply nodup_snd; eauto.
    + exfalso. apply Hn, in_map_iff. exists (v, n). auto.
  - intros K. destruct (value_spec defs E n H) as [(w & Hw & Hi)|(names & Hn & _)]; congruence.
  - intros K. destruct (name_spec defs E v H) as [(m & Hm & Hi)|[_ Hn]].
    + rewrite Hm. f_equal. eapply nodup_fst; eauto.
    + exfalso. apply Hn, in_map_iff. exists (v, n). auto.
  - intros K Hne. destruct (name_spec defs E v H) as [(m & Hm & Hi)|[Hm _]]; congruence.
Qed.
Lemma all_enums_loop_spec : forall sep l r, snd (all_enums_loop sep l r sep) = sep.
Proof. induction l as [|x l IH]; intros r; [reflexivity|]. cbn [all_enums_loop]. apply IH. Qed.
Lemma all_enums_spec : forall defs E sep, ne_built defs E -> all_enums E sep = match defs with [] => [] | _ => sep end.
Proof.
  intros defs E sep (_ & Hp & _). unfold all_enums. destruct defs as [|d defs].
  - apply Permutation_nil in Hp. rewrite Hp. reflexivity.
  - destruct (ne_byname E) as [|x l]; [apply Permutation_sym, Permutation_nil in Hp; discriminate|]. cbn [all_enums_loop]. apply all_enums_loop_spec.
Qed.

(** *** The text of the exception *)
Lemma what_loop : forall l sep, (fix loop (l : list bytes) (sep : Z) : bytes :=
     match l with
     | [] => []
     | x :: l' => sep :: 39 :: x ++ 39 :: loop l' 44
     end) l sep = match l with [] => [] | _ => sep :: intercalate [44] (map (fun n => 39 :: n ++ [39]) l) end.
Proof.
  induction l as [|x l IH]; intros sep; [reflexivity|]. rewrite IH. destruct l as [|y l]; [reflexivity|].
  change (map (fun n => 39 :: n ++ [39]) (x :: y :: l)) with ((39 :: x ++ [39]) :: map (fun n => 39 :: n ++ [39]) (y :: l)).
  change (intercalate [44] ((39 :: x ++ [39]) :: map (fun n => 39 :: n ++ [39]) (y :: l)))
    with ((39 :: x ++ [39]) ++ [44] ++ intercalate [44] (map (fun n => 39 :: n ++ [39]) (y :: l))).
  cbn [app]. rewrite <- app_assoc. reflexivity.
Qed.
Lemma what_text : forall n names, ne_what n names =
  txt "Unknown enum name '" ++ n ++ txt "'. The value is not on following list:" ++
  match names with [] => [] | _ => txt " " ++ intercalate (txt ",") (map (fun x => txt "'" ++ x ++ txt "'") names) end.
Proof.
  intros n names. unfold ne_what. change (txt "Unknown enum name '") with [85;110;107;110;111;119;110;32;101;110;117;109;32;110;97;109;101;32;39].
  change (txt "'. The value is not on following list:") with
    [39;46;32;84;104;101;32;118;97;108;117;101;32;105;115;32;110;111;116;32;111;110;32;102;111;108;108;111;119;105;110;103;32;108;105;115;116;58].
  rewrite what_loop. destruct names; reflexivity.
Qed.
