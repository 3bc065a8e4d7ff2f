(** Variables and operands of validator rules. *)
From Coq Require Import String Ascii Lia.
From Verif Require Import Base ModelKeyed SpecKeyed ProofKeyed ModelValue ProofValue ModelText SpecText ModelObject SpecObject ProofObject ModelArray ModelEq ModelBin
  ModelUtf8 ModelJwt ModelString ModelPath ModelRpc ModelNumView ModelDate ModelValidator SpecValidator SpecVars ProofValidator ProofValidator2 ProofValidator3 ProofValidator4.
Local Open Scope Z_scope.
Local Open Scope list_scope.

Scheme names_mut := Minimality for names Sort Prop with steps_mut := Minimality for steps Sort Prop.

Lemma lookup_binding : forall vars n, lookup_var vars n = match binding n vars with Some v => (n, v) | None => ([], VUndef) end.
Proof.
  induction vars as [|[k v] vars IH]; intros n; [reflexivity|]. cbn [lookup_var binding fst]. destruct (beqb k n) eqn:E; [|apply IH].
  apply beqb_eq in E as ->. reflexivity.
Qed.
Lemma find_var_is : forall vars m n x, snd x <> VUndef -> (find_var vars m n = x <-> var_is vars m n x).
Proof.
  intros vars m n x D. unfold find_var. destruct (beqb n (txt "$this")) eqn:E.
  - apply beqb_eq in E as ->. split; [intros ->; constructor|]. intros H. inversion H; subst; [reflexivity|contradiction].
  - apply beqb_neq in E. rewrite lookup_binding. split.
    + intros <-. destruct (binding n vars) eqn:B; [constructor; assumption|destruct (D eq_refl)].
    + intros H. inversion H; subst; [contradiction|]. rewrite H1. reflexivity.
Qed.
Lemma var_fun : forall vars m n x y, var_is vars m n x -> var_is vars m n y -> x = y.
Proof. intros vars m n x y A B. inversion A; subst; inversion B; subst; congruence. Qed.
Lemma defined_spec : forall v, defined v = true <-> v <> VUndef.
Proof. intros v. destruct v; cbn; split; congruence. Qed.
Lemma known_spec : forall vars m n, defined (snd (find_var vars m n)) = true <-> known vars m n.
Proof.
  intros vars m n. rewrite defined_spec. split.
  - intros D. exists (find_var vars m n). split; [apply find_var_is; [exact D|reflexivity]|exact D].
  - intros (x & X & D). apply find_var_is in X; [|exact D]. rewrite X. exact D.
Qed.

Section Res.
Variables (V : venv) (vars : list member) (m : member).
Notation Names := (names V vars m).
Notation Steps := (steps V vars m).

Lemma goes_fun : forall v p y z, goes_to V v p y -> goes_to V v p z -> y = z.
Proof. intros v p y z A B. inversion A; subst; inversion B; subst; try congruence; match goal with H : forall d l, _ <> VObj d l |- _ => destruct (H _ _ eq_refl) end. Qed.
(** Values whose objects are in order, so that lookup finds what is there. *)
Lemma goes_sorted : forall v p y, all_sorted v -> goes_to V v p y -> all_sorted (snd y).
Proof.
  assert (U : all_sorted VUndef) by (apply as_leaf; exact I).
  intros v p y A G. destruct G; cbn [snd]; try exact U.
  - inversion A; subst; [contradiction|]. apply binding_in in H. rewrite Forall_forall in H3. exact (H3 _ H).
  - assert (F : Forall (fun x : member => all_sorted (snd x)) (members_of v)).
    { destruct v; cbn [members_of]; try constructor; inversion A; subst; try contradiction; assumption. }
    rewrite Forall_forall in F. destruct (nth_in_or_default (Z.to_nat (uint_of V (VNum n))) (members_of v) ([], VUndef)) as [I0|E]; [exact (F _ I0)|rewrite E; exact U].
Qed.
Lemma step_goes : forall x p y, all_sorted (snd x) -> (step_into V x p = Some y <-> goes_to V (snd x) p y).
Proof.
  assert (S1 : forall x p y, all_sorted (snd x) -> step_into V x p = Some y -> goes_to V (snd x) p y).
  { intros x p y A H. unfold step_into in H. destruct p; try discriminate.
    - injection H as <-. assert (vitem (snd x) (Z.to_nat (Z.min (uint_of V (VNum n)) (Z.of_nat (vsize (snd x))))) = nth (Z.to_nat (uint_of V (VNum n))) (members_of (snd x)) ([], VUndef)) as ->;
        [|constructor]. unfold vitem.
      destruct (Z.le_gt_cases (Z.of_nat (vsize (snd x))) (uint_of V (VNum n))) as [L|L]; [|rewrite Z.min_l by lia; reflexivity].
      rewrite Z.min_r by exact L. rewrite Nat2Z.id. rewrite !nth_overflow by (unfold vsize in *; lia). reflexivity.
    - injection H as <-. unfold member_at. destruct (snd x) as [| | | | | |d l] eqn:E; try (apply Goes_no_object; discriminate).
      inversion A; subst; [contradiction|]. rewrite (find_member_binding l s) by assumption. destruct (binding s l) eqn:B; cbn; [apply Goes_member; exact B|apply Goes_no_member; exact B]. }
  intros x p y A. split; [apply S1; exact A|]. intros G.
  assert (E : exists z, step_into V x p = Some z) by (destruct G; eexists; reflexivity).
  destruct E as (z & E). rewrite E. f_equal. exact (goes_fun _ _ _ _ (S1 _ _ _ A E) G).
Qed.

Hypothesis sv : Forall (fun x => all_sorted (snd x)) vars.
Hypothesis sm : all_sorted (snd m).
Lemma var_sorted : forall n x, var_is vars m n x -> all_sorted (snd x).
Proof. intros n x X. destruct X; [exact sm|]. apply binding_in in H0. rewrite Forall_forall in sv. exact (sv _ H0). Qed.

(** The steps of [resolve_var], apart. *)
Definition walk_steps (x : member) (l : list member) : option member :=
  (fix steps (x : member) (l : list member) : option member :=
    match l with
    | [] => Some x
    | (_, p) :: l' =>
      let y :=
        match p with
        | VStr _ _ | VNum _ => step_into V x p
        | VArr _ => step_into V x (match resolve_var V vars m p with Some m => snd m | None => p end)
        | _ => None
        end in
      match y with Some y => steps y l' | None => None end
    end) x l.
Definition one_step (x : member) (p : value) : option member :=
  match p with
  | VStr _ _ | VNum _ => step_into V x p
  | VArr _ => step_into V x (match resolve_var V vars m p with Some m => snd m | None => p end)
  | _ => None
  end.
Lemma walk_cons : forall x k p l, walk_steps x ((k, p) :: l) = match one_step x p with Some y => walk_steps y l | None => None end.
Proof. reflexivity. Qed.
Lemma resolve_eq : forall v, resolve_var V vars m v =
  match v with
  | VArr ((_, VStr _ n) :: rest) => let x := find_var vars m n in if defined (snd x) then walk_steps x rest else None
  | _ => None
  end.
Proof. destruct v as [| | | | |[|[k [| | | | | |]] l]|]; reflexivity. Qed.
Lemma walk_spec : forall l, Forall (fun x => forall y, (resolve_var V vars m (snd x) = Some y -> Names (snd x) y /\ all_sorted (snd y))) l ->
  forall x y, all_sorted (snd x) -> walk_steps x l = Some y -> Steps x l y /\ all_sorted (snd y).
Proof.
  intros l H. induction H as [|[k p] l Hp _ IH]; intros x y A W.
  - injection W as <-. split; [constructor|exact A].
  - rewrite walk_cons in W. destruct (one_step x p) as [z|] eqn:E; [|discriminate].
    cbn [snd] in Hp. unfold one_step in E. destruct p; try discriminate.
    + apply step_goes in E; [|exact A]. destruct (IH z y (goes_sorted _ _ _ A E) W). split; [eapply Steps_plain; eassumption|assumption].
    + apply step_goes in E; [|exact A]. destruct (IH z y (goes_sorted _ _ _ A E) W). split; [eapply Steps_plain; eassumption|assumption].
    + destruct (resolve_var V vars m (VArr l0)) as [q|] eqn:R; [|discriminate E]. destruct (Hp q eq_refl) as (N & _).
      apply step_goes in E; [|exact A]. destruct (IH z y (goes_sorted _ _ _ A E) W). split; [eapply Steps_var; eassumption|assumption].
Qed.
Lemma resolve_names : forall v x, resolve_var V vars m v = Some x -> Names v x /\ all_sorted (snd x).
Proof.
  intros v. induction v as [| | | | |l IH|] using value_ind'; intros x E; try discriminate. rewrite resolve_eq in E.
  destruct l as [|[k [| | | |e n| |]] rest]; try discriminate. cbv zeta in E. destruct (defined (snd (find_var vars m n))) eqn:D; [|discriminate].
  inversion_clear IH as [|? ? _ IH']. pose proof D as D'. apply defined_spec in D'.
  assert (X : var_is vars m n (find_var vars m n)) by (apply find_var_is; [exact D'|reflexivity]).
  destruct (walk_spec rest IH' _ x (var_sorted _ _ X) E) as (S & A). split; [econstructor; eassumption|exact A].
Qed.
Lemma names_resolve_both : (forall v x, Names v x -> resolve_var V vars m v = Some x) /\
  (forall x l y, Steps x l y -> all_sorted (snd x) -> walk_steps x l = Some y).
Proof.
  assert (H : forall v x, Names v x -> resolve_var V vars m v = Some x).
  { apply (names_mut V vars m (fun v x => resolve_var V vars m v = Some x) (fun x l y => all_sorted (snd x) -> walk_steps x l = Some y)).
    - intros k e n rest x y X D _ W. rewrite resolve_eq. pose proof X as X'. apply find_var_is in X'; [|exact D]. cbv zeta. rewrite X'.
      rewrite (proj2 (defined_spec _) D). apply W. exact (var_sorted _ _ X).
    - intros x _. reflexivity.
    - intros x k p y rest z G _ W A. rewrite walk_cons. pose proof G as G'. apply step_goes in G'; [|exact A].
      assert (one_step x p = Some y) as -> by (destruct G; exact G'). apply W. exact (goes_sorted _ _ _ A G).
    - intros x k l p y rest z _ R G _ W A. rewrite walk_cons. unfold one_step. rewrite R. pose proof G as G'. apply step_goes in G'; [|exact A]. rewrite G'. apply W. exact (goes_sorted _ _ _ A G). }
  split; [exact H|]. intros x l y S. induction S as [x|x k p y rest z G _ W|x k l p y rest z N G _ W] using steps_ind; intros A; [reflexivity| |].
  - rewrite walk_cons. pose proof G as G'. apply step_goes in G'; [|exact A].
    assert (one_step x p = Some y) as -> by (destruct G; exact G'). apply W. exact (goes_sorted _ _ _ A G).
  - rewrite walk_cons. unfold one_step. rewrite (H _ _ N). pose proof G as G'. apply step_goes in G'; [|exact A]. rewrite G'. apply W. exact (goes_sorted _ _ _ A G).
Qed.
Lemma resolve_spec : forall v x, resolve_var V vars m v = Some x <-> Names v x.
Proof. intros v x. split; [intros H; apply resolve_names; exact H|apply names_resolve_both]. Qed.
Lemma operand_spec : forall q x, get_var V vars m q = x <-> operand V vars m q x.
Proof.
  intros q x. unfold get_var, operand. destruct (resolve_var V vars m (snd q)) as [y|] eqn:R.
  - apply resolve_spec in R. split; [intros <-; left; exact R|]. intros [N|(N & _)]; [|destruct N; exists y; exact R].
    apply resolve_spec in R. apply resolve_spec in N. congruence.
  - assert (N : ~ named_value V vars m (snd q)). { intros (y & Y). apply resolve_spec in Y. congruence. }
    split; [intros <-; right; auto|]. intros [Y|(_ & ->)]; [destruct N; exists x; exact Y|reflexivity].
Qed.
End Res.

(** Variables given at once: the last one of a name counts. *)
Lemma binding_app : forall A (l1 l2 : list (bytes * A)) k, binding k (l1 ++ l2) = match binding k l1 with Some v => Some v | None => binding k l2 end.
Proof. induction l1 as [|[k1 v1] l1 IH]; intros l2 k; cbn; [reflexivity|]. destruct (beqb k1 k); [reflexivity|]. apply IH. Qed.
Lemma binding_rev : forall A (l : list (bytes * A)) k, binding k (rev l) = last_binding k l.
Proof.
  induction l as [|[k1 v1] l IH]; intros k; cbn [rev last_binding]; [reflexivity|]. rewrite binding_app, IH.
  destruct (last_binding k l); [reflexivity|]. cbn. reflexivity.
Qed.
Lemma variables_given : forall vars s m n x, var_is (vs_vars (set_variables vars s)) m n x <->
  (n = txt "$this" /\ x = m) \/ (n <> txt "$this" /\ exists v, last_binding n (members_of vars) = Some v /\ x = (n, v)).
Proof.
  intros vars s m n x. cbn [set_variables vs_vars]. split.
  - intros H. inversion H as [|n' v N B]; subst; [auto|]. rewrite binding_rev in B. eauto 6.
  - intros [[-> ->]|(N & v & B & ->)]; [constructor|]. constructor; [exact N|]. rewrite binding_rev. exact B.
Qed.
