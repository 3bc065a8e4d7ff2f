From Coq Require Import Sorted Permutation.
From Verif Require Import Base ModelStd.

Lemma lower_bound_loop_spec : forall {A} (below : A -> bool) a b,
  Forall (fun x => below x = true) a -> Forall (fun x => below x = false) b ->
  forall fuel first len, (len < fuel)%nat -> (first <= length a)%nat -> (length a <= first + len)%nat -> (first + len <= length (a ++ b))%nat ->
  lower_bound_loop fuel below (a ++ b) first len = Ok (length a).
Proof.
  intros A below a b Ha Hb. induction fuel as [|f IH]; intros first len Hf H1 H2 H3; [lia|]. cbn [lower_bound_loop].
  destruct len as [|n]; [f_equal; lia|]. set (len := S n) in *. cbv zeta.
  assert (Hh : (Nat.div2 len < len)%nat) by (apply Nat.lt_div2; lia).
  destruct (nth_error (a ++ b) (first + Nat.div2 len)) as [x|] eqn:E; [|apply nth_error_None in E; lia].
  destruct (Nat.lt_ge_cases (first + Nat.div2 len) (length a)) as [L|L].
  - rewrite nth_error_app1 in E by lia. apply nth_error_In in E. rewrite Forall_forall in Ha. rewrite (Ha _ E).
    apply IH; lia.
  - rewrite nth_error_app2 in E by lia. apply nth_error_In in E. rewrite Forall_forall in Hb. rewrite (Hb _ E).
    apply IH; lia.
Qed.
Lemma lower_bound_spec : forall {A} (below : A -> bool) a b,
  Forall (fun x => below x = true) a -> Forall (fun x => below x = false) b -> lower_bound below (a ++ b) = Ok (length a).
Proof. intros A below a b Ha Hb. unfold lower_bound. apply lower_bound_loop_spec; auto; rewrite ?app_length; lia. Qed.

(** A sorted list falls in two parts. *)
Lemma sorted_parts : forall {A} (less : A -> A -> bool) (below : A -> bool) l,
  (forall x y, less y x = false -> below y = true -> below x = true) ->
  StronglySorted (fun a b => less b a = false) l ->
  exists a b, l = a ++ b /\ Forall (fun x => below x = true) a /\ Forall (fun x => below x = false) b.
Proof.
  intros A less below l Hm H. induction H as [|x l H (a & b & -> & Ha & Hb) Hx]; [exists [], []; auto|].
  destruct (below x) eqn:E; [exists (x :: a), b; auto|]. exists [], (x :: a ++ b). split; [reflexivity|]. split; [constructor|].
  constructor; [exact E|]. rewrite Forall_forall in *. intros y Hy. destruct (below y) eqn:Ey; [|reflexivity].
  rewrite (Hm x y) in E; auto.
Qed.
