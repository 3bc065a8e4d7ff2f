(** Several array builders: each is a list of its own. *)
From Verif Require Import Base ModelKeyed SpecKeyed ModelValue ModelObject ModelArray SpecArray ModelArrays.

(** A builder: the list it was made from and its current list; [None] once it was moved
    from. *)
Notation abuilder := (option aspec).

Definition after (l : list abuilder) (op : bop) : list abuilder :=
  match op with
  | BValue v => l ++ [Some (mkASpec (members_of v) (members_of v))]
  | BEmpty => l ++ [Some (mkASpec [] [])]
  | BList x => l ++ [Some (mkASpec [] x)]
  | BOp b op => b_put l b (option_map (fun s => aspec_step s op) (nth b l None))
  | BSetBase b v => b_put l b (Some (mkASpec (members_of v) (members_of v)))
  | BCopy b => l ++ [nth b l None]
  | BAssign b c => b_put l b (nth c l None)
  | BMoveNew c => b_put l c None ++ [nth c l None]
  | BMove b c => if Nat.eqb b c then l else b_put (b_put l b (nth c l None)) c None
  | BGet _ _ | BSize _ | BCommit _ => l
  end.

(** What is read. *)
Definition shown (l : list abuilder) (op : bop) : list ares :=
  match op with
  | BGet b pos => match nth b l None with Some s => [AItem (nth_error (as_cur s) pos)] | None => [] end
  | BSize b => match nth b l None with Some s => [ACount (length (as_cur s))] | None => [] end
  | BCommit b => match nth b l None with Some s => [AValue (VArr (defined_only (as_cur s)))] | None => [] end
  | _ => []
  end.

(** Builders which were not moved from; moved-from ones may be assigned to, copied and
    moved again, and may be given a new base. *)
Definition live (l : list abuilder) (b : nat) (P : aspec -> Prop) : Prop :=
  match nth_error l b with Some (Some s) => P s | _ => False end.
Definition whole (v : value) : Prop := exists l, v = VArr l /\ forall m, In m l -> is_undef (snd m) = false.
Definition allowed (l : list abuilder) (op : bop) : Prop :=
  match op with
  | BValue v => whole v
  | BEmpty | BList _ => True
  | BOp b op => live l b (fun s => aop_ok s op)
  | BSetBase b v => nth_error l b = Some None /\ whole v
  | BCopy b => b < length l
  | BMoveNew c => c < length l
  | BAssign b c | BMove b c => b < length l /\ c < length l
  | BGet b _ | BSize b | BCommit b => live l b (fun _ => True)
  end.
Fixpoint all_allowed (l : list abuilder) (ops : list bop) : Prop :=
  match ops with [] => True | op :: ops' => allowed l op /\ all_allowed (after l op) ops' end.
Fixpoint all_shown (l : list abuilder) (ops : list bop) : list ares :=
  match ops with [] => [] | op :: ops' => shown l op ++ all_shown (after l op) ops' end.

(** Operations on one builder, and those which give a moved-from one a base again. *)
Fixpoint b_ops (b : barr) (ops : list aop) : option barr :=
  match ops with [] => Some b | op :: ops' => match b_op b op with Some b' => b_ops b' ops' | None => None end end.
