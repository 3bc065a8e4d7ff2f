(** What programs with builders and values mean when nothing is shared: every
    variable holds a value of its own and every builder its own list of
    changes. *)
From Verif Require Import Base ModelKeyed SpecKeyed ModelValue ModelObject SpecObject ModelHeap.

(** What a handle shows to its user, following the containers in memory. *)
Inductive shows (h : heap) : hval -> value -> Prop :=
| shows_leaf : forall v, shows h (HV v) v
| shows_object : forall a d cap items l, nth_error h a = Some (mkCell (Some d) cap items) ->
    shows_items h items l -> shows h (HR a) (VObj d l)
| shows_array : forall a cap items l, nth_error h a = Some (mkCell None cap items) ->
    shows_items h items l -> shows h (HR a) (VArr l)
with shows_items (h : heap) : list hmember -> list member -> Prop :=
| shows_none : shows_items h [] []
| shows_more : forall k x v items l, shows h x v -> shows_items h items l ->
    shows_items h ((k, x) :: items) ((k, v) :: l).

(** A builder: its base and changes, [None] after it was moved from; and the
    state a kept snapshot shows ([seen_iter] of SpecObject). *)
Record sbuilder := mkSB { sb_now : option ospec; sb_seen : option ospec }.
Definition sstate : Type := list sbuilder * list value.

Definition replaced {A} (l : list A) (i : nat) (x : A) : list A := firstn i l ++ x :: skipn (S i) l.

(** What committing as a diff gives: the changes, the last one per key. *)
Definition committed_diff (s : ospec) (v : value) : Prop :=
  match s_changes s with
  | [] => v = VObj false []
  | _ :: _ =>
    exists l, v = VObj true l /\ keys_increasing l /\
      forall k x, In (k, x) l <-> last_binding k (s_changes s) = Some x
  end.

(** What applying the diff [d] to [b] gives. *)
Definition applied (b d v : value) : Prop :=
  match d with
  | VObj _ dl =>
    exists l, v = VObj (is_diff b) l /\ keys_increasing l /\
      forall k x, In (k, x) l <->
        spec_get (mkSpec b dl) k = Some x /\ (is_undef x = false \/ is_diff b = true)
  | _ => v = b
  end.

(** The object listed by the initializer-list constructor. *)
Definition listed (l : list member) (v : value) : Prop :=
  exists b, v = VObj false b /\ keys_increasing b /\
    forall k x, In (k, x) b <-> last_binding k (filter (fun m => negb (is_undef (snd m))) l) = Some x.

Definition named (vs : list value) (ki : bytes * nat) (m : member) : Prop :=
  fst m = fst ki /\ nth_error vs (snd ki) = Some (snd m).

(** One operation.  Premises say when the meaning is defined: the variables
    exist, the builder was not moved from, and a value used as a base, as a
    diff or for lookup has its keys in order ([base_ok]). *)
Inductive sstep : sstate -> hop -> sstate -> Prop :=
| S_lit : forall bs vs v, sstep (bs, vs) (HLit v) (bs, vs ++ [v])
| S_arr : forall bs vs is l, Forall2 (fun i m => named vs ([], i) m) is l ->
    sstep (bs, vs) (HArr is) (bs, vs ++ [VArr l])
| S_new : forall bs vs i v, nth_error vs i = Some v -> base_ok v ->
    sstep (bs, vs) (HNew i) (bs ++ [mkSB (Some (mkSpec v [])) None], vs)
| S_list : forall bs vs l ms v, Forall2 (named vs) l ms -> listed ms v ->
    sstep (bs, vs) (HList l) (bs ++ [mkSB (Some (mkSpec v [])) None], vs)
| S_set : forall bs vs b k i v s r, nth_error vs i = Some v -> nth_error bs b = Some (mkSB (Some s) r) ->
    sstep (bs, vs) (HSet b k i) (replaced bs b (mkSB (Some (spec_add s [(k, v)])) None), vs)
| S_unset : forall bs vs b k s r, nth_error bs b = Some (mkSB (Some s) r) ->
    sstep (bs, vs) (HUnset b k) (replaced bs b (mkSB (Some (spec_add s [(k, VUndef)])) None), vs)
| S_merge : forall bs vs b i v s r, nth_error vs i = Some v -> nth_error bs b = Some (mkSB (Some s) r) ->
    sstep (bs, vs) (HMerge b i)
      (replaced bs b (mkSB (Some (spec_add s (members_of v)))
                        (match members_of v with [] => r | _ :: _ => None end)), vs)
| S_optimize : forall bs vs b s r, nth_error bs b = Some (mkSB (Some s) r) ->
    sstep (bs, vs) (HOptimize b) (bs, vs)
| S_read : forall bs vs b k s r, nth_error bs b = Some (mkSB (Some s) r) ->
    sstep (bs, vs) (HRead b k) (bs, vs ++ [spec_read s k])
| S_commit : forall bs vs b s r v, nth_error bs b = Some (mkSB (Some s) r) -> committed s v ->
    sstep (bs, vs) (HCommit b) (bs, vs ++ [v])
| S_commit_diff : forall bs vs b s r v, nth_error bs b = Some (mkSB (Some s) r) -> committed_diff s v ->
    sstep (bs, vs) (HCommitDiff b) (bs, vs ++ [v])
| S_iterate : forall bs vs b s v, nth_error bs b = Some (mkSB (Some s) None) -> committed s v ->
    sstep (bs, vs) (HIterate b) (replaced bs b (mkSB (Some s) (seen_iter s None)), vs ++ [v])
| S_iterate_again : forall bs vs b n s v, nth_error bs b = Some (mkSB n (Some s)) -> committed s v ->
    sstep (bs, vs) (HIterate b) (bs, vs ++ [v])
| S_clear : forall bs vs b n r, nth_error bs b = Some (mkSB n r) ->
    sstep (bs, vs) (HClear b) (replaced bs b (mkSB (Some (mkSpec empty_object [])) r), vs)
| S_revert : forall bs vs b n r, nth_error bs b = Some (mkSB n r) ->
    sstep (bs, vs) (HRevert b)
      (replaced bs b (mkSB (option_map (fun s => mkSpec (s_base s) []) n) r), vs)
| S_set_base : forall bs vs b i n r v, nth_error vs i = Some v -> base_ok v ->
    nth_error bs b = Some (mkSB n r) ->
    sstep (bs, vs) (HSetBase b i)
      (replaced bs b (mkSB (Some (mkSpec v (match n with Some s => s_changes s | None => [] end))) r), vs)
| S_copy : forall bs vs b s r, nth_error bs b = Some (mkSB (Some s) r) ->
    sstep (bs, vs) (HCopy b) (bs ++ [mkSB (Some s) None], vs)
| S_assign : forall bs vs b c n r s r', b <> c -> nth_error bs b = Some (mkSB n r) ->
    nth_error bs c = Some (mkSB (Some s) r') ->
    sstep (bs, vs) (HAssign b c) (replaced bs b (mkSB (Some s) r), vs)
| S_assign_self : forall bs vs b x, nth_error bs b = Some x -> sstep (bs, vs) (HAssign b b) (bs, vs)
| S_move_new : forall bs vs c n r, nth_error bs c = Some (mkSB n r) ->
    sstep (bs, vs) (HMoveNew c) (replaced bs c (mkSB None r) ++ [mkSB n None], vs)
| S_move : forall bs vs b c n r n' r', b <> c -> nth_error bs b = Some (mkSB n r) ->
    nth_error bs c = Some (mkSB n' r') ->
    sstep (bs, vs) (HMove b c) (replaced (replaced bs b (mkSB n' r)) c (mkSB None r'), vs)
| S_move_self : forall bs vs b x, nth_error bs b = Some x -> sstep (bs, vs) (HMove b b) (bs, vs)
| S_member : forall bs vs i k v, nth_error vs i = Some v -> base_ok v ->
    sstep (bs, vs) (HMember i k)
      (bs, vs ++ [match binding k (obj_members v) with Some x => x | None => VUndef end])
| S_item : forall bs vs i n v, nth_error vs i = Some v ->
    sstep (bs, vs) (HItem i n)
      (bs, vs ++ [match nth_error (members_of v) n with Some m => snd m | None => VUndef end])
| S_apply_diff : forall bs vs i j b d v, nth_error vs i = Some b -> nth_error vs j = Some d ->
    base_ok b -> base_ok d -> applied b d v ->
    sstep (bs, vs) (HApplyDiff i j) (bs, vs ++ [v]).

Inductive sruns : sstate -> list hop -> sstate -> Prop :=
| sruns_nil : forall s, sruns s [] s
| sruns_cons : forall s op s' ops s'', sstep s op s' -> sruns s' ops s'' -> sruns s (op :: ops) s''.

(** When an operation has a meaning, in words of the state alone. *)
Definition has_val (vs : list value) (i : nat) : Prop := exists v, nth_error vs i = Some v.
Definition has_base (vs : list value) (i : nat) : Prop := exists v, nth_error vs i = Some v /\ base_ok v.
Definition has_builder (bs : list sbuilder) (b : nat) : Prop := exists x, nth_error bs b = Some x.
Definition in_use (bs : list sbuilder) (b : nat) : Prop := exists s r, nth_error bs b = Some (mkSB (Some s) r).
Definition defined_op (st : sstate) (op : hop) : Prop :=
  let '(bs, vs) := st in
  match op with
  | HLit _ => True
  | HArr is => Forall (has_val vs) is
  | HNew i => has_base vs i
  | HList l => Forall (fun ki => has_val vs (snd ki)) l
  | HSet b _ i => in_use bs b /\ has_val vs i
  | HUnset b _ | HOptimize b | HRead b _ | HCommit b | HCommitDiff b | HCopy b => in_use bs b
  | HMerge b i => in_use bs b /\ has_val vs i
  | HIterate b => in_use bs b \/ exists n s, nth_error bs b = Some (mkSB n (Some s))
  | HClear b | HRevert b => has_builder bs b
  | HSetBase b i => has_builder bs b /\ has_base vs i
  | HAssign b c => has_builder bs b /\ (b = c \/ in_use bs c)
  | HMoveNew c => has_builder bs c
  | HMove b c => has_builder bs b /\ has_builder bs c
  | HMember i _ => has_base vs i
  | HItem i _ => has_val vs i
  | HApplyDiff i j => has_base vs i /\ has_base vs j
  end.

(** The builders whose contents an operation may change. *)
Definition changed_by (op : hop) : list nat :=
  match op with
  | HSet b _ _ | HUnset b _ | HMerge b _ | HClear b | HRevert b | HSetBase b _ | HAssign b _ => [b]
  | HMoveNew c => [c]
  | HMove b c => [b; c]
  | _ => []
  end.
