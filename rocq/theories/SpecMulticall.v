(** What C79 speaks about. *)
From Coq Require Import String.
From Verif Require Import Base ModelKeyed ModelValue ModelObject ModelArray ModelJwt ModelRpc SpecRpc SpecArray ModelMulticall.
Local Open Scope list_scope.

(** The server answers every sub-request once, at once or later. *)
Definition one_answer {W} (call : W -> preq -> W * (list outcome * list outcome)) : Prop :=
  forall w r, exists o, snd (call w r) = ([o], []) \/ snd (call w r) = ([], [o]).

(** The same, but some may not be answered. *)
Definition one_at_most {W} (call : W -> preq -> W * (list outcome * list outcome)) : Prop :=
  forall w r, (exists o, snd (call w r) = ([o], []) \/ snd (call w r) = ([], [o])) \/ snd (call w r) = ([], []).

(** The calls before the first one without a method. *)
Fixpoint with_method (l : list (value * value)) : list (value * value) :=
  match l with
  | [] => []
  | c :: l' => match fst c with VUndef => [] | _ => c :: with_method l' end
  end.

(** Parameters as a method sees them: an array. *)
Definition as_args (v : value) : value :=
  match v with VArr _ => v | VUndef => VArr [] | _ => VArr [([], v)] end.
(** The context after an answer. *)
Definition next_context (ctx : value) (o : outcome) : value :=
  match o with OResult _ VUndef | OError _ => ctx | OResult _ c => update_context ctx c end.

Section Serve.
Context {W : Type}.
Variable call : W -> preq -> W * (list outcome * list outcome).
Variables id version : value.
(** The calls one after the other, each with the context the previous ones left:
    the requests and their answers. *)
Inductive serve : list (value * value) -> W -> value -> W -> list preq -> list outcome -> Prop :=
| sv_end : forall w ctx, serve [] w ctx w [] []
| sv_call : forall name args l w ctx w1 a o w' made outs,
    call w (mkReq name (as_args args) id ctx version) = (w1, a) -> a = ([o], []) \/ a = ([], [o]) ->
    serve l w1 (next_context ctx o) w' made outs ->
    serve ((name, args) :: l) w ctx w' (mkReq name (as_args args) id ctx version :: made) (o :: outs).
End Serve.

(** The result of a call, null if it failed; the errors of the failed ones. *)
Definition result_item (o : outcome) : value := match o with OResult r _ => r | OError _ => VNull end.
Definition error_items (l : list outcome) : list value :=
  flat_map (fun o => match o with OError e => [e] | OResult _ _ => [] end) l.
Definition items (l : list value) : value := VArr (defined_only (map (fun v => ([], v)) l)).
(** The answer of the whole. *)
Definition multi_result (outs : list outcome) : value :=
  VObj false [(txt "errors", items (error_items outs)); (txt "results", items (map result_item outs))].

(** Methods that answer at most once, not from within the peer, and do not answer
    and throw; the error texts are made without a failure. *)
Definition plain_op (o : rop) : bool :=
  match o with
  | RNotify _ _ [] _ | RHeartbeat [] _ | RResult _ _ [] _ | RError _ [] _ | RErrorCode _ _ _ [] _ => true
  | _ => false
  end.
Definition answering (o : rop) : bool :=
  match o with RResult _ _ _ _ | RError _ _ _ | RErrorCode _ _ _ _ _ => true | _ => false end.
Definition answers (l : list rop) : nat := length (filter answering l).
Definition once (m : method) : Prop :=
  forall r, forallb plain_op (fst (m r)) = true /\
    match snd (m r) with Returns _ => answers (fst (m r)) <= 1 | Raises _ => answers (fst (m r)) = 0 end.
Definition plain_server (sv : server) : Prop :=
  Forall (fun m => once (snd m)) (sv_reg sv) /\ sv_proxy sv = None /\ sv_handler sv = None /\
  forall c t d, exists e, sv_format sv c t d = Some e.

(** What the parameters ask for: one method with each of the other parameters, or
    each pair of a method and its parameters. *)
Inductive asks (params : value) : list (value * value) -> Prop :=
| as_name : forall k e s l, members_of params = (k, VStr e s) :: l ->
    asks params (map (fun m => (VStr e s, snd m)) l)
| as_pairs : forall k a l, members_of params = (k, VArr a) :: l ->
    asks params (map (fun m => (snd (vitem (snd m) 0), snd (vitem (snd m) 1))) (members_of params)).
