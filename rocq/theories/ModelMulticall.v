(** Many calls in one request, and the list of methods: /repo/src/imtjson/rpc.cpp
    335-469.  Line numbers are of that file. *)
From Coq Require Import String.
From Verif Require Import Base ModelKeyed ModelValue ModelObject ModelArray ModelMerge ModelJwt ModelRpc.
Local Open Scope list_scope.

(** What the callbacks of a sub-request are given (393-411). *)
Inductive outcome := OResult (res ctx : value) | OError (err : value).

(** 366-383, [MulticallContext]; the request and the server are arguments below. *)
Record mctx := mkMC { mc_results : list member; mc_errors : list member; mc_context : value; mc_change : value; mc_fork : Z }.
Definition mc_new (context : value) : mctx := mkMC [] [] context VUndef 0.
Definition set_fork (m : mctx) (n : Z) : mctx := mkMC (mc_results m) (mc_errors m) (mc_context m) (mc_change m) n.

(** 393-411: the callbacks, without the test of [mtfork]. *)
Definition mc_apply (m : mctx) (o : outcome) : mctx :=
  match o with
  | OResult res ctx =>
    let changed v := if is_undef ctx then v else update_context v ctx in
    mkMC (mc_results m ++ [([], res)]) (mc_errors m) (changed (mc_context m)) (changed (mc_change m)) (mc_fork m + 1)
  | OError err =>
    mkMC (mc_results m ++ [([], VNull)]) (mc_errors m ++ [([], err)]) (mc_context m) (mc_change m) (mc_fork m + 1)
  end.
(** Answers one after the other until the counter is two; the answers left then. *)
Fixpoint mc_answers (l : list outcome) (m : mctx) : mctx * option (list outcome) :=
  match l with
  | [] => (m, None)
  | o :: l' =>
    let m' := mc_apply m o in
    if (mc_fork m' =? 2)%Z then (m', Some l') else mc_answers l' m'
  end.

(** 428: the result; [contextchange] is not used. *)
Definition k_results : bytes := txt "results".
Definition k_errors : bytes := txt "errors".
Definition mc_value (m : mctx) : value :=
  VObj false (build_object is_undef
    [(k_results, arr_commit (arr_add_set arr_new (mc_results m))); (k_errors, arr_commit (arr_add_set arr_new (mc_errors m)))]).

(** How it ends: the request is answered; a sub-request was not answered (yet);
    or a sub-request was answered again, and the code goes on with a context
    that is running twice or is deleted (not followed further). Model only. *)
Inductive mc_end := Answer (v : value) | Waiting | Broken.

Section Run.
(** The server: the answers to a sub-request given before [run] counts (432), and
    those given after it, by another thread or later.  [W] is the state of the
    methods. *)
Context {W : Type}.
Variable call : W -> preq -> W * (list outcome * list outcome).
Variables id version : value.

(** 385-434, [run]; the calls left are what [nextfn] gives, an undefined method
    ends them (389).  The first list are the sub-requests made. *)
Fixpoint mc_run (calls : list (value * value)) (w : W) (m : mctx) (made : list preq) : W * list preq * mc_end :=
  match calls with
  | [] => (w, made, Answer (mc_value m))
  | (name, args) :: rest =>
    if is_undef name then (w, made, Answer (mc_value m))
    else
      let r := rs_req (create ByCallbacks (mkReq name args id (mc_context m) version) 0) in
      let '(w1, (early, late)) := call w r in
      let made1 := made ++ [r] in
      match mc_answers early (set_fork m 0) with
      | (_, Some _) => (w1, made1, Broken)
      | (m1, None) =>
        let m2 := set_fork m1 (mc_fork m1 + 1) in
        if (mc_fork m2 =? 2)%Z then
          match late with [] => mc_run rest w1 m2 made1 | _ :: _ => (w1, made1, Broken) end
        else
          match mc_answers late m2 with
          | (m3, Some []) => mc_run rest w1 m3 made1
          | (_, Some (_ :: _)) => (w1, made1, Broken)
          | (_, None) => (w1, made1, Waiting)
          end
      end
  end.

(** 445-468: what to call, from the parameters; an error message otherwise. *)
Definition mc_calls (params : value) : list (value * value) + bytes :=
  if Nat.eqb (vsize params) 0 then inr (txt "Empty arguments")
  else
    let first := snd (vitem params 0) in
    match first with
    | VStr _ _ => inl (map (fun m => (first, snd m)) (tl (members_of params)))
    | VArr _ => inl (map (fun m => (snd (vitem (snd m) 0), snd (vitem (snd m) 1))) (members_of params))
    | _ => inr (txt "The first argument must be either string or array")
    end.
Definition multicall (params context : value) (w : W) : W * list preq * (mc_end + bytes) :=
  match mc_calls params with
  | inl calls => let '(w', made, e) := mc_run calls w (mc_new context) [] in (w', made, inl e)
  | inr message => (w, [], inr message)
  end.
End Run.

(** The answers of a server whose methods answer before they return (281-318),
    and of the request going away (864-869). *)
Definition event_outcome (e : entry) : list outcome :=
  match e with
  | Delivered (OnResult res ctx) => [OResult res ctx]
  | Delivered (OnError err) => [OError err]
  | _ => []
  end.
Definition server_call (sv : server) (w : unit) (r : preq) : unit * (list outcome * list outcome) :=
  let quiet := ([], Accepts true) in
  match exec sv quiet quiet quiet (create ByCallbacks r 0) with
  | Some s => (w, (flat_map event_outcome (rs_log (rdrop s [] (Accepts true))), []))
  | None => (w, ([], []))
  end.

(** 335-364, [add_listMethods]: the names in the order of the map, and what the
    proxy answered if it took the request. *)
Definition name_items (names : list bytes) : list member := map (fun n => ([], VStr None n)) names.
Definition list_methods (names : list bytes) (proxied : option value) : value :=
  let r := arr_commit (arr_add_set arr_new (name_items names)) in
  match proxied with
  | None => r
  | Some resp => arr_commit (arr_add_set (arr_of r) (members_of (value_member resp k_result)))
  end.
