(** The data kept with a connection: /repo/src/imtjson/rpc.h. *)
From Verif Require Import Base ModelKeyed ModelValue ModelObject.

(** rpc.h 158, [RpcConnContext::store], and 165, [retrieve].  Each may be overridden by the
    user; this is what they do otherwise. *)
Inductive conn_op := DStore (k : bytes) (v : value) | DRetrieve (k : bytes).

(** 179: the member [data], made by the default constructor (object.cpp 54-56). *)
Definition conn_new : obj := obj_new empty_object.

(** 158: [Object::operator()] is [set] (object.cpp 166-168); 165: [Object::operator[]].  [None] is
    undefined behaviour. *)
Definition conn_step (d : obj) (op : conn_op) : option (obj * list value) :=
  match op with
  | DStore k v => Some (obj_set d (k, v), [])
  | DRetrieve k => option_map (fun r => (fst r, [snd r])) (obj_read d k)
  end.
(** Calls made one after the other and what the retrievals gave. Model only. *)
Fixpoint conn_run (d : obj) (ops : list conn_op) : option (obj * list value) :=
  match ops with
  | [] => Some (d, [])
  | op :: ops' =>
    match conn_step d op with
    | None => None
    | Some (d1, r) => match conn_run d1 ops' with None => None | Some (d2, r') => Some (d2, r ++ r') end
    end
  end.
