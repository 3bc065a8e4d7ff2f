(** A serializer whose user passes on to the parser's side what [preloadKey]
    returns. *)
From Verif Require Import Base ModelValue ModelObject ModelBin SpecBin.
Local Open Scope Z_scope.

(** What the parser's side does: a key is preloaded there only if the serializer
    answered [true]. *)
Fixpoint told (L : libm) (F : bflags) (ops : list bin_op) (st : wstate) : list bin_op :=
  match ops with
  | [] => []
  | BSend m :: ops' => BSend m :: told L F ops' (snd (write_item L F (fst m) (snd m) st))
  | BPreload k :: ops' =>
    let '(stored, st1) := preload_writer st k in
    if stored then BPreload k :: told L F ops' st1 else told L F ops' st1
  | BClear :: ops' => BClear :: told L F ops' (clear_writer st)
  end.
