(** Strings as sequences of characters behind a pointer: /repo/src/imtjson/string.cpp 55-67,
    84-94, 112-124, 164-178, 223-226, basicValues.cpp 30-33.  Built on the blocks of
    [ModelMem]. *)
From Verif Require Import Base ModelValue ModelEnc ModelMem.
Local Open Scope list_scope.
Local Open Scope Z_scope.

(** The classes of strings: the shared empty one (basicValues.cpp 30-33), [StringValue], and
    [SubStrString] (164-178).  Keys are removed by the constructor (29-30). *)
Inductive shandle := HEmpty | HOwn (s : strobj) | HSub (h : shandle) (pos len : Z).

Section Views.
(** [nul]: where the default [StringView] points to (its class is absent); [None] is nowhere. *)
Variables (L : layout) (nul : option (block * Z)).
(** [getString()]: pointer and length; [StringView::substr] keeps to the view (contract in
    DESIGN.md) (value.h 319, stringValue.cpp 33). *)
Fixpoint h_view (h : shandle) : option (block * Z) * Z :=
  match h with
  | HEmpty => (nul, 0)
  | HOwn s => (Some (so_blk s, l_hdr L), so_sz s)
  | HSub h pos len =>
    let '(p, n) := h_view h in
    let pos := Z.min pos n in
    (option_map (fun '(b, i) => (b, i + pos)) p, Z.min len (n - pos))
  end.
(** The characters of the view: [str()], 112-118. *)
Definition h_str (h : shandle) : mres bytes :=
  match h_view h with
  | (Some (b, i), n) => load_all b i (Z.to_nat n)
  | (None, n) => if n =? 0 then MOk [] else MBad
  end.
(** What is read through [c_str()], 120-122, up to the first zero. *)
Definition h_cstr (h : shandle) : mres bytes :=
  match fst (h_view h) with
  | Some (b, i) => c_string (S (Z.to_nat (b_size b))) b i
  | None => MBad
  end.
(** 55-57, [length]. *)
Definition h_length (h : shandle) : Z := snd (h_view h).
(** 63-67, [operator[]]. *)
Definition h_at (h : shandle) (pos : Z) : mres Z :=
  let '(p, n) := h_view h in
  if n <=? pos then MOk 0
  else match p with Some (b, i) => load b (i + pos) | None => MBad end.
(** 84-94, [operator+], stringValue.cpp 96-99; [+=] (223-226) stores the result. *)
Definition h_plus (limit : Z) (a b : shandle) : mres shandle :=
  mem x <- h_str a;
  mem y <- h_str b;
  match x ++ y with
  | [] => MOk HEmpty
  | t => mem s <- string_of_view limit L None t; MOk (HOwn s)
  end.
End Views.
