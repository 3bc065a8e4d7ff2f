(** Lexical structure of a text with comments. *)
From Verif Require Import Base.
Local Open Scope Z_scope.

(** Pieces of a string literal between its quotes. *)
Inductive spiece := SChar (c : Z) | SEscape (c : Z).
Definition spiece_text (p : spiece) : bytes := match p with SChar c => [c] | SEscape c => [92; c] end.
Definition spiece_ok (p : spiece) : Prop := match p with SChar c => c <> 34 /\ c <> 92 | SEscape _ => True end.
Definition body_text (b : list spiece) : bytes := concat (map spiece_text b).

(** Pieces of the text.  A slash that starts no comment takes the following
    character with it, whatever it is. *)
Inductive token :=
| TChar (c : Z)
| TString (b : list spiece)
| TLine (s : bytes) (nl : Z)
| TBlock (s : bytes)
| TSlash (c : Z).
(** "*/" does not occur. *)
Fixpoint no_close (s : bytes) : Prop :=
  match s with
  | 42 :: ((47 :: _) as t) => False
  | _ :: t => no_close t
  | [] => True
  end.
Definition token_ok (t : token) : Prop :=
  match t with
  | TChar c => c <> 34 /\ c <> 47
  | TString b => Forall spiece_ok b
  | TLine s nl => Forall (fun c => c <> 13 /\ c <> 10) s /\ (nl = 13 \/ nl = 10)
  | TBlock s => no_close (s ++ [42])
  | TSlash c => c <> 47 /\ c <> 42
  end.
Definition token_text (t : token) : bytes :=
  match t with
  | TChar c => [c]
  | TString b => 34 :: body_text b ++ [34]
  | TLine s nl => 47 :: 47 :: s ++ [nl]
  | TBlock s => 47 :: 42 :: s ++ [42; 47]
  | TSlash c => [47; c]
  end.
(** What is left of a piece: comments vanish, everything else stays. *)
Definition token_kept (t : token) : bytes :=
  match t with
  | TLine _ _ | TBlock _ => []
  | t => token_text t
  end.

(** The text may end inside a string, inside a comment or with a slash. *)
Inductive tail :=
| EndHere
| EndString (b : list spiece) (esc : bool)
| EndLine (s : bytes)
| EndBlock (s : bytes)
| EndSlash.
Definition tail_ok (t : tail) : Prop :=
  match t with
  | EndHere | EndSlash => True
  | EndString b _ => Forall spiece_ok b
  | EndLine s => Forall (fun c => c <> 13 /\ c <> 10) s
  | EndBlock s => no_close s
  end.
Definition tail_text (t : tail) : bytes :=
  match t with
  | EndHere => []
  | EndString b esc => 34 :: body_text b ++ (if esc then [92] else [])
  | EndLine s => 47 :: 47 :: s
  | EndBlock s => 47 :: 42 :: s
  | EndSlash => [47]
  end.
Definition tail_kept (t : tail) : bytes :=
  match t with
  | EndLine _ | EndBlock _ => []
  | t => tail_text t
  end.
Definition whole_text (ts : list token) (e : tail) : bytes := concat (map token_text ts) ++ tail_text e.
Definition whole_kept (ts : list token) (e : tail) : bytes := concat (map token_kept ts) ++ tail_kept e.
