(** What the command line validator reads and how it shows a place in a document. *)
From Verif Require Import Base ModelPath SpecText.
Local Open Scope Z_scope.
Local Open Scope list_scope.

(** The texts of the definition and of the input: the files of the first two arguments, or of
    the first one and the standard input. *)
Definition given (files : bytes -> option bytes) (cin : bytes) (args : list bytes) (indef inp : bytes) : Prop :=
  match args with
  | [] => False
  | [d] => files d = Some indef /\ inp = cin
  | d :: i :: _ => files d = Some indef /\ files i = Some inp
  end.

(** Decimal digits without leading zeros. *)
Definition decimal (n : Z) (ds : bytes) : Prop :=
  ds <> [] /\ Forall digit_char ds /\ dec_value ds = n /\ (ds = [48] \/ exists c t, ds = c :: t /\ c <> 48).
(** A path, read from the root, as text: a slash before every step, positions in brackets. *)
Inductive shown : list pelem -> bytes -> Prop :=
| sh_root : shown [] []
| sh_name : forall k q t, shown q t -> shown (mkElem k (2 ^ 64 - 1) :: q) (47 :: k ++ t)
| sh_position : forall i ds q t, 0 <= i < 2 ^ 64 - 1 -> decimal i ds -> shown q t -> shown (mkElem [] i :: q) (47 :: 91 :: ds ++ 93 :: t).

(** Paths whose names have no slash and no tab and do not start with a bracket. *)
Definition clear_name (k : bytes) : Prop := ~ In 47 k /\ ~ In 9 k /\ hd 0 k <> 91.
Definition clear_path (q : list pelem) : Prop := Forall (fun x => clear_name (pe_key x)) q.
