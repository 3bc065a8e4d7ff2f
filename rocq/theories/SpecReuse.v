(** A validator that is used many times. *)
From Coq Require Import String.
From Verif Require Import Base ModelKeyed ModelValue ModelObject ModelEq ModelPath ModelRpc ModelNumView ModelValidator.
Local Open Scope Z_scope.
Local Open Scope list_scope.

(** The version of a definition is supported when none is given or its number is
    one. *)
Definition supported (V : venv) : Prop :=
  let ver := value_member (v_def V) (txt "_version") in
  ver = VUndef \/ SpecFloat.SFcompare (value_dbl (v_L V) (v_F V) ver) (SpecFloat.S754_finite false 4503599627370496 (-52)) = Some Eq.

(** What is done with a validator: a subject is validated against a class at a
    path, or the variables are replaced. *)
Inductive vuse := UCheck (m : member) (class : bytes) (p : path) | UVars (vars : value).

(** A history of uses, none of which threw: from one state to another. *)
Inductive used (V : venv) : vst -> list vuse -> vst -> Prop :=
| Used_none : forall s, used V s [] s
| Used_check : forall s fuel m class p b t us u, validate V fuel m class p s = VDone b t -> used V t us u ->
    used V s (UCheck m class p :: us) u
| Used_vars : forall s vars us u, used V (set_variables vars s) us u -> used V s (UVars vars :: us) u.

(** The variables in force after a history: those set last. *)
Fixpoint last_vars (us : list vuse) (before : value) : value :=
  match us with
  | [] => before
  | UVars v :: us' => last_vars us' v
  | UCheck _ _ _ :: us' => last_vars us' before
  end.
