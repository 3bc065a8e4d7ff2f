(** The command line validator: /repo/src/validator/main.cpp.  Messages on the standard error
    are left out. *)
From Coq Require Import String.
From Verif Require Import Base ModelValue ModelText ModelKeyed ModelObject ModelEq ModelJwt ModelString ModelStreams ModelPath ModelRpc ModelValidator.
Local Open Scope Z_scope.
Local Open Scope list_scope.

(** How a run ends: a status and what was written, or not regularly.  Model only. *)
Inductive exit := Exit (status : Z) (out : bytes) | ExitBad | ExitNever.

(** 9-13: a component of a path; [None] when the number is no unsigned integer, which
    paths do not have. *)
Definition print_component (x : value) : option bytes :=
  match x with
  | VNum n => option_map (fun z => 91 :: write_unsigned z ++ [93]) (num_uint n)
  | _ => Some (get_string x)
  end.
Fixpoint print_path (l : list member) : option bytes :=
  match l with
  | [] => Some []
  | x :: l' =>
    match print_component (snd x), print_path l' with
    | Some a, Some b => Some (47 :: a ++ b)
    | _, _ => None
    end
  end.
(** 8-17, [printRej] of [x[0]] and [x[1]] (27); [toString] is that of the default format,
    escaped (value.cpp 318). *)
Definition item_of (v : value) (i : nat) : value := nth i (map snd (members_of v)) VUndef.
Definition print_rej (E : serenv) (x : value) : option bytes :=
  match print_path (members_of (item_of x 0)), to_string E false (item_of x 1) with
  | Some a, Some b => Some (a ++ [58; 9] ++ b ++ [10])
  | _, _ => None
  end.
(** 26-28 *)
Fixpoint print_rejs (E : serenv) (l : list member) : option bytes :=
  match l with
  | [] => Some []
  | x :: l' => match print_rej E (snd x), print_rejs E l' with Some a, Some b => Some (a ++ b) | _, _ => None end
  end.

(** Model only: the validator of a definition, with the state the library starts with and no
    native rules (validator.h 92); what is not known of it (libm, [split], shared objects) is
    that of [V]. *)
Definition tool_env (V : venv) (def : value) : venv :=
  mkVenv (v_L V) (mkPF false false) (v_E V) false def (fun _ _ => false) (v_explode V) (v_wild V) (v_copy V).
(** 19-31, [runValidator], and the handler 72-75; the default class and path are validator.h 106. *)
Definition run_validator (V : venv) (fuel : nat) (indef inp : bytes) : exit :=
  match from_stream (v_L V) (mkPF false false) indef with
  | Ok def =>
    match from_stream (v_L V) (mkPF false false) inp with
    | Ok input =>
      match validate (tool_env V def) fuel ([], input) (txt "_root") [] v_init with
      | VDone true _ => Exit 0 []
      | VDone false t => match print_rejs (v_E V) (members_of (get_rejections t)) with Some o => Exit 1 o | None => ExitBad end
      | VThrow _ => Exit 255 []
      | VBad => ExitBad
      | VFuel => ExitNever
      end
    | Err => Exit 255 []
    | Fuel => ExitNever
    end
  | Err => Exit 255 []
  | Fuel => ExitNever
  end.
(** 37-49; [endl] is a line feed. *)
Definition usage (name : bytes) : bytes :=
  txt "Usage:" ++ [10; 10] ++ name ++ txt " <def.json>" ++ [10] ++ name ++ txt " <def.json> <input.json>" ++ [10; 10] ++
  txt "def.json          definition file" ++ [10] ++ txt "input.json        input file to validate" ++ [10; 10] ++
  txt "If no input.json is specified, standard input is read" ++ [10; 10] ++
  txt "Result:" ++ [10] ++ txt "status 0 - validation success" ++ [10] ++ txt "status 1 - validation failed" ++ [10].
(** 33-77.  [files] gives the content of the files that can be opened, [cin] is the standard
    input, [args] is [args[1]] on; without them the end of [main] returns 0. *)
Definition validator_main (V : venv) (fuel : nat) (files : bytes -> option bytes) (cin name : bytes) (args : list bytes) : exit :=
  match args with
  | [] => Exit 0 (usage name)
  | d :: rest =>
    match files d with
    | None => Exit 2 []
    | Some indef =>
      match rest with
      | [] => run_validator V fuel indef cin
      | i :: _ => match files i with None => Exit 3 [] | Some inp => run_validator V fuel indef inp end
      end
    end
  end.
