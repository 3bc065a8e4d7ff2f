(** A precise number read by several threads.  /repo/src/imtjson/stringValue.h 92-93,
    stringValue.cpp 178-217, 250-262. *)
From Verif Require Import Base ModelValue.
Local Open Scope Z_scope.

(** What a thread does with the number: [getNumber] (stringValue.cpp 185-188; the other
    functions which return a number differ in the conversion only), and [getBool] (214-217). *)
Inductive call := CNum | CBool.
(** Results. Model only. *)
Inductive answer := ANum (f : spec_float) | ABool (b : bool).

(** Where a thread is in a call: before it; to write [n] (179, the text is parsed); to write
    [cached] (180); to read [n] (187). *)
Inductive place := AtStart | AtWrite | AtMark | AtRead.
Record thread := mkTh { t_calls : list call; t_at : place; t_done : list answer }.

(** The mutable fields, and the threads. stringValue.h 92-93. *)
Record state := mkSt { s_n : spec_float; s_cached : bool; s_threads : list thread }.

(** The fields as objects of the memory. stringValue.h 92-93. *)
Inductive field := FN | FCached.
(** The next access of a thread: the field and whether it is written.
    stringValue.cpp 178-188, 214-217. *)
Definition next_access (t : thread) : option (field * bool) :=
  match t_at t, t_calls t with
  | _, [] => None
  | AtStart, CNum :: _ => Some (FCached, false)
  | AtStart, CBool :: _ => Some (FN, false)
  | AtWrite, _ => Some (FN, true)
  | AtMark, _ => Some (FCached, true)
  | AtRead, _ => Some (FN, false)
  end.

(** One access of one thread; [v] is what [strtod] finds in the text.  Accesses happen one after
    another (sequential consistency), which is more than C++ promises.
    stringValue.cpp 178-188, 214-217. *)
Definition th_step (v : spec_float) (n : spec_float) (cached : bool) (t : thread) : option (spec_float * bool * thread) :=
  match t_calls t with
  | [] => None
  | CNum :: r =>
    match t_at t with
    | AtStart => Some (n, cached, mkTh (CNum :: r) (if cached then AtRead else AtWrite) (t_done t))
    | AtWrite => Some (v, cached, mkTh (CNum :: r) AtMark (t_done t))
    | AtMark => Some (n, true, mkTh (CNum :: r) AtRead (t_done t))
    | AtRead => Some (n, cached, mkTh r AtStart (t_done t ++ [ANum n]))
    end
  | CBool :: r => Some (n, cached, mkTh r AtStart (t_done t ++ [ABool (negb (SFeqb n (S754_zero false)))]))
  end.
Fixpoint put {A} (l : list A) (i : nat) (x : A) : list A :=
  match l, i with
  | [], _ => []
  | _ :: l', O => x :: l'
  | y :: l', S j => y :: put l' j x
  end.
(** A step of the thread [i]; nothing if it has finished. Model only. *)
Definition step (v : spec_float) (s : state) (i : nat) : state :=
  match nth_error (s_threads s) i with
  | Some t =>
    match th_step v (s_n s) (s_cached s) t with
    | Some (n, c, t') => mkSt n c (put (s_threads s) i t')
    | None => s
    end
  | None => s
  end.
Definition run (v : spec_float) (s : state) (sched : list nat) : state := fold_left (step v) sched s.

(** stringValue.cpp 250-254: made from a text, with what the memory had; 256-262: made with the number. *)
Definition unread (junk : spec_float) (calls : list (list call)) : state :=
  mkSt junk false (map (fun c => mkTh c AtStart []) calls).
Definition read_before (v : spec_float) (calls : list (list call)) : state :=
  mkSt v true (map (fun c => mkTh c AtStart []) calls).
