(** Removal of comments: /repo/src/imtjson/comments.h. *)
From Verif Require Import Base.
Local Open Scope Z_scope.

(** The input still to come, [nextChar] and [inStr] (95-97). *)
Record cstate := mkCS { cs_in : bytes; cs_next : Z; cs_str : bool }.
(** 13. *)
Definition cs_init (s : bytes) : cstate := mkCS s (-1) false.
(** [fn()]: -1 after the end of the input, again and again. *)
Definition pull (s : bytes) : Z * bytes :=
  match s with
  | [] => (-1, [])
  | c :: s' => (c, s')
  end.

(** 54-56: the loop entered with [d = '/']; 13 and 10 are CR and LF. *)
Fixpoint skip_line (s : bytes) : bytes :=
  match s with
  | [] => []
  | d :: s' => if (d =? 13) || (d =? 10) then s' else skip_line s'
  end.
(** 65-72. *)
Fixpoint skip_block (prev : Z) (s : bytes) : bytes :=
  match s with
  | [] => []
  | d :: s' => if (d =? 47) && (prev =? 42) then s' else skip_block d s'
  end.

(** 15-89, [operator()]; the argument bounds the recursion of lines 58 and 74. *)
Fixpoint cm_call (fuel : nat) (st : cstate) : res (Z * cstate) :=
  match fuel with
  | O => Fuel
  | S f =>
    if negb (cs_next st =? -1) then Ok (cs_next st, mkCS (cs_in st) (-1) (cs_str st))
    else
      let '(c, s1) := pull (cs_in st) in
      if cs_str st then
        if c =? 92 then let '(d, s2) := pull s1 in Ok (c, mkCS s2 d true)
        else if c =? 34 then Ok (c, mkCS s1 (-1) false)
        else Ok (c, mkCS s1 (-1) true)
      else if c =? 34 then Ok (c, mkCS s1 (-1) true)
      else if c =? 47 then
        let '(d, s2) := pull s1 in
        if d =? 47 then cm_call f (mkCS (skip_line s2) (-1) false)
        else if d =? 42 then cm_call f (mkCS (skip_block 0 s2) (-1) false)
        else Ok (c, mkCS s2 d false)
      else Ok (c, mkCS s1 (-1) false)
  end.

(** What a reader that stops at -1 receives. *)
Fixpoint cm_drain (fuel : nat) (st : cstate) : res bytes :=
  match fuel with
  | O => Fuel
  | S f =>
    do (c, st') <- cm_call (S (length (cs_in st))) st;
    if c =? -1 then Ok []
    else do s <- cm_drain f st'; Ok (c :: s)
  end.
(** 117-120, [removeComments] read to its end; enough steps for every text
    (theorem in PropComments). *)
Definition remove_comments (s : bytes) : res bytes := cm_drain (2 * length s + 2) (cs_init s).
