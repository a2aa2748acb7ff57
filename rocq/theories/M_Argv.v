(** src/buildargv.c *)
From Verif Require Import Base.
Open Scope nat_scope.

(** src/buildargv.c:128-131, 203-206 (ISBLANK: src/buildargv.c:38). *)
Fixpoint skip_blanks (s : str) : str :=
  match s with
  | c :: s' => if isblank c then skip_blanks s' else s
  | [] => []
  end.

(** src/buildargv.c:158-201: one argument, with the three flags; what is put into copybuf and the
    rest of the input. *)
Fixpoint scan_arg (sq dq bs : bool) (s : str) : str * str :=
  match s with
  | [] => ([], [])
  | c :: s' =>
      if isblank c && negb sq && negb dq && negb bs then ([], s)
      else if bs then let '(a, r) := scan_arg sq dq false s' in (c :: a, r)
      else if c =?c c_bslash then scan_arg sq dq true s'
      else if sq then
        if c =?c c_sq then scan_arg false dq bs s' else let '(a, r) := scan_arg sq dq bs s' in (c :: a, r)
      else if dq then
        if c =?c c_dq then scan_arg sq false bs s' else let '(a, r) := scan_arg sq dq bs s' in (c :: a, r)
      else if c =?c c_sq then scan_arg true dq bs s'
      else if c =?c c_dq then scan_arg sq true bs s'
      else let '(a, r) := scan_arg sq dq bs s' in (c :: a, r)
  end.

(** src/buildargv.c:110-224 buildargv for a non-null pointer, with all allocations succeeding.  A
    flag that is set when an argument ends is set at the end of the input, so none is carried
    over.  [None]: out of fuel. *)
Fixpoint argv_loop (fuel : nat) (s : str) : option (list str) :=
  match fuel with
  | O => None
  | S f =>
      let '(a, r) := scan_arg false false false (skip_blanks s) in
      match skip_blanks r with
      | [] => Some [a]
      | r' => match argv_loop f r' with Some l => Some (a :: l) | None => None end
      end
  end.
Definition buildargv (s : str) : option (list str) := argv_loop (S (length s)) s.
