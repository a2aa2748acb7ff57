(** The default goal: src/read.c eval, src/main.c main. *)
From Verif Require Import Base M_Text M_Var M_Seq.
Open Scope string_scope.
Open Scope list_scope.
Open Scope nat_scope.

Definition n_goal : str := s2l ".DEFAULT_GOAL".

(** src/read.c:1379-1405: is NAME a suffix or two suffixes?  [ds], [ds2]: the two loops over [all]. *)
Fixpoint two_suffixes (name d : str) (ds2 : list str) : bool :=
  match ds2 with
  | [] => false
  | d2 :: ds2' => if prefixb d2 name && str_eqb (skipn (length d2) name) d then true else two_suffixes name d ds2'
  end.
Fixpoint rejected (all : list str) (name : str) (ds : list str) : bool :=
  match ds with
  | [] => false
  | d :: ds' =>
      if negb (match d with c :: _ => c =?c c_dot | [] => false end) && str_eqb name d then true
      else if two_suffixes name d all then true
      else rejected all name ds'
  end.
Definition has (c : ascii) (s : str) : bool := existsb (fun x => x =?c c) s.
(** src/read.c:1360-1416: the loop over the targets of a rule. *)
Fixpoint choose (suffixes : list str) (ts : list str) : option str :=
  match ts with
  | [] => None
  | name :: ts' =>
      if has c_percent name then None
      else if match name with c :: _ => c =?c c_dot | [] => false end && negb (has c_slash name) then choose suffixes ts'
      else if rejected suffixes name suffixes then choose suffixes ts'
      else Some name
  end.

(** What happens while makefiles are read.  [Rule_line]: the line of a rule has been read; [sets]: SET_DEFAULT.
    [Suffixes]: a rule for .SUFFIXES has been recorded, this is now its list of prerequisites.  Assignments of all
    kinds end in [Define] once their value is known (C14). *)
Inductive event :=
| Rule_line (sets : bool) (targets : list str)
| Suffixes (l : list str)
| Define (name value : str) (o : origin) (recursive : bool)
| Undefine (name : str) (o : origin).
(** [g_alive]: DEFAULT_GOAL_VAR points to the variable in the table; otherwise to memory that has been freed. *)
Record state := mkstate { g_set : vset; g_alive : bool; g_suffixes : list str }.

Section Goal.
  Variable env_overrides : bool.
  Definition define (n value : str) (o : origin) (recursive : bool) (s : state) : state :=
    mkstate (fst (define_in_set env_overrides n [] value o recursive (g_set s))) (g_alive s) (g_suffixes s).
  (** src/main.c:1806. *)
  Definition start (vars : vset) (suffixes : list str) : state := define n_goal [] o_file false (mkstate vars true suffixes).
  Definition value (s : state) : option var := if g_alive s then set_find n_goal (g_set s) else None.

  (** [None]: freed memory is read.  src/read.c:1358-1418; src/variable.c:363-401. *)
  Definition step (ev : event) (s : state) : option state :=
    match ev with
    | Rule_line false _ => Some s
    | Rule_line true ts =>
        match value s with
        | None => None
        | Some v => match v_value v with
                    | [] => match choose (g_suffixes s) ts with Some n => Some (define n_goal n o_file false s) | None => Some s end
                    | _ => Some s
                    end
        end
    | Suffixes l => Some (mkstate (g_set s) (g_alive s) l)
    | Define n v o r => Some (define n v o r s)
    | Undefine n o =>
        let set' := undefine_in_set env_overrides n o (g_set s) in
        let gone := str_eqb n n_goal && match set_find n_goal (g_set s), set_find n_goal set' with Some _, None => true | _, _ => false end in
        Some (mkstate set' (g_alive s && negb gone) (g_suffixes s))
    end.
  Fixpoint run (evs : list event) (s : state) : option state :=
    match evs with [] => Some s | ev :: evs' => match step ev s with Some s' => run evs' s' | None => None end end.

  (** src/main.c:2359-2410: no goal on the command line.  [known]: the names of the files make knows.  [Freed]: freed
      memory is read; [Stopped]: parse_file_seq stops make (C58). *)
  Inductive goal := Goal (n : str) | No_targets | Too_many | Freed | Stopped.
  Variable expand : str -> str.
  Variable tilde : str -> option str.
  Variable glob : str -> gres.
  Variable members : str -> str -> list str.
  Variable known : str -> bool.
  Definition default_goal (s : state) : goal :=
    match value s with
    | None => Freed
    | Some v =>
        match (if v_recursive v then expand (v_value v) else v_value v) with
        | [] => No_targets
        | p =>
            let n := or_dot (strip_dots (length p) p) in       (* lookup_file *)
            if known n then Goal n
            else match parse_file_seq no_stop false false false false false false None tilde glob members p with
                 | Names [] _ => No_targets
                 | Names [n] _ => Goal n
                 | Names _ _ => Too_many
                 | _ => Stopped
                 end
        end
    end.
End Goal.
