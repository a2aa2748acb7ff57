(** The argument vector of a command line: src/job.c construct_command_argv_internal (2290-3107), as
    compiled on Unix. *)
From Verif Require Import Base.
Open Scope string_scope.
Open Scope list_scope.
Open Scope nat_scope.

(** src/job.c:238 default_shell; src/job.c:2388-2395 sh_chars and sh_cmds. *)
Definition default_shell : str := "/bin/sh".
Definition sh_chars : str := s2l "#;" ++ [c_dq] ++ s2l "*?[]&|<>(){}$`^~!".
Definition sh_cmds : list str :=
  map s2l [ "."; ":"; "alias"; "bg"; "break"; "case"; "cd"; "command"; "continue";
  "eval"; "exec"; "exit"; "export"; "fc"; "fg"; "for"; "getopts"; "hash";
  "if"; "jobs"; "login"; "logout"; "read"; "readonly"; "return"; "set";
  "shift"; "test"; "times"; "trap"; "type"; "ulimit"; "umask"; "unalias";
  "unset"; "wait"; "while" ].
(** strchr (S, C) != 0 for a C that is not null. *)
Definition mem (c : ascii) (s : str) : bool := existsb (fun d => c =?c d) s.
Definition builtin (w : str) : bool := existsb (str_eqb w) sh_cmds.

(** The end of the fast path: "goto slow", or the vector.  With each the value of *RESTP so far. *)
Inductive outcome := Slow (rest : option str) | Done (argv : list str) (rest : option str).

Section Fast.
  (** RESTP is not NULL; .ONESHELL. *)
  Variable restp one_shell : bool.

  (** src/job.c:2701-2731: end_of_line.  An empty vector is a return of 0. *)
  Definition finish (instring : option ascii) (args : list str) (cur : str) (last_empty : bool) (rest : option str) : outcome :=
    match instring with
    | Some _ => Slow rest
    | None =>
        let argv := if negb (match cur with [] => true | _ => false end) || last_empty then args ++ [cur] else args in
        match argv with
        | [w] => if builtin w then Slow rest else Done argv rest
        | _ => Done argv rest
        end
    end.
  (** src/job.c:2517-2700: the loop over the line.  [args]: the complete arguments; [cur]: the
      text since new_argv[i].  "ap == new_argv[0] || ap[-1] == 0" says that [cur] is empty, for no
      null character is ever copied.  [skip] stands for the inner loops over blanks. *)
  Fixpoint fast (p : str) (args : list str) (cur : str) (instring : option ascii) (has_equals seen_nonequals last_empty skip : bool) : outcome :=
    match p with
    | [] => finish instring args cur last_empty None
    | c :: q =>
        if skip && isblank c then fast q args cur instring has_equals seen_nonequals last_empty true
        else
          match instring with
          | Some k =>
              if c =?c k then fast q args cur None has_equals seen_nonequals (last_empty || match cur with [] => true | _ => false end) false
              else
                let other :=
                  if (c =?c c_nl) && restp then finish instring args cur last_empty (Some p)
                  else if (k =?c c_dq) && mem c (s2l "\$`") then Slow None
                  else fast q args (cur ++ [c]) instring has_equals seen_nonequals last_empty false in
                if c =?c c_bslash then
                  match q with
                  | d :: q' =>
                      if d =?c c_nl then
                        if k =?c c_dq then fast q' args cur instring has_equals seen_nonequals last_empty false
                        else fast q' args (cur ++ [c; d]) instring has_equals seen_nonequals last_empty false
                      else other
                  | [] => other
                  end
                else other
          | None =>
              if mem c sh_chars then Slow None
              else if one_shell && (c =?c c_nl) then Slow None
              else if c =?c c_eq then
                if negb seen_nonequals then Slow None
                else fast q args (cur ++ [c]) None true seen_nonequals last_empty false
              else if c =?c c_bslash then
                match q with
                | [] => fast q args cur None has_equals seen_nonequals last_empty false
                | d :: q' =>
                    if d =?c c_nl then fast q' args cur None has_equals seen_nonequals last_empty (match cur with [] => true | _ => false end)
                    else fast q' args (cur ++ [d]) None has_equals seen_nonequals last_empty false
                end
              else if (c =?c c_sq) || (c =?c c_dq) then fast q args cur (Some c) has_equals seen_nonequals last_empty false
              else if c =?c c_nl then
                if restp then finish None args cur last_empty (Some p)
                else fast q args (cur ++ [c]) None has_equals seen_nonequals last_empty false
              else if isblank c then
                let seen := seen_nonequals || negb has_equals in
                if has_equals && negb seen then Slow None
                else if match args with [] => builtin cur | _ => false end then Slow None
                else fast q (args ++ [cur]) [] None false seen false true
              else fast q args (cur ++ [c]) None has_equals seen_nonequals last_empty false
          end
    end.
End Fast.

(** src/job.c:3004-3043: the line with everything special escaped, up to a newline if RESTP. *)
Fixpoint escape_line (restp : bool) (p : str) : str * option str :=
  match p with
  | [] => ([], None)
  | c :: q =>
      if restp && (c =?c c_nl) then ([], Some p)
      else
        let other :=
          let '(t, r) := escape_line restp q in
          ((if (c =?c c_bslash) || (c =?c c_sq) || (c =?c c_dq) || isspace c || mem c sh_chars then [c_bslash] else []) ++ c :: t, r) in
        if c =?c c_bslash then
          match q with
          | d :: q' => if d =?c c_nl then let '(t, r) := escape_line restp q' in (c_bslash :: c_bslash :: c_nl :: t, r) else other
          | [] => other
          end
        else other
  end.
(** src/job.c:2953-2958. *)
Definition escape_shell (s : str) : str := flat_map (fun c => if mem c sh_chars then [c_bslash; c] else [c]) s.

(** src/job.c:294-338 is_bourne_compatible_shell: the part after the last slash or backslash. *)
Fixpoint after_last (p acc : str) : str :=
  match p with
  | [] => acc
  | c :: q => if (c =?c c_slash) || (c =?c c_bslash) then after_last q [] else after_last q (acc ++ [c])
  end.
Definition bourne (path : str) : bool := existsb (str_eqb (after_last path [])) (map s2l ["sh"; "bash"; "ksh"; "rksh"; "zsh"; "ash"; "dash"]).
(** src/job.c:2812-2847: the prefixes of the lines of a .ONESHELL recipe are removed.  [start]: at
    the beginning of a line. *)
Fixpoint strip_prefixes (f : str) (start esc : bool) : str :=
  match f with
  | [] => []
  | c :: q =>
      if start && (isblank c || (c =?c c_minus) || (c =?c c_at) || (c =?c c_plus)) then strip_prefixes q true false
      else c :: (if c =?c c_bslash then strip_prefixes q false (negb esc) else if (c =?c c_nl) && negb esc then strip_prefixes q true false else strip_prefixes q false false)
  end.
(** src/misc.c find_next_token over the flags. *)
Fixpoint tokens_of (s cur : str) : list str :=
  match s with
  | [] => match cur with [] => [] | _ => [cur] end
  | c :: q => if isspace c then match cur with [] => tokens_of q [] | _ => cur :: tokens_of q [] end else tokens_of q (cur ++ [c])
  end.

(** The result: 0; a vector for the command itself, or one that runs the shell ([Direct] and [Shell]
    are both returned as new_argv); [TooDeep]: the recursion is not over. *)
Inductive run := Nothing (rest : option str) | Direct (argv : list str) (rest : option str) | Shell (argv : list str) (rest : option str) | TooDeep.
Fixpoint skip_blanks (s : str) : str := match s with c :: q => if isblank c then skip_blanks q else s | [] => [] end.

Section Construct.
  Variable one_shell pedantic : bool.
  (** src/job.c:2479-2487: the flags with which the fast path may be taken. *)
  Definition usual_flags (f : str) : bool := str_eqb f (s2l "-c") || str_eqb f (s2l "-ec").
  (** src/job.c:2290-3107.  [shell], [flags] and [ifs] are [None] for a null pointer. *)
  Fixpoint construct (fuel : nat) (line : str) (restp : bool) (shell flags ifs : option str) : run :=
    match fuel with
    | 0 => TooDeep
    | S fuel' =>
        let line := skip_blanks line in
        match line with
        | [] => Nothing None
        | _ =>
            let flags := match flags with Some f => f | None => if pedantic then s2l "-ec" else s2l "-c" end in
            let sh := match shell with Some s => s | None => default_shell end in
            let may := match shell with Some s => str_eqb s default_shell | None => true end
                       && match ifs with Some i => forallb (fun c => (c =?c c_sp) || (c =?c c_tab) || (c =?c c_nl)) i | None => true end
                       && usual_flags flags in
            match (if may then fast restp one_shell line [] [] None false false false false else Slow None) with
            | Done [] r => Nothing r
            | Done argv r => Direct argv r
            | Slow r0 =>
                if one_shell then
                  Shell (sh :: tokens_of flags [] ++ [if bourne sh then strip_prefixes line true false else line]) r0
                else
                  let '(t, r) := escape_line restp line in
                  let r := match r with Some _ => r | None => r0 end in
                  let text := escape_shell sh ++ c_sp :: flags ++ c_sp :: t in
                  if length text =? length sh + length flags + 2 then Nothing r
                  else
                    match construct fuel' text false None None None with
                    | Nothing _ => Nothing r
                    | Direct argv _ => Shell argv r
                    | Shell argv _ => Shell argv r
                    | TooDeep => TooDeep
                    end
            end
        end
    end.
End Construct.

(** src/job.c:1079-1092 (start_job_command): the text at *RESTP is cut off the line and becomes the
    next command; the last argument of a .ONESHELL recipe is the line itself (2859), so that it is
    cut, too. *)
Definition handed (one_shell : bool) (line : str) (r : run) : run :=
  match r with
  | Shell argv (Some rest) =>
      if one_shell then Shell (removelast argv ++ [firstn (length (skip_blanks line) - length rest) (last argv [])]) (Some rest) else r
  | _ => r
  end.
