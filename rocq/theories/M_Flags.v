(** Command switches and MAKEFLAGS: src/main.c, with the part of src/getopt.c that it uses. *)
From Verif Require Import Base M_Text M_Var M_Expand M_Def.
Open Scope string_scope.
Open Scope list_scope.
Open Scope nat_scope.

(** src/main.c:83-93, type of a switch. *)
Inductive stype := flag | flag_off | string_ | strlist | filename | positive_int | floating | ignore.
(** What noarg_value and default_value point to; the only floating constant is -1.0. *)
Inductive const := no_const | c_str (s : string) | c_int (z : Z) | c_load.

(** src/main.c:79-105 struct command_switch.  [sw_ptr]: the name of the variable behind
    value_ptr. *)
Record switch := mksw { sw_c : nat; sw_type : stype; sw_ptr : string; sw_env : bool; sw_toenv : bool;
  sw_nomk : bool; sw_noarg : const; sw_default : const; sw_long : string }.
Definition CHAR_MAX : nat := 127.
(** src/main.c:109 short_option. *)
Definition short_option (c : nat) : bool := c <=? CHAR_MAX.
Definition ch (c : ascii) : nat := nat_of_ascii c.

(** src/main.c:392-459 switches.  [env], [toenv] and [no_makefile] as booleans; a null long name
    is "". *)
Definition switches : list switch :=
  let fl c p e t n long := mksw (ch c) flag p e t n no_const no_const long in
  let xfl k p e t long := mksw (CHAR_MAX + k) flag p e t false no_const no_const long in
  [ mksw (ch "b") ignore "" false false false no_const no_const "";
    fl "B"%char "always_make_set" true true false "always-make";
    fl "c"%char "search_parent_flag" true true false "search-parent";
    fl "d"%char "debug_flag" true true false "";
    fl "e"%char "env_overrides" true true false "environment-overrides";
    fl "h"%char "print_usage_flag" false false false "help";
    fl "i"%char "ignore_errors_flag" true true false "ignore-errors";
    mksw (ch "k") flag "keep_going_flag" true true false no_const (c_int 0) "keep-going";
    fl "L"%char "check_symlink_flag" true true false "check-symlink-times";
    mksw (ch "m") ignore "" false false false no_const no_const "";
    fl "n"%char "just_print_flag" true true true "just-print";
    fl "p"%char "print_data_base_flag" true true false "print-data-base";
    mksw (ch "P") string_ "profile_option" true true false (c_str "callgrind") no_const "profile";
    fl "q"%char "question_flag" true true true "question";
    fl "r"%char "no_builtin_rules_flag" true true false "no-builtin-rules";
    fl "R"%char "no_builtin_variables_flag" true true false "no-builtin-variables";
    mksw (ch "s") flag "silent_flag" true true false no_const (c_int 0) "silent";
    mksw (ch "S") flag_off "keep_going_flag" true true false no_const (c_int 0) "no-keep-going";
    fl "t"%char "touch_flag" true true true "touch";
    fl "v"%char "print_version_flag" true true false "version";
    fl "w"%char "print_directory" true true false "print-directory";
    fl "X"%char "debugger_flag" true true false "debugger";
    fl "!"%char "post_mortem_flag" true true false "post-mortem";
    mksw (ch "C") filename "directories" false false false no_const no_const "directory";
    mksw (ch "E") strlist "eval_strings" true false false no_const no_const "eval";
    mksw (ch "f") filename "makefiles" false false false no_const no_const "file";
    mksw (ch "I") filename "include_directories" true true false no_const no_const "include-dir";
    mksw (ch "j") positive_int "arg_job_slots" true true false (c_int 0) (c_int (-1)) "jobs";
    mksw (ch "l") floating "max_load_average" true true false c_load c_load "load-average";
    mksw (ch "o") filename "old_files" false false false no_const no_const "old-file";
    mksw (ch "O") string_ "output_sync_option" true true false (c_str "target") no_const "output-sync";
    mksw (ch "W") filename "new_files" false false false no_const no_const "what-if";
    mksw (ch "x") strlist "tracing_opts" true true false (c_str "normal") no_const "trace";
    mksw (CHAR_MAX + 1) strlist "db_flags" true true false (c_str "basic") no_const "debug";
    mksw (CHAR_MAX + 2) string_ "jobserver_auth" true true false no_const no_const "jobserver-auth";
    xfl 3 "show_tasks_flag" false false "tasks";
    xfl 4 "inhibit_print_directory" true true "no-print-directory";
    xfl 5 "warn_undefined_variables_flag" true true "warn-undefined-variables";
    mksw (CHAR_MAX + 7) string_ "sync_mutex" true true false no_const no_const "sync-mutex";
    mksw (CHAR_MAX + 8) flag_off "silent_flag" true true false no_const (c_int 0) "no-silent";
    mksw (CHAR_MAX + 9) string_ "jobserver_auth" true false false no_const no_const "jobserver-fds";
    mksw (CHAR_MAX + 10) strlist "verbosity_opts" true true false no_const no_const "verbosity";
    xfl 11 "no_extended_errors" true true "no-extended-errors";
    mksw (CHAR_MAX + 12) flag_off "use_readline_flag" true false false no_const no_const "no-readline";
    xfl 13 "show_targets_flag" false false "targets";
    mksw (CHAR_MAX + 14) strlist "debugger_opts" true true false (c_str "preaction") no_const "debugger-stop";
    mksw (CHAR_MAX + 15) filename "profile_dir_opt" true true false no_const no_const "profile-directory" ].

(** src/getopt.h no_argument, required_argument, optional_argument. *)
Inductive has_arg := no_argument | required_argument | optional_argument.
(** src/main.c:2488-2516, in init_switches. *)
Definition arg_of (cs : switch) : has_arg :=
  match sw_type cs with
  | flag | flag_off | ignore => no_argument
  | _ => match sw_noarg cs with no_const => required_argument | _ => optional_argument end
  end.
(** src/main.c:2483-2522 the vector long_options, with the aliases of 463-475. *)
Definition long_options : list (string * has_arg * nat) :=
  map (fun cs => (sw_long cs, arg_of cs, sw_c cs)) switches ++
  [("quiet", no_argument, ch "s"); ("stop", no_argument, ch "S"); ("new-file", required_argument, ch "W");
   ("assume-new", required_argument, ch "W"); ("assume-old", required_argument, ch "o");
   ("max-load", optional_argument, ch "l"); ("dry-run", no_argument, ch "n"); ("recon", no_argument, ch "n");
   ("makefile", required_argument, ch "f")].

Fixpoint starts_with (p s : str) : bool :=
  match p, s with
  | [], _ => true
  | x :: p', y :: s' => (x =?c y) && starts_with p' s'
  | _, [] => false
  end.

(** src/getopt.c:600-640: the long option called [n], or the only one whose name starts so. *)
Definition find_long (n : str) : option (has_arg * nat) :=
  match find (fun o => str_eqb (s2l (fst (fst o))) n) long_options with
  | Some o => Some (snd (fst o), snd o)
  | None =>
      match filter (fun o => starts_with n (s2l (fst (fst o)))) long_options with
      | [o] => Some (snd (fst o), snd o)
      | _ => None
      end
  end.
(** src/main.c:2684-2686: the switch with this code. *)
Definition find_switch (c : nat) : option switch := find (fun cs => sw_c cs =? c) switches.
(** src/getopt.c:738-760: a short option.  (A dash is found in the option string by all calls but
    the first, but belongs to no switch either.) *)
Definition find_short (c : ascii) : option switch := find_switch (ch c).

(** src/main.c:2911-2928 quote_for_env. *)
Fixpoint quote_for_env (s : str) : str :=
  match s with
  | [] => []
  | c :: s' =>
      (if c =?c c_dollar then [c_dollar; c]
       else if isblank c || (c =?c c_bslash) then [c_bslash; c]
       else [c]) ++ quote_for_env s'
  end.

(** src/main.c:2885-2901: chop into words and unquote.  [skip]: between words. *)
Fixpoint env_words (skip : bool) (cur : str) (v : str) : list str :=
  match v with
  | [] => [cur]
  | c :: v' =>
      if c =?c c_bslash then
        match v' with
        | [] => [cur ++ [c]]
        | d :: v'' => env_words false (cur ++ [d]) v''
        end
      else if isblank c then
        if skip then env_words true cur v' else cur :: env_words true [] v'
      else env_words false (cur ++ [c]) v'
  end.

(** src/main.c:630-669 expand_command_line_file; [tilde] is remake_tilde_expand.  [None]: the
    empty name, a fatal error. *)
Fixpoint skip_slashes (s : str) : str :=
  match s with c :: s' => if c =?c c_slash then skip_slashes s' else s | [] => [] end.
Fixpoint strip_dot_slash (n : nat) (s : str) : str :=
  match n, s with
  | S n', a :: b :: s' => if (a =?c c_dot) && (b =?c c_slash) then strip_dot_slash n' (skip_slashes s') else s
  | _, _ => s
  end.
Definition c_tilde : ascii := ascii_of_nat 126.
Definition expand_command_line_file (tilde : str -> option str) (name : str) : option str :=
  match name with
  | [] => None
  | c :: _ =>
      let name := if c =?c c_tilde then match tilde name with Some (x :: e) => x :: e | _ => name end else name in
      Some (match strip_dot_slash (length name) name with [] => s2l "./" | n => n end)
  end.

Definition is_nil {A} (l : list A) : bool := match l with [] => true | _ => false end.

(** atoi of digits. *)
Definition digits_value (s : str) : Z :=
  fold_left (fun a c => (10 * a + (Z.of_nat (nat_of_ascii c) - 48))%Z) s 0%Z.
Definition INT_MAX : Z := 2147483647.

Section Flags.
  (** double, "%g", atof, ==, and -1.0. *)
  Variable D : Type.
  Variable fmt_g : D -> str.
  Variable atof : str -> D.
  Variable deqb : D -> D -> bool.
  Variable minus_one : D.
  Variable tilde : str -> option str.

  (** The values of the option variables. *)
  Inductive oval := VInt (z : Z) | VDbl (d : D) | VStr (s : option str) | VList (l : list str).
  Definition ostate := string -> oval.
  Definition as_int (v : oval) : Z := match v with VInt z => z | _ => 0%Z end.
  Definition as_dbl (v : oval) : D := match v with VDbl d => d | _ => minus_one end.
  Definition as_str (v : oval) : option str := match v with VStr s => s | _ => None end.
  Definition as_list (v : oval) : list str := match v with VList l => l | _ => [] end.
  Definition set_opt (st : ostate) (p : string) (v : oval) : ostate :=
    fun q => if String.eqb q p then v else st q.

  (** The initial values, src/main.c:114-250, src/globals.c. *)
  Definition o_init : ostate := fun p =>
    match find (fun cs => String.eqb (sw_ptr cs) p) switches with
    | Some cs =>
        match sw_type cs with
        | string_ => VStr None
        | strlist | filename => VList []
        | positive_int => VInt (-1)
        | floating => VDbl minus_one
        | _ => if String.eqb p "use_readline_flag" then VInt 1 else VInt 0
        end
    | None => VInt 0
    end.

  (** ** From the options to MAKEFLAGS *)

  (** src/main.c:2981-3060: the entries one switch contributes. *)
  Definition flags_of (all : bool) (st : ostate) (cs : switch) : list (switch * option str) :=
    let v := st (sw_ptr cs) in
    match sw_type cs with
    | ignore => []
    | flag | flag_off =>
        let z := as_int v in
        let off := match sw_type cs with flag_off => true | _ => false end in
        if Bool.eqb (Z.eqb z 0) off && match sw_default cs with c_int d => negb (Z.eqb z d) | _ => true end
        then if sw_c cs =? ch "X" then [] else [(cs, None)]
        else []
    | positive_int =>
        let z := as_int v in
        if all then
          if match sw_default cs with c_int d => Z.eqb z d | _ => false end then []
          else if match sw_noarg cs with c_int d => Z.eqb z d | _ => false end then [(cs, Some [])]
          else [(cs, Some (show_nat (Z.to_nat z)))]
        else []
    | floating =>
        let d := as_dbl v in
        if all then
          if match sw_default cs with c_load => deqb d minus_one | _ => false end then []
          else if match sw_noarg cs with c_load => deqb d minus_one | _ => false end then [(cs, Some [])]
          else [(cs, Some (fmt_g d))]
        else []
    | string_ => if all then match as_str v with Some p => [(cs, Some p)] | None => [] end else []
    | filename | strlist => if all then map (fun s => (cs, Some s)) (as_list v) else []
    end.
  Definition flag_list (all makefile : bool) (st : ostate) : list (switch * option str) :=
    flat_map (fun cs => if sw_toenv cs && (negb makefile || negb (sw_nomk cs)) then flags_of all st cs else []) switches.

  (** src/main.c:3075-3083: the letters of the leading simple options, and the other entries. *)
  Fixpoint simple_group (l : list (switch * option str)) : str * list (switch * option str) :=
    match l with
    | (cs, None) :: l' =>
        if short_option (sw_c cs) then let '(a, r) := simple_group l' in (ascii_of_nat (sw_c cs) :: a, r) else ([], l)
    | _ => ([], l)
    end.
  (** src/main.c:3085-3111: one of the other entries. *)
  Definition flag_text (x : switch * option str) : str :=
    let '(cs, arg) := x in
    c_sp :: c_minus ::
    (if short_option (sw_c cs) then [ascii_of_nat (sw_c cs)] else c_minus :: s2l (sw_long cs)) ++
    match arg with
    | Some (a :: r) => (if short_option (sw_c cs) then [] else [c_eq]) ++ quote_for_env (a :: r)
    | _ => []
    end.
  (** src/main.c:2935-3120 define_makeflags, FLAGSTRING without the references. *)
  Definition flagstring (all makefile : bool) (st : ostate) : str :=
    let '(g, r) := simple_group (flag_list all makefile st) in
    let s := c_minus :: g ++ concat (map flag_text r) in
    match s with [_] => [] | _ => s end.
  (** src/main.c:3122-3125: the value of MFLAGS. *)
  Definition mflags (s : str) : str :=
    match s with a :: b :: r => if (a =?c c_minus) && (b =?c c_sp) then r else s | _ => s end.
  (** src/main.c:3127-3165: the value of MAKEFLAGS.  [over]: MAKEOVERRIDES (with -*- POSIX -*-
      the hidden variable) has a value. *)
  Definition makeflags (all makefile posix over : bool) (st : ostate) : str :=
    let s := flagstring all makefile st ++
             (if is_nil (as_list (st "eval_strings")) then [] else s2l " $(-*-eval-flags-*-)") ++
             (if all && over then s2l (if posix then " -- $(-*-command-variables-*-)" else " -- $(MAKEOVERRIDES)") else []) in
    match s with c :: r => if c =?c c_minus then r else s | [] => [] end.
  (** src/main.c:3174-3175: its origin. *)
  Definition makeflags_origin (st : ostate) : origin :=
    if Z.eqb (as_int (st "env_overrides")) 0 then o_file else o_env_override.

  (** src/main.c:1823-1835 the value of -*-eval-flags-*-. *)
  Fixpoint join_sp (l : list str) : str :=
    match l with [] => [] | [a] => a | a :: l' => a ++ c_sp :: join_sp l' end.
  Definition eval_flags (st : ostate) : str :=
    join_sp (map (fun s => s2l "--eval=" ++ quote_for_env s) (as_list (st "eval_strings"))).
  (** src/main.c:1589-1601 the value of -*-command-variables-*-: name, recursive?, value. *)
  Definition command_variables_text (l : list (str * bool * str)) : str :=
    join_sp (map (fun '(n, r, v) => quote_for_env n ++ (if r : bool then [] else [c_colon]) ++ c_eq :: quote_for_env v) l).

  (** ** From MAKEFLAGS to the options *)

  Record dstate := mkds { d_opts : ostate; d_args : list str }.
  Definition set_d (d : dstate) (p : string) (v : oval) : dstate := mkds (set_opt (d_opts d) p v) (d_args d).
  (** src/main.c:2537-2600 handle_non_switch_argument: what is taken for a variable definition
      or (without ENV) a goal. *)
  Definition non_switch (d : dstate) (a : str) : dstate :=
    if str_eqb a (s2l "-") then d else mkds (d_opts d) (d_args d ++ [a]).

  (** ENV: whether the words come from a variable. *)
  Variable env : bool.
  (** src/main.c:2831: BAD is fatal for the command line only. *)
  Definition bad (d : dstate) (ws : list str) : option (dstate * list str) := if env then Some (d, ws) else None.

  (** src/main.c:2687-2812 in decode_switches: one switch with its argument; [ws]: the words to
      come.  [None]: a fatal error, or the undefined overflow of atoi. *)
  Definition apply_switch (cs : switch) (arg : option str) (ws : list str) (d : dstate) : option (dstate * list str) :=
    let p := sw_ptr cs in
    let doit := negb env || sw_env cs in
    match sw_type cs with
    | ignore => Some (d, ws)
    | flag => Some (if doit then set_d d p (VInt 1) else d, ws)
    | flag_off => Some (if doit then set_d d p (VInt 0) else d, ws)
    | string_ | strlist | filename =>
        if negb doit then Some (d, ws)
        else
          match (match arg with Some a => Some a | None => match sw_noarg cs with c_str s => Some (s2l s) | _ => None end end) with
          | None => None
          | Some [] => match arg with Some _ => bad d ws | None => None end
          | Some a =>
              match sw_type cs with
              | string_ => Some (set_d d p (VStr (Some a)), ws)
              | filename =>
                  match expand_command_line_file tilde a with
                  | Some f => Some (set_d d p (VList (as_list (d_opts d p) ++ [f])), ws)
                  | None => None
                  end
              | _ => Some (set_d d p (VList (as_list (d_opts d p) ++ [a])), ws)
              end
          end
    | positive_int =>
        let '(arg, ws) := match arg, ws with
                          | None, w :: ws' => if forallb is_digit w then (Some w, ws') else (None, ws)
                          | _, _ => (arg, ws)
                          end in
        if negb doit then Some (d, ws)
        else
          match arg with
          | Some a =>
              if forallb is_digit a then
                let i := digits_value a in
                if (INT_MAX <? i)%Z then None
                else if (i <? 1)%Z then bad d ws else Some (set_d d p (VInt i), ws)
              else bad d ws
          | None => match sw_noarg cs with c_int z => Some (set_d d p (VInt z), ws) | _ => None end
          end
    | floating =>
        let '(arg, ws) := match arg, ws with
                          | None, (c :: w) :: ws' => if is_digit c || (c =?c c_dot) then (Some (c :: w), ws') else (None, ws)
                          | _, _ => (arg, ws)
                          end in
        if negb doit then Some (d, ws)
        else Some (set_d d p (VDbl (match arg with Some a => atof a | None => minus_one end)), ws)
    end.

  (** src/getopt.c:735-960: a word of short options. *)
  Fixpoint cluster (cs : str) (ws : list str) (d : dstate) : option (dstate * list str) :=
    match cs with
    | [] => Some (d, ws)
    | c :: r =>
        match find_short c with
        | None => if env then cluster r ws d else None
        | Some s =>
            match arg_of s, r with
            | no_argument, _ => match apply_switch s None ws d with Some (d', _) => cluster r ws d' | None => None end
            | _, _ :: _ => apply_switch s (Some r) ws d
            | optional_argument, [] => apply_switch s None ws d
            | required_argument, [] =>
                match ws with
                | [] => bad d []
                | a :: ws' => apply_switch s (Some a) ws' d
                end
            end
        end
    end.
  (** src/getopt.c:585-733: a long option; the word is --[w].  With opterr zero, an argument that
      is not allowed is ignored (668-690). *)
  Definition long_opt (w : str) (ws : list str) (d : dstate) : option (dstate * list str) :=
    let '(n, a) := match cut_at c_eq w with Some (n, a) => (n, Some a) | None => (w, None) end in
    match find_long n with
    | None => bad d ws
    | Some (h, c) =>
        match find_switch c with
        | None => bad d ws
        | Some s =>
            match h, a with
            | no_argument, _ => match apply_switch s None ws d with Some (d', _) => Some (d', ws) | None => None end
            | _, Some a => apply_switch s (Some a) ws d
            | optional_argument, None => apply_switch s None ws d
            | required_argument, None =>
                match ws with
                | [] => bad d []
                | a :: ws' => apply_switch s (Some a) ws' d
                end
            end
        end
    end.
  (** src/main.c:2663-2826 the loop of decode_switches, with the rest of src/getopt.c:515-583 in
      the order RETURN_IN_ORDER; every round takes a word. *)
  Fixpoint decode_loop (n : nat) (ws : list str) (d : dstate) : option dstate :=
    match n with
    | 0 => None
    | S n' =>
        match ws with
        | [] => Some d
        | w :: ws' =>
            match w with
            | a :: b :: r =>
                if negb (a =?c c_minus) then decode_loop n' ws' (non_switch d w)
                else if b =?c c_minus then
                  match r with
                  | [] => Some (fold_left non_switch ws' d)
                  | _ => match long_opt r ws' d with Some (d', ws'') => decode_loop n' ws'' d' | None => None end
                  end
                else match cluster (b :: r) ws' d with Some (d', ws'') => decode_loop n' ws'' d' | None => None end
            | _ => decode_loop n' ws' (non_switch d w)
            end
        end
    end.
  Definition decode_switches (ws : list str) (d : dstate) : option dstate := decode_loop (S (length ws)) ws d.
End Flags.

Section Env.
  Variable D : Type.
  Variable atof : str -> D.
  Variable minus_one : D.
  Variable tilde : str -> option str.
  Notation decode_switches := (decode_switches D atof minus_one tilde true).
  Notation dstate := (dstate D).

  (** src/main.c:2865-2907: decode_env_switches, from the expanded value on. *)
  Definition decode_value (v : str) (d : dstate) : option dstate :=
    match next_token v with
    | [] => Some d
    | v =>
        match env_words false [] v with
        | [] => Some d
        | w :: ws =>
            let w := match w with
                     | c :: _ => if negb (c =?c c_minus) && negb (existsb (fun x => x =?c c_eq) w) then c_minus :: w else w
                     | [] => [c_minus]
                     end in
            decode_switches (w :: ws) d
        end
    end.
  (** src/main.c:2845-2863: in the scopes [c]. *)
  Definition decode_env_switches (ftab : str -> option fent) (fuel : nat) (c : chain) (name : str) (d : dstate)
    : xres (option dstate) :=
    match expand ftab true fuel c st0 (c_dollar :: c_lparen :: name ++ [c_rparen]) with
    | XOk (_, v) => XOk (decode_value v d)
    | XFail e => XFail e
    | XFuel => XFuel
    end.
End Env.

(** src/main.c:2537-2560: handle_non_switch_argument with ENV, for the words [args] in turn: the
    global scope [g] and the names in the list command_variables.  (A variable is recorded by
    its address, which stays the same; it is named here.) *)
Section Args.
  Variable ftab : str -> option fent.
  Variable fuel : nat.
  Variable env_overrides : bool.
  Variable shell_result : str -> str.
  Fixpoint define_arguments (args : list str) (g : node) (cvs : list str) : xres (node * list str) :=
    match args with
    | [] => XOk (g, cvs)
    | a :: args' =>
        match try_variable_definition ftab fuel env_overrides shell_result [g] st0 a o_command false with
        | XOk None => define_arguments args' g cvs
        | XOk (Some (_, [g'])) =>
            match parse_variable_definition a with
            | Some (n, _, _) =>
                match expand ftab true fuel [g] st0 n with
                | XOk (_, n) => define_arguments args' g' (if existsb (str_eqb n) cvs then cvs else n :: cvs)
                | XFail e => XFail e
                | XFuel => XFuel
                end
            | None => define_arguments args' g' cvs
            end
        | XOk _ => XFuel
        | XFail e => XFail e
        | XFuel => XFuel
        end
    end.
End Args.
