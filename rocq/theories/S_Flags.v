(** Which options a make hands down to the makes it runs, and what "the same" means. *)
From Verif Require Import Base M_Flags.
Open Scope string_scope.
Open Scope list_scope.
Open Scope nat_scope.

(** The options that are handed down, by the kind of value they have. *)
Definition switches_passed : list string :=
  ["always_make_set"; "search_parent_flag"; "debug_flag"; "env_overrides"; "ignore_errors_flag"; "keep_going_flag";
   "check_symlink_flag"; "just_print_flag"; "print_data_base_flag"; "question_flag"; "no_builtin_rules_flag";
   "no_builtin_variables_flag"; "silent_flag"; "touch_flag"; "print_version_flag"; "print_directory"; "post_mortem_flag";
   "inhibit_print_directory"; "warn_undefined_variables_flag"; "no_extended_errors"].
Definition strings_passed : list string := ["profile_option"; "output_sync_option"; "jobserver_auth"; "sync_mutex"].
Definition lists_passed : list string := ["tracing_opts"; "db_flags"; "verbosity_opts"; "debugger_opts"; "eval_strings"].
Definition files_passed : list string := ["include_directories"; "profile_dir_opt"].
Definition passed : list string :=
  switches_passed ++ strings_passed ++ lists_passed ++ files_passed ++ ["arg_job_slots"; "max_load_average"].

Section Spec.
  Variable D : Type.
  Variable tilde : str -> option str.

  (** The values options can have: a number of jobs is "unset" (-1), "unlimited" (0) or a
      number; the arguments of options are not empty, and file names went through
      expand_command_line_file. *)
  Record reasonable (st : ostate D) : Prop := {
    r_switch : forall p, In p switches_passed -> st p = VInt D 0 \/ st p = VInt D 1;
    r_string : forall p, In p strings_passed -> exists s, st p = VStr D s /\ s <> Some [];
    r_list : forall p, In p lists_passed -> exists l, st p = VList D l /\ ~ In [] l;
    r_file : forall p, In p files_passed -> exists l, st p = VList D l /\
      forall f, In f l -> exists n, expand_command_line_file tilde n = Some f;
    r_jobs : exists z, st "arg_job_slots" = VInt D z /\ (-1 <= z <= INT_MAX)%Z;
    r_load : exists d, st "max_load_average" = VDbl D d }.

  (** No argument of an option has one of these characters at a harmful place. *)
  Definition no_dollars (st : ostate D) : Prop :=
    (forall p s, In p strings_passed -> st p = VStr D (Some s) -> ~ In c_dollar s) /\
    (forall p l s, In p (lists_passed ++ files_passed) -> p <> "eval_strings" -> st p = VList D l -> In s l -> ~ In c_dollar s).
  Definition no_tildes (st : ostate D) : Prop :=
    forall p l s, In p files_passed -> st p = VList D l -> In (c_tilde :: s) l -> False.

  (** [st'] has the options of [st]; everything else is as in a make that was given nothing. *)
  Definition handed_down (m1 : D) (st st' : ostate D) : Prop :=
    (forall p, In p passed -> st' p = st p) /\ (forall p, ~ In p passed -> st' p = o_init D m1 p).
End Spec.

(** A command variable as a word of the child's command line: name, recursive?, value. *)
Definition var_word (x : str * bool * str) : str :=
  let '(n, r, v) := x in n ++ s2l (if r : bool then "=" else ":=") ++ v.
