(** The profile in JSON: src/json_format.c; what a sub-make is told of its parent: src/main.c, src/variable.c. *)
From Coq Require Import ZArith.
From Verif Require Import Base M_Text M_Env.
Open Scope string_scope.
Open Scope list_scope.
Open Scope nat_scope.

Definition c_bs : ascii := ascii_of_nat 8.
Definition q (s : string) : str := flat_map (fun c => if c =?c "'" then [c_dq] else [c]) (s2l s).
Definition t1 : str := [c_tab].
Definition t2 : str := [c_tab; c_tab].
Definition t3 : str := [c_tab; c_tab; c_tab].
Definition t4 : str := [c_tab; c_tab; c_tab; c_tab].

(** src/json_format.c:71-95 escape_print. *)
Definition escape (s : str) : str :=
  flat_map (fun c => if (c =?c c_bs) || (c =?c c_tab) || (c =?c c_nl) || (c =?c c_cr) then [c_sp]
                     else if (c =?c c_dq) || (c =?c c_bslash) then [c_bslash; c] else [c]) s.
(** %d *)
Definition show_int (z : Z) : str := if (z <? 0)%Z then c_minus :: show_nat (Z.to_nat (- z)) else show_nat (Z.to_nat z).
(** %09u *)
Definition show09 (n : nat) : str := let d := show_nat n in repeat "0"%char (9 - length d) ++ d.
(** src/json_format.c:97-107 format_timestamp: [None] for the time 0, else seconds and nanoseconds. *)
Definition stamp (t : option (nat * nat)) : str :=
  match t with None => s2l "null" | Some (s, ns) => show_nat s ++ c_dot :: show09 ns end.

(** src/profile.h: a target of the profile with the names of its dependencies. *)
Record target := { p_name : str; p_file : option str; p_line : nat; p_start : option (nat * nat);
  p_deps : option (nat * nat); p_recipe : option (nat * nat); p_end : option (nat * nat); p_calls : list str }.
(** src/profile.h: the whole profile.  [g_parent] is [None] if makeparent_pid is 0; the target may be a null
    pointer.  [g_dir] is starting_directory. *)
Record profile := { g_pid : nat; g_parent : option (nat * option str); g_creator : str; g_argv : list str;
  g_jobs : Z; g_server : bool; g_status : str; g_start : option (nat * nat); g_end : option (nat * nat);
  g_dir : str; g_goals : list str; g_targets : list target }.

(** src/json_format.c:109-123 dump_preamble.  [None]: a null pointer is read. *)
Definition preamble (g : profile) : option str :=
  let a := q "{" ++ [c_nl] ++ t1 ++ q "'version':'1.0.0'," ++ [c_nl] ++ t1 ++ q "'pid':" ++ show_nat (g_pid g) ++ q "," ++ [c_nl] in
  match g_parent g with
  | None => Some a
  | Some (_, None) => None
  | Some (pid, Some t) =>
      Some (a ++ t1 ++ q "'parent':{" ++ [c_nl] ++ t2 ++ q "'pid':" ++ show_nat pid ++ q "," ++ [c_nl] ++
            t2 ++ q "'target':'" ++ escape t ++ q "'" ++ [c_nl] ++ t1 ++ q "}," ++ [c_nl])
  end.
(** src/json_format.c:131-145 dump_argv. *)
Fixpoint argv_rest (l : list str) : str :=
  match l with [] => [] | a :: l' => q "," ++ [c_nl] ++ t2 ++ q "'" ++ escape a ++ q "'" ++ argv_rest l' end.
Definition dump_argv (l : list str) : str :=
  t1 ++ q "'argv': [" ++
  match l with [] => [] | a :: l' => [c_nl] ++ t2 ++ q "'" ++ escape a ++ q "'" ++ argv_rest l' end ++
  [c_nl] ++ t1 ++ q "]," ++ [c_nl].
(** src/json_format.c:176-189, 255-270: a list of names, each on its line. *)
Fixpoint dump_names (tabs : str) (l : list str) : str :=
  match l with
  | [] => []
  | [a] => tabs ++ q "'" ++ escape a ++ q "'" ++ [c_nl]
  | a :: l' => tabs ++ q "'" ++ escape a ++ q "'," ++ [c_nl] ++ dump_names tabs l'
  end.
(** src/json_format.c:201-252 dump_target, after the comma. *)
Definition dump_time (name : string) (t : option (nat * nat)) : str := t3 ++ q name ++ stamp t ++ q "," ++ [c_nl].
Definition dump_target (p : target) : str :=
  [c_nl] ++ t2 ++ q "{" ++ [c_nl] ++ t3 ++ q "'name':'" ++ escape (p_name p) ++ q "'," ++ [c_nl] ++
  match p_file p with Some f => t3 ++ q "'file':'" ++ f ++ q "'," ++ [c_nl] | None => t3 ++ q "'file':null," ++ [c_nl] end ++
  t3 ++ q "'line':" ++ show_nat (p_line p) ++ q "," ++ [c_nl] ++
  dump_time "'start':" (p_start p) ++ dump_time "'deps':" (p_deps p) ++ dump_time "'recipe':" (p_recipe p) ++ dump_time "'end':" (p_end p) ++
  t3 ++ q "'depends':[" ++ [c_nl] ++ dump_names t4 (p_calls p) ++ t3 ++ q "]" ++ [c_nl] ++ t2 ++ q "}".
(** src/json_format.c:191-199 dump_targets: first_entry. *)
Fixpoint targets_rest (l : list target) : str := match l with [] => [] | p :: l' => q "," ++ dump_target p ++ targets_rest l' end.
Definition dump_targets (l : list target) : str := match l with [] => [] | p :: l' => dump_target p ++ targets_rest l' end.
(** src/json_format.c:272-298 json_init and json_close: the file. *)
Definition dump (g : profile) : option str :=
  match preamble g with
  | None => None
  | Some a =>
      Some (a ++ t1 ++ q "'creator':'" ++ g_creator g ++ q "'," ++ [c_nl] ++ dump_argv (g_argv g) ++
        t1 ++ q "'jobs':" ++ show_int (g_jobs g) ++ q "," ++ [c_nl] ++
        t1 ++ q "'server':" ++ (if g_server g then s2l "true" else s2l "false") ++ q "," ++ [c_nl] ++
        t1 ++ q "'status':'" ++ g_status g ++ q "'," ++ [c_nl] ++
        t1 ++ q "'start':" ++ stamp (g_start g) ++ q "," ++ [c_nl] ++ t1 ++ q "'end':" ++ stamp (g_end g) ++ q "," ++ [c_nl] ++
        t1 ++ q "'directory':'" ++ g_dir g ++ q "'," ++ [c_nl] ++ t1 ++ q "'entry':[" ++ [c_nl] ++ dump_names t2 (g_goals g) ++ t1 ++ q "]," ++ [c_nl] ++
        t1 ++ q "'targets':[" ++ dump_targets (g_targets g) ++ [c_nl] ++ t1 ++ q "]" ++ [c_nl] ++ q "}")
  end.

(** The C library's atoi for text without sign and white space, without overflow. *)
Fixpoint atoi_from (acc : nat) (s : str) : nat :=
  match s with
  | c :: s' => let k := nat_of_ascii c in if (48 <=? k) && (k <=? 57) then atoi_from (10 * acc + (k - 48)) s' else acc
  | [] => acc
  end.
(** src/main.c:1412-1432: makelevel, makeparent_pid, makeparent_target from the values of the variables. *)
Definition number_of (v : option str) : nat :=
  match v with Some (c :: s) => if c =?c c_minus then 0 else atoi_from 0 (c :: s) | _ => 0 end.
Definition target_of (v : option str) : option str :=
  match v with Some (c :: s) => if c =?c c_minus then None else Some (c :: s) | _ => None end.
(** src/variable.c:866-880 define_automatic_variables: the three variables are made with sprintf in buf[200].
    [None]: it is written past its end.  The two numbers have at most 11 characters. *)
Definition in_buf (s : str) : option str := if length s <? 200 then Some s else None.
Definition own_variables (level pid : nat) (target : option str) : option (list (str * str)) :=
  let l := [(n_MAKELEVEL, show_nat level); (n_MAKEPARENT_PID, show_nat pid)] in
  match target with
  | None => Some l
  | Some t => match in_buf t with Some t' => Some (l ++ [(n_MAKEPARENT_TARGET, t')]) | None => None end
  end.
