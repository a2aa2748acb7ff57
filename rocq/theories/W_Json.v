(** Instances of the theorems of C56 and C57, computed: this file knows the model and the specification, not the proofs.  Properties_Json derives the same statements from the
    theorems. *)
From Coq Require Import ZArith.
From Verif Require Import Base M_Text M_Var M_Expand M_Env M_Json S_Json S_Profile.
Open Scope string_scope.
Open Scope list_scope.
Open Scope nat_scope.

(** C57: the text has the tokens of the value. *)
Definition reads_back (g : profile) : Prop := match dump g with Some t => lex Idle t = Some (flatten (profile_json g)) | None => False end.
Definition w_odd : str := s2l "a" ++ [c_dq; c_bslash; c_tab; ascii_of_nat 8; c_nl; c_cr; ascii_of_nat 200] ++ s2l "z/'".
Definition w_target (k : nat) (name : str) (file : option str) (calls : list str) : target :=
  {| p_name := name; p_file := file; p_line := 7 * k; p_start := Some (17, 5); p_deps := Some (18, 1234); p_recipe := None; p_end := Some (k, 0); p_calls := calls |}.
Definition w_profile (pid : nat) (parent : option (nat * option str)) (argv : list str) (jobs : Z) (server : bool) (goals : list str) (targets : list target) : profile :=
  {| g_pid := pid; g_parent := parent; g_creator := s2l "remake 4.3"; g_argv := argv; g_jobs := jobs; g_server := server; g_status := s2l "Normal";
     g_start := Some (16, 20); g_end := None; g_dir := s2l "/d/e"; g_goals := goals; g_targets := targets |}.
Definition w1 := w_profile 120 None [] 4 false [] [].
Definition w2 := w_profile 3 (Some (90, Some w_odd)) [s2l "remake"; w_odd; s2l "-j"] (-1) true [s2l "all"] [w_target 0 w_odd None []].
Definition w3 := w_profile 0 (Some (1, Some (s2l "up"))) [s2l "make"] (-15) true [w_odd; s2l "b"; s2l "c"]
  [w_target 0 (s2l "x") (Some (s2l "Makefile")) [s2l "a"]; w_target 15 (s2l "y") (Some (s2l "m/k.mk")) [w_odd; s2l "b"; s2l "c"]; w_target 109 [] None []].
Example w1_reads_back : reads_back w1. Proof. vm_compute. reflexivity. Qed.
Example w2_reads_back : reads_back w2. Proof. vm_compute. reflexivity. Qed.
Example w3_reads_back : reads_back w3. Proof. vm_compute. reflexivity. Qed.

(** Times and numbers. *)
Definition time_test (s ns : nat) : bool :=
  let t := stamp (Some (s, ns)) in
  existsb (fun i => match skipn i t with c :: d => if (c =?c c_dot) && (length d =? 9) then (read (firstn i t) =? s) && (read d =? ns) else false | [] => false end) (seq 0 (length t)).
Example w_times : forallb (fun p => time_test (fst p) (snd p)) [(0, 0); (1, 9); (10, 10); (123, 456); (2019, 1009)] = true. Proof. vm_compute. reflexivity. Qed.
Definition numbers_read (l : list Z) : Prop := forallb (fun z => (read_int (show_int z) =? z)%Z) l = true.
Example w_numbers : numbers_read [0; 1; -1; 10; -10; 905; -1234]%Z. Proof. vm_compute. reflexivity. Qed.

(** C56: level, process and target arrive. *)
Definition entry_texts (env : list (str * str)) : list str := map (fun x => fst x ++ c_eq :: snd x) env.
Definition value_in (n : str) (s : vset) : option str := option_map v_value (set_find n s).
Definition parent_test (global : vset) (c : chain) (level pid : nat) (file : str) : bool :=
  match target_environment (fun _ => None) 10 false None global c level pid file with
  | XOk env =>
      match import_env false (entry_texts env) [] None with
      | Some (s, _) =>
          (number_of (value_in n_MAKELEVEL s) =? S level) && (number_of (value_in n_MAKEPARENT_PID s) =? pid) &&
          match file with a :: _ => (a =?c c_minus) || match target_of (value_in n_MAKEPARENT_TARGET s) with Some t => str_eqb t file | None => false end | [] => true end
      | None => false
      end
  | _ => true
  end.
Definition w_vars : vset := [(s2l "MAKELEVEL", mkvar (s2l "9") o_env true false false false false v_export true); (s2l "X", mkvar (s2l "y z") o_file false false false false false v_export true)].
Definition parents (l : list (vset * nat * nat * str)) : Prop :=
  forallb (fun x => let '(v, level, pid, file) := x in parent_test [] [mknode 0 v false] level pid file) l = true.
Example w_parents : parents [([], 0, 0, []); ([], 0, 1, s2l "all"); (w_vars, 9, 432, s2l "lib/a b"); (w_vars, 99, 295, s2l "=x"); ([], 10, 0, s2l "-n"); (w_vars, 3, 7, w_odd)]. Proof. vm_compute. reflexivity. Qed.
Definition three (level pid : nat) (t : str) : Prop :=
  match own_variables level pid (Some t) with
  | Some l => existsb (fun x => str_eqb (fst x) n_MAKELEVEL && str_eqb (snd x) (show_nat level)) l && existsb (fun x => str_eqb (fst x) n_MAKEPARENT_PID && str_eqb (snd x) (show_nat pid)) l &&
              existsb (fun x => str_eqb (fst x) n_MAKEPARENT_TARGET && str_eqb (snd x) t) l = true
  | None => False
  end.
Example w_three : three 3 207 (s2l "all"). Proof. vm_compute. reflexivity. Qed.
Example w_three_longest : three 3 207 (repeat "a"%char 199). Proof. vm_compute. reflexivity. Qed.
