(** C68 as tests. *)
From Verif Require Import Base M_Expand M_Flags M_Restart S_Restart.
Open Scope string_scope.
Open Scope list_scope.
Open Scope nat_scope.

Definition ust_eqb (a b : ust) : bool := match a, b with u_success, u_success | u_none, u_none | u_question, u_question | u_failed, u_failed => true | _, _ => false end.
Definition workedb (g : goal) (h : list event) : bool := existsb (fun e => (g_id (e_goal e) =? g_id g) && o_started (e_obs e)) h.
Definition say (rb : bool) (h : list event) (e : event) : option ust :=
  let o := e_obs e in
  if (o_fail o || o_updated o) && negb (ust_eqb (o_status o) u_success) then Some (o_status o)
  else if o_updated o && ust_eqb (o_status o) u_success && o_newtime o && workedb (e_goal e) (e :: h) && (negb rb || (negb (k_print (e_modes e)) && negb (k_question (e_modes e)))) then Some u_success
  else None.
Fixpoint result_of (rb : bool) (h : list event) : ust :=
  match h with
  | [] => u_none
  | e :: h' => let s := result_of rb h' in
               if ust_eqb s u_question || ust_eqb s u_failed then s else match say rb h' e with Some s' => s' | None => s end
  end.
Definition modes_eqb (a b : modes) : bool := eqb (k_touch a) (k_touch b) && eqb (k_question a) (k_question b) && eqb (k_print a) (k_print b).
Definition obs_eqb (a b : obs) : bool := eqb (o_fail a) (o_fail b) && eqb (o_updated a) (o_updated b) && ust_eqb (o_status a) (o_status b) && eqb (o_started a) (o_started b) && eqb (o_newtime a) (o_newtime b).
Definition modesb (rb : bool) (user : modes) (e : event) : bool := modes_eqb (e_modes e) (if rb && negb (e_cmd e) then mkmodes false false false else user).
Definition stopsb (rb kg : bool) (e : event) : bool :=
  let o := e_obs e in
  (o_fail o || o_updated o) &&
  ((rb && g_dontcare (e_goal e) && ust_eqb (o_status o) u_success && o_newtime o) || (negb rb && k_question (e_modes e) && negb kg && negb (ust_eqb (o_status o) u_success))).
Definition doneb (rb kg : bool) (h : list event) (g : goal) : bool :=
  forallb (fun x => existsb (fun e => (g_id (e_goal e) =? g_id g) && (e_file e =? fst x) && o_updated (e_obs e)) h) (g_entries g) ||
  existsb (fun e => (g_id (e_goal e) =? g_id g) && stopsb rb kg e) h.
Fixpoint honestb (upd : list event -> nat -> modes -> obs) (h : list event) : bool :=
  match h with [] => true | e :: h' => obs_eqb (e_obs e) (upd h' (e_file e) (e_modes e)) && honestb upd h' end.
Definition t_history (rb kg : bool) (user : modes) (upd : list event -> nat -> modes -> obs) (l : list goal) (h : list event) : bool :=
  forallb (modesb rb user) h && forallb (doneb rb kg h) l && honestb upd h.
Definition t_chain (rb kg : bool) (user : modes) (upd : list event -> nat -> modes -> obs) (n : nat) (l : list goal) : bool :=
  match update_goal_chain rb kg user upd n l with
  | Some (s, h) => ust_eqb s (result_of rb h) && t_history rb kg user upd l h
  | None => false
  end.

Definition time_same (a b : option nat) : bool := match a, b with Some x, Some y => x =? y | None, None => true | _, _ => false end.
Definition is_there (a : option nat) : bool := match a with Some _ => true | None => false end.
Definition remadeb (before : goal -> option nat) (res : goal -> after) (m : makefile) : bool :=
  let a := res (m_goal m) in
  a_updated a && negb (time_same (a_time a) (before (m_goal m))) && (ust_eqb (a_result a) u_success || (negb (m_dontcare m) && is_there (a_time a))).
Definition missingb (res : goal -> after) (m : makefile) : bool := negb (a_updated (res (m_goal m))) && negb (m_dontcare m) && negb (m_included m).
Definition spoiltb (res : goal -> after) (m : makefile) : bool := a_updated (res (m_goal m)) && negb (ust_eqb (a_result (res (m_goal m))) u_success) && negb (m_dontcare m).
Definition step_of (before : goal -> option nat) (res : goal -> after) (l : list makefile) (s : ust) : next_step :=
  match s with
  | u_success => Again
  | u_failed => if existsb (remadeb before res) l then Again else if existsb (missingb res) l then Die else Continue (existsb (spoiltb res) l)
  | _ => Continue false
  end.
Definition step_eqb (a b : next_step) : bool := match a, b with Continue x, Continue y => eqb x y | Again, Again | Die, Die => true | _, _ => false end.
Definition t_next (kg : bool) (user : modes) (upd : list event -> nat -> modes -> obs) (n : nat) (before : goal -> option nat) (res : list event -> goal -> after) (l : list makefile) : bool :=
  let k := filter (fun m => negb (m_loops m)) l in
  match remake_makefiles kg user upd n before res l with
  | Some (step, h) => step_eqb step (step_of before (res h) k (result_of true h)) && t_history true kg user upd (map m_goal k) h
  | None => false
  end.

(** ** Words *)
Definition not_fb (w : str) : bool := negb (starts_with (s2l "-f") w).
Definition no_dashb (w : str) : bool := match w with a :: r => match r with [] => true | _ => negb (a =?c c_minus) end | [] => true end.
Fixpoint align (n : nat) (ws : list str) : bool :=
  match n, ws with
  | _, [] => true
  | 0, _ => false
  | S n', w :: r =>
      if no_dashb w then align n' r
      else if str_eqb w (s2l "--") then forallb not_fb r
      else if str_eqb w (s2l "-f") then match r with _ :: r' => align n' r' | [] => false end
      else if starts_with (s2l "-f") w then align n' r
      else match takes w with
           | Some false => align n' r
           | Some true => match r with a :: r' => not_fb a && align n' r' | [] => false end
           | None => false
           end
  end.
Fixpoint strs_eqb (a b : list str) : bool := match a, b with [], [] => true | x :: a', y :: b' => str_eqb x y && strs_eqb a' b' | _, _ => false end.
Definition oval_eqb (a b : oval nat) : bool :=
  match a, b with
  | VInt _ x, VInt _ y => (x =? y)%Z
  | VDbl _ x, VDbl _ y => x =? y
  | VStr _ None, VStr _ None => true
  | VStr _ (Some x), VStr _ (Some y) => str_eqb x y
  | VList _ x, VList _ y => strs_eqb x y
  | _, _ => false
  end.
Definition d_start : dstate nat := mkds nat (o_init nat 0) [].
Definition d_read (ws : list str) : option (dstate nat) := decode_switches nat (fun _ => 0) 0 (fun _ => None) false ws d_start.
Definition d_files (d : dstate nat) : list str := as_list nat (d_opts nat d "makefiles").
Definition goodb (n : str) : bool := match n with [] => false | _ => match expand_command_line_file (fun _ => None) n with Some m => str_eqb m n | None => false end end.
Definition ptrs : list string := map sw_ptr switches.
(** The next make, without and with a temporary file. *)
Definition t_words (argv names : list str) : bool :=
  match d_read argv with
  | Some d =>
      if align (length argv) argv && (length names =? length (d_files d)) && forallb goodb names then
        match next_argv names None argv with
        | Some argv' => match d_read argv' with
                        | Some d' => strs_eqb (d_files d') names && strs_eqb (d_args nat d') (d_args nat d) &&
                                     forallb (fun p => String.eqb p "makefiles" || oval_eqb (d_opts nat d' p) (d_opts nat d p)) ptrs
                        | None => false
                        end
        | None => false
        end
      else true
  | None => true
  end.
Definition t_stdin (argv names : list str) (nm : str) : bool :=
  match d_read argv with
  | Some d =>
      if align (length argv) argv && (length names =? length (d_files d)) && forallb goodb names && goodb nm && negb (existsb (str_eqb (s2l "--")) (argv ++ names)) then
        match next_argv names (Some nm) argv with
        | Some argv' => match d_read argv' with
                        | Some d' => strs_eqb (d_files d') names && strs_eqb (d_args nat d') (d_args nat d) &&
                                     strs_eqb (as_list nat (d_opts nat d' "old_files")) (as_list nat (d_opts nat d "old_files") ++ [nm])
                        | None => false
                        end
        | None => false
        end
      else true
  | None => true
  end.
