(** Remaking makefiles and running make again: src/main.c, src/remake.c update_goal_chain. *)
From Verif Require Import Base M_Flags.
Open Scope string_scope.
Open Scope list_scope.
Open Scope nat_scope.

(** ** The goals: src/remake.c:81-268 update_goal_chain. *)
(** src/filedef.h:80-86 enum update_status. *)
Inductive ust := u_success | u_none | u_question | u_failed.
Definition below_question (s : ust) : bool := match s with u_success | u_none => true | _ => false end.
(** What is seen after a call of update_file for one entry of a goal: its result is not success; file->updated;
    file->update_status; commands_started has grown; MTIME (file) != file->mtime_before_update. *)
Record obs := mkobs { o_fail : bool; o_updated : bool; o_status : ust; o_started : bool; o_newtime : bool }.
(** touch_flag, question_flag, just_print_flag. *)
Record modes := mkmodes { k_touch : bool; k_question : bool; k_print : bool }.
(** A goal: its entries (more than one with double colons), each with cmd_target; file->dontcare (of the goal; in the code, of each entry, and it may change while updating); changed. *)
Record goal := mkgoal { g_id : nat; g_entries : list (nat * bool); g_dontcare : bool; g_changed : bool }.
(** A call of update_file: goal, entry, the flags, what was seen. *)
Record event := mkevent { e_goal : goal; e_file : nat; e_cmd : bool; e_modes : modes; e_obs : obs }.

Section Chain.
  Variable rebuilding : bool.
  Variable keep_going : bool.
  Variable user : modes.
  (** update_file, which may depend on all that was done before (the last first). *)
  Variable upd : list event -> nat -> modes -> obs.

  (** src/remake.c:134-144. *)
  Definition modes_for (cmd : bool) : modes := if rebuilding then (if cmd then user else mkmodes false false false) else user.
  (** src/remake.c:123-206: the loop over the entries.  The results: status, calls, g->changed, stop, any_not_updated. *)
  Fixpoint entries_loop (g : goal) (l : list (nat * bool)) (status : ust) (h : list event) (changed any : bool) : ust * list event * bool * bool * bool :=
    match l with
    | [] => (status, h, changed, false, any)
    | (f, cmd) :: l' =>
        let k := modes_for cmd in
        let o := upd h f k in
        let changed := changed || o_started o in
        let '(status, stop) :=
          if (o_fail o || o_updated o) && below_question status then
            match o_status o with
            | u_success =>
                if o_updated o && changed && o_newtime o
                then (if negb rebuilding || (negb (k_print k) && negb (k_question k)) then u_success else status, rebuilding && g_dontcare g)
                else (status, false)
            | s => (s, k_question k && negb keep_going && negb rebuilding)
            end
          else (status, false) in
        let h := mkevent g f cmd k o :: h in
        let any := any || negb (o_updated o) in
        if stop then (status, h, changed, true, any) else entries_loop g l' status h changed any
    end.
  (** src/remake.c:115-250: one pass over the goals; [kept]: the goals that stay in the chain, the last first. *)
  Fixpoint pass (kept l : list goal) (status : ust) (h : list event) : list goal * ust * list event :=
    match l with
    | [] => (rev kept, status, h)
    | g :: l' =>
        let '(status, h, changed, stop, any) := entries_loop g (g_entries g) status h (g_changed g) false in
        if stop then (rev kept ++ l', status, h)
        else if negb any then pass kept l' status h
        else pass (mkgoal (g_id g) (g_entries g) (g_dontcare g) changed :: kept) l' status h
    end.
  (** The passes.  [None]: not finished after [n] passes. *)
  Fixpoint chain (n : nat) (goals : list goal) (status : ust) (h : list event) : option (ust * list event) :=
    match goals, n with
    | [], _ => Some (status, h)
    | _, 0 => None
    | _, S n' => let '(goals, status, h) := pass [] goals status h in chain n' goals status h
    end.
  Definition update_goal_chain (n : nat) (goals : list goal) : option (ust * list event) := chain n goals u_none [].
End Chain.

(** ** What is done then: src/main.c:2060-2350. *)
(** A makefile: its goal, whether an entry with double colons has a recipe and no prerequisites, RM_DONTCARE, RM_INCLUDED. *)
Record makefile := mkmakefile { m_goal : goal; m_loops : bool; m_dontcare : bool; m_included : bool }.
(** After the update: file->updated, file->update_status, the time of the file ([None]: it is not there). *)
Record after := mkafter { a_updated : bool; a_result : ust; a_time : option nat }.
Definition time_eqb (a b : option nat) : bool := match a, b with Some x, Some y => x =? y | None, None => true | _, _ => false end.
(** Go on (and in the end fail, makefile_status); run make again; die. *)
Inductive next_step := Continue (failed : bool) | Again | Die.

(** src/main.c:2084-2126: the makefiles to be updated and makefile_mtimes. *)
Fixpoint select (time : goal -> option nat) (l : list makefile) : list makefile * list (option nat) :=
  match l with
  | [] => ([], [])
  | m :: l' => let '(k, t) := select time l' in if m_loops m then (k, t) else (m :: k, time (m_goal m) :: t)
  end.
(** src/main.c:2167-2212: any_remade, any_failed, whether makefile_status becomes MAKE_FAILURE. *)
Fixpoint look (l : list makefile) (res : goal -> after) (times : list (option nat)) : bool * bool * bool :=
  match l, times with
  | m :: l', t :: times' =>
      let '(remade, failed, bad) := look l' res times' in
      let a := res (m_goal m) in
      if a_updated a then
        match a_result a with
        | u_success => (negb (time_eqb (a_time a) t) || remade, failed, bad)
        | _ => if m_dontcare m then (remade, failed, bad)
               else ((match a_time a with Some _ => negb (time_eqb (a_time a) t) | None => false end) || remade, failed, true)
        end
      else if m_dontcare m || m_included m then (remade, failed, bad) else (remade, true, bad)
  | _, _ => (false, false, false)
  end.
Definition decide (status : ust) (l : list makefile) (res : goal -> after) (times : list (option nat)) : next_step :=
  match status with
  | u_question | u_none => Continue false
  | u_success => Again
  | u_failed => let '(remade, failed, bad) := look l res times in if remade then Again else if failed then Die else Continue bad
  end.
(** All of it.  [before]: the times before; [res]: what is there after the calls. *)
Definition remake_makefiles (keep_going : bool) (user : modes) (upd : list event -> nat -> modes -> obs) (n : nat) (before : goal -> option nat)
    (res : list event -> goal -> after) (l : list makefile) : option (next_step * list event) :=
  let '(kept, times) := select before l in
  match update_goal_chain true keep_going user upd n (map m_goal kept) with
  | Some (status, h) => Some (decide status kept (res h) times, h)
  | None => None
  end.

(** ** The command line of the next make: src/main.c:2230-2260. *)
Definition dash_f : str := s2l "-f".
(** [names]: makefiles->list, with the null pointer at its end.  [None]: something behind that is read, or the null pointer given
    to concat, or the end of argv overwritten. *)
Fixpoint refile (names : list (option str)) (argv : list str) : option (list (option str)) :=
  match argv with
  | [] => Some []
  | w :: ws =>
      if starts_with dash_f w then
        match names with
        | [] => None
        | n :: names' =>
            match skipn 2 w with
            | [] => match ws with
                    | [] => None
                    | _ :: ws' => match refile names' ws' with Some r => Some (Some w :: n :: r) | None => None end
                    end
            | _ => match n with
                   | None => None
                   | Some x => match refile names' ws with Some r => Some (Some (dash_f ++ x) :: r) | None => None end
                   end
            end
        end
      else match refile names ws with Some r => Some (Some w :: r) | None => None end
  end.
(** What execvp takes: up to the null pointer. *)
Fixpoint until_null (l : list (option str)) : list str := match l with Some w :: l' => w :: until_null l' | _ => [] end.
(** [stdin_nm]: the temporary file for a makefile from the standard input. *)
Definition next_argv (makefiles : list str) (stdin_nm : option str) (argv : list str) : option (list str) :=
  match (match makefiles with [] => Some (map Some argv) | _ => refile (map Some makefiles ++ [None]) argv end) with
  | None => None
  | Some l => Some (until_null (l ++ match stdin_nm with Some n => [Some (s2l "-o" ++ n)] | None => [] end))
  end.
(** src/main.c:1672-1727: the names in the list become, for "-", the temporary file. *)
Definition from_stdin (nm : str) (l : list str) : list str := map (fun n => if str_eqb n (s2l "-") then nm else n) l.
