(** The build engine: src/remake.c update_goal_chain, update_file, update_file_1, check_dep,
    remake_file, notice_finished_file, and f_mtime without searches. *)
From Verif Require Import Base.

(** src/filedef.h:89-95 enum update_status, in its order. *)
Inductive us := Success | NoAttempt | Question | Failed.
Definition us_rank (a : us) : nat := match a with Success => 0 | NoAttempt => 1 | Question => 2 | Failed => 3 end.
Definition us_max (a b : us) : us := if us_rank a <? us_rank b then b else a.
Definition bad (a : us) : bool := negb (us_rank a =? 0).
(** src/filedef.h:96-102 enum cmd_state. *)
Inductive cs := NotStarted | DepsRunning | Running | Finished.
Definition cs_eqb (a b : cs) : bool :=
  match a, b with NotStarted, NotStarted | DepsRunning, DepsRunning | Running, Running | Finished, Finished => true | _, _ => false end.
(** src/filedef.h:200-212: NONEXISTENT_MTIME, the ordinary times, NEW_MTIME; an unknown time is
    [None] below. *)
Inductive time := Absent | At (n : nat) | New.
Definition time_eqb (a b : time) : bool :=
  match a, b with Absent, Absent | New, New => true | At n, At m => n =? m | _, _ => false end.
Definition newer (a b : time) : bool :=
  match a, b with
  | Absent, _ => false
  | At _, Absent => true
  | At n, At m => m <? n
  | At _, New => false
  | New, New => false
  | New, _ => true
  end.

(** src/dep.h:46-55: the file, ignore_mtime and changed. *)
Record dep := mkdep { d_file : nat; d_order : bool; d_changed : bool }.
(** src/filedef.h:30-145: what changes of a struct file.  Files are numbered. *)
Record file := mkfile {
  f_deps : list dep;
  f_mtime : option time;       (** last_mtime *)
  f_considered : nat;
  f_status : us;               (** update_status *)
  f_state : cs;                (** command_state *)
  f_updating : bool;
  f_updated : bool;
  f_intermediate : bool;
  f_tried : bool               (** tried_implicit *)
}.
Definition with_deps (l : list dep) (x : file) := mkfile l (f_mtime x) (f_considered x) (f_status x) (f_state x) (f_updating x) (f_updated x) (f_intermediate x) (f_tried x).
Definition with_mtime (m : option time) (x : file) := mkfile (f_deps x) m (f_considered x) (f_status x) (f_state x) (f_updating x) (f_updated x) (f_intermediate x) (f_tried x).
Definition with_considered (n : nat) (x : file) := mkfile (f_deps x) (f_mtime x) n (f_status x) (f_state x) (f_updating x) (f_updated x) (f_intermediate x) (f_tried x).
Definition with_status (u : us) (x : file) := mkfile (f_deps x) (f_mtime x) (f_considered x) u (f_state x) (f_updating x) (f_updated x) (f_intermediate x) (f_tried x).
Definition with_state (c : cs) (x : file) := mkfile (f_deps x) (f_mtime x) (f_considered x) (f_status x) c (f_updating x) (f_updated x) (f_intermediate x) (f_tried x).
Definition with_updating (b : bool) (x : file) := mkfile (f_deps x) (f_mtime x) (f_considered x) (f_status x) (f_state x) b (f_updated x) (f_intermediate x) (f_tried x).
Definition with_updated (b : bool) (x : file) := mkfile (f_deps x) (f_mtime x) (f_considered x) (f_status x) (f_state x) (f_updating x) b (f_intermediate x) (f_tried x).
Definition with_intermediate (b : bool) (x : file) := mkfile (f_deps x) (f_mtime x) (f_considered x) (f_status x) (f_state x) (f_updating x) (f_updated x) b (f_tried x).
Definition with_tried (b : bool) (x : file) := mkfile (f_deps x) (f_mtime x) (f_considered x) (f_status x) (f_state x) (f_updating x) (f_updated x) (f_intermediate x) b.

(** What can be seen: a recipe is started (under -n: printed), a recipe has finished, there is no
    rule to make a file, a circular prerequisite is dropped. *)
Inductive event := Start (f : nat) | Finish (f : nat) (ok : bool) | NoRule (f : nat) | Drop (f d : nat).

(** [s_disk]: the times of the files on the disk.  [s_jobs]: the files whose recipes run, the list
    of children.  [s_trace]: the latest event first.  [s_pass]: the counter CONSIDERED. *)
Record state := mkstate { s_files : nat -> file; s_disk : nat -> time; s_jobs : list nat; s_clock : nat; s_trace : list event; s_pass : nat }.
Definition upd (f : nat) (g : file -> file) (st : state) : state :=
  mkstate (fun n => if n =? f then g (s_files st n) else s_files st n) (s_disk st) (s_jobs st) (s_clock st) (s_trace st) (s_pass st).
Definition emit (e : event) (st : state) : state := mkstate (s_files st) (s_disk st) (s_jobs st) (s_clock st) (e :: s_trace st) (s_pass st).

(** [Die]: make exits at once.  [Out]: the fuel is used up. *)
Inductive res (A : Type) := Ok (a : A) (st : state) | Die (st : state) | Out.
Arguments Ok {A}. Arguments Die {A}. Arguments Out {A}.
Definition bind {A B} (r : res A) (k : A -> state -> res B) : res B :=
  match r with Ok a st => k a st | Die st => Die st | Out => Out end.

(** The world outside: at each tick, which child ends, whether well, what its recipe has done to
    the disk, and how many children are reaped on the way, before a job is started (new_job waits
    for a slot) and after it (with one slot new_job waits for the job itself). *)
Record tick := mktick { t_pick : nat; t_ok : bool; t_effect : nat -> (nat -> time) -> nat -> time; t_before : nat; t_after : nat }.
(** -n, -t and -q; lines with "+" are not modelled. *)
Inductive mode := Normal | Dry | Touch | Ask.

Section Engine.
  (** What is fixed when the goals are updated.  [cmds]: there is a recipe (found by an implicit
      search or taken from .DEFAULT as well: this is taken as done before).  [blank]: the recipe
      is nothing but white space.  [chain]: the entries of a double-colon target, of which [base]
      is the first; a file of its own is the only one.  Not modelled: also_make, the renaming of
      files by searches, low resolution times, and the flags for makefiles (dontcare, no_diag). *)
  Variable phony is_target cmds blank double : nat -> bool.
  Variable base : nat -> nat.
  Variable chain : nat -> list nat.
  Variable keep_going always : bool.
  Variable how : mode.
  Variable world : nat -> tick.

  Definition upd_all (l : list nat) (g : nat -> file -> file) (st : state) : state := fold_left (fun st e => upd e (g e) st) l st.
  (** src/remake.c:1320-1507 f_mtime and the macro file_mtime. *)
  Definition fetch (f : nat) (st : state) : state :=
    let m := s_disk st (base f) in
    let p := f_updated (s_files st (base f)) in
    upd_all (chain (base f)) (fun e x =>
      let x := if negb (time_eqb m Absent) && cs_eqb (f_state x) NotStarted && negb (f_tried x) && f_intermediate x then with_intermediate false x else x in
      if Bool.eqb (f_updated x) p then with_mtime (Some m) x else x) st.
  Definition file_mtime (f : nat) (st : state) : time * state :=
    match f_mtime (s_files st f) with
    | Some m => (m, st)
    | None => (s_disk st (base f), fetch f st)
    end.

  (** src/remake.c:991-1002: the greatest time of the entries; an unknown one counts as greater. *)
  Fixpoint max_mtime (st : state) (l : list nat) (m : option time) : option time :=
    match l with
    | [] => m
    | e :: l' =>
        let x := f_mtime (s_files st e) in
        max_mtime st l' (match m, x with None, _ => None | _, None => None | Some a, Some b => if newer b a then Some b else Some a end)
    end.
  (** src/remake.c:906-1036 notice_finished_file. *)
  Definition notice_finished_file (f : nat) (st : state) : state :=
    let ran := cs_eqb (f_state (s_files st f)) Running in
    let st := upd f (fun x => with_updated true (with_state Finished x)) st in
    let touch := match how with Touch => true | _ => false end in
    let touched := touch && (us_rank (f_status (s_files st f)) =? 0) && negb (phony f) && cmds f in
    let st :=
      if touched then
        let t := world (s_clock st) in
        let st := mkstate (s_files st) (if t_ok t then t_effect t f (s_disk st) else s_disk st) (s_jobs st) (S (s_clock st)) (s_trace st) (s_pass st) in
        upd f (with_status (if t_ok t then Success else Failed)) st
      else st in
    let st :=
      if (ran && negb (phony f)) || touched then
        let new := match how with Normal => is_target f && negb (cmds f) | _ => cmds f end in
        upd f (with_mtime (if new then Some New else None)) st
      else st in
    let st :=
      if double f then
        let l := chain (base f) in
        if forallb (fun e => f_updated (s_files st e)) l then let m := max_mtime st l (f_mtime (s_files st f)) in upd_all l (fun _ => with_mtime m) st else st
      else st in
    if us_rank (f_status (s_files st f)) =? 1 then upd f (with_status Success) st else st.

  (** src/job.c:593-1000 reap_children: one child ends.  Without -k a failure ends make
      (src/job.c:985-1000). *)
  Definition reap1 (st : state) : res unit :=
    match s_jobs st with
    | [] => Ok tt st
    | j :: _ =>
        let t := world (s_clock st) in
        let f := nth (t_pick t mod length (s_jobs st)) (s_jobs st) j in
        let st := mkstate (s_files st) (t_effect t f (s_disk st)) (remove Nat.eq_dec f (s_jobs st)) (S (s_clock st)) (Finish f (t_ok t) :: s_trace st) (s_pass st) in
        let st := notice_finished_file f (upd f (with_status (if t_ok t then Success else Failed)) st) in
        if t_ok t || keep_going then Ok tt st else Die st
    end.
  Fixpoint reaps (n : nat) (st : state) : res unit :=
    match n with
    | 0 => Ok tt st
    | S n' => bind (reap1 st) (fun _ st => reaps n' st)
    end.
  (** src/commands.c:543-613 execute_file_commands and src/job.c new_job, start_job_command. *)
  Definition execute_file_commands (f : nat) (st : state) : res unit :=
    if blank f then Ok tt (notice_finished_file f (upd f (fun x => with_status Success (with_state Running x)) st))
    else
      match how with
      | Ask => Ok tt (notice_finished_file f (upd f (with_status Question) st))
      | Dry => Ok tt (notice_finished_file f (upd f (fun x => with_status Success (with_state Running x)) (emit (Finish f true) (emit (Start f) st))))
      | _ =>
          let t := world (s_clock st) in
          bind (reaps (t_before t) st) (fun _ st =>
          let st := emit (Start f) (upd f (with_state Running) st) in
          reaps (t_after t) (mkstate (s_files st) (s_disk st) (s_jobs st ++ [f]) (S (s_clock st)) (s_trace st) (s_pass st)))
      end.
  (** src/remake.c:1263-1306 remake_file; complain (380-406) ends make without -k. *)
  Definition remake_file (f : nat) (st : state) : res unit :=
    if cmds f then
      match how with
      | Touch => Ok tt (notice_finished_file f (upd f (with_status Success) st))
      | _ => execute_file_commands f st
      end
    else if phony f || is_target f then Ok tt (notice_finished_file f (upd f (with_status Success) st))
    else
      let st := emit (NoRule f) st in
      if keep_going then Ok tt (notice_finished_file f (upd f (with_status Failed) st)) else Die st.

  Definition is_updating (f : nat) (st : state) : bool := f_updating (s_files st (base f)).
  Definition set_updating (f : nat) (b : bool) (st : state) : state := upd (base f) (with_updating b) st.
  Definition busy (f : nat) (st : state) : bool := match f_state (s_files st f) with Running | DepsRunning => true | _ => false end.

  (** src/remake.c:298-359 update_file. *)
  Fixpoint entries_loop (one : nat -> state -> res us) (l : list nat) (status : us) (st : state) : res us :=
    match l with
    | [] => Ok status st
    | e :: l' =>
        bind (one e (upd e (with_considered (s_pass st)) st)) (fun new st =>
        if bad new && negb keep_going then Ok new st
        else if busy e st then Ok Success st
        else entries_loop one l' (us_max status new) st)
    end.
  Definition update_file (one : nat -> state -> res us) (f : nat) (st : state) : res us :=
    let b := s_files st (base f) in
    if f_considered b =? s_pass st then Ok (if cs_eqb (f_state b) Finished then f_status b else Success) st
    else entries_loop one (chain (base f)) Success st.

  Section Open.
    Variable one : nat -> state -> res us.
    Variable check : nat -> time -> bool -> state -> res (us * bool).

    (** src/remake.c:536-636: the first walk over the prerequisites of [f].  The list is written
        back at its end; nobody looks at it meanwhile. *)
    Fixpoint loop1 (f : nat) (this : time) (ds kept : list dep) (must : bool) (dst : us) (running : bool) (st : state) : res (list dep * bool * us * bool) :=
      match ds with
      | [] => Ok (kept, must, dst, running) st
      | d :: ds' =>
          let '(mtime, st) := file_mtime (d_file d) st in
          if is_updating (d_file d) st then loop1 f this ds' kept must dst running (emit (Drop f (d_file d)) st)
          else
            bind (check (d_file d) this must st) (fun r st =>
            let '(new, maybe) := r in
            let dst := us_max dst new in
            let must := if d_order d then must else maybe in
            let running := running || existsb (fun e => busy e st) (chain (base (d_file d))) in
            if bad dst && negb keep_going then Ok (kept ++ d :: ds', must, dst, running) st
            else if running then loop1 f this ds' (kept ++ [d]) must dst running st
            else
              let '(mtime', st) := file_mtime (d_file d) st in
              loop1 f this ds' (kept ++ [mkdep (d_file d) (d_order d) (negb (time_eqb mtime' mtime) || time_eqb mtime Absent)]) must dst running st)
      end.

    (** src/remake.c:638-692: the intermediate prerequisites. *)
    Fixpoint loop2 (f : nat) (ds kept : list dep) (dst : us) (running : bool) (st : state) : res (list dep * us * bool) :=
      match ds with
      | [] => Ok (kept, dst, running) st
      | d :: ds' =>
          if f_intermediate (s_files st (d_file d)) then
            let '(mtime, st) := file_mtime (d_file d) st in
            bind (update_file one (d_file d) (upd (d_file d) (with_considered 0) st)) (fun new st =>
            let dst := us_max dst new in
            let running := running || existsb (fun e => busy e st) (chain (base (d_file d))) in
            if bad dst && negb keep_going then Ok (kept ++ d :: ds', dst, running) st
            else if running then loop2 f ds' (kept ++ [d]) dst running st
            else
              let '(mtime', st) := file_mtime (d_file d) st in
              loop2 f ds' (kept ++ [mkdep (d_file d) (d_order d) ((phony f && cmds f) || negb (time_eqb mtime' mtime))]) dst running st)
          else loop2 f ds' (kept ++ [d]) dst running st
      end.

    (** src/remake.c:746-800: which prerequisites are newer. *)
    Fixpoint loop3 (this : time) (ds kept : list dep) (must changed : bool) (st : state) : list dep * bool * bool * state :=
      match ds with
      | [] => (kept, must, changed, st)
      | d :: ds' =>
          let '(m, st) := file_mtime (d_file d) st in
          let must' := if d_order d then must else must || (time_eqb m Absent && negb (f_intermediate (s_files st (d_file d)))) in
          let changed' := if d_order d then changed else changed || d_changed d in
          loop3 this ds' (kept ++ [mkdep (d_file d) (d_order d) (d_changed d || time_eqb this Absent || newer m this)]) must' changed' st
      end.

    (** src/remake.c:705-897: what follows when the prerequisites have been looked at. *)
    Definition decide (f : nat) (this : time) (must : bool) (dst : us) (running : bool) (st : state) : res us :=
      if running then Ok Success (upd f (with_state DepsRunning) st)
      else if bad dst then
        Ok dst (notice_finished_file f (upd f (with_status (if us_rank dst =? 1 then Failed else dst)) st))
      else
        let st := if cs_eqb (f_state (s_files st f)) DepsRunning then upd f (with_state NotStarted) st else st in
        let '(ds, must, changed, st) := loop3 this (f_deps (s_files st f)) [] must false st in
        let st := upd f (with_deps ds) st in
        let must :=
          if double f && match ds with [] => true | _ => false end then true
          else if negb (time_eqb this Absent) && is_target f && negb changed && negb (cmds f) && negb always then false
          else if negb must && cmds f && always then true
          else must in
        if must then
          bind (remake_file f st) (fun _ st =>
          if cs_eqb (f_state (s_files st f)) Finished then Ok (f_status (s_files st f)) (upd f (with_updated true) st)
          else Ok Success st)
        else Ok Success (notice_finished_file f st).
    (** src/remake.c:411-897 update_file_1. *)
    Definition update_file_1 (f : nat) (st : state) : res us :=
      let x := s_files st f in
      if f_updated x then Ok (if 1 <? us_rank (f_status x) then f_status x else Success) st
      else
        match f_state x with
        | Running => Ok Success st
        | Finished => Ok (f_status x) st
        | _ =>
            let st := set_updating f true st in
            let '(this, st) := file_mtime f st in
            let st := if negb (phony f) && negb (cmds f) then upd f (with_tried true) st else st in
            bind (loop1 f this (f_deps (s_files st f)) [] (time_eqb this Absent) Success false st) (fun r st =>
            let '(ds, must, dst, running) := r in
            let st := upd f (with_deps ds) st in
            bind
              (if must || always then
                 bind (loop2 f ds [] dst running st) (fun r st => let '(ds, dst, running) := r in Ok (dst, running) (upd f (with_deps ds) st))
               else Ok (dst, running) st) (fun r st =>
            decide f this must (fst r) (snd r) (set_updating f false st)))
        end.

    (** src/remake.c:1136-1171: the walk of check_dep over the prerequisites of an intermediate
        file. *)
    Fixpoint check_loop (f : nat) (this : time) (ds kept : list dep) (must : bool) (dst : us) (running : bool) (st : state) : res (list dep * bool * us * bool) :=
      match ds with
      | [] => Ok (kept, must, dst, running) st
      | d :: ds' =>
          if is_updating (d_file d) st then check_loop f this ds' kept must dst running (emit (Drop f (d_file d)) st)
          else
            bind (check (d_file d) this must st) (fun r st =>
            let '(new, maybe) := r in
            let dst := us_max dst new in
            let must := if d_order d then must else maybe in
            if bad dst && negb keep_going then Ok (kept ++ d :: ds', must, dst, running) st
            else check_loop f this ds' (kept ++ [d]) must dst (running || busy (d_file d) st) st)
      end.
    (** src/remake.c:1044-1186 check_dep. *)
    Definition check_dep (f : nat) (this : time) (must : bool) (st : state) : res (us * bool) :=
      let st := set_updating f true st in
      if phony f || negb (f_intermediate (s_files st f)) then
        bind (update_file one f st) (fun new st =>
        let '(m, st) := file_mtime f st in
        Ok (new, must || time_eqb m Absent || newer m this) (set_updating f false st))
      else
        let st := if negb (cmds f) then upd f (with_tried true) st else st in
        let '(m, st) := file_mtime f st in
        if negb (time_eqb m Absent) && newer m this then Ok (Success, true) (set_updating f false st)
        else
          let st :=
            match f_state (s_files st f) with
            | Running => st
            | DepsRunning => upd f (fun x => with_state NotStarted (with_considered 0 x)) st
            | _ => upd f (with_state NotStarted) st
            end in
          bind (check_loop f this (f_deps (s_files st f)) [] must Success false st) (fun r st =>
          let '(ds, must, dst, running) := r in
          let st := upd f (with_deps ds) st in
          let st := if running then upd f (with_state DepsRunning) st else st in
          Ok (dst, must) (set_updating f false st)).
  End Open.

  (** The recursion of the two. *)
  Fixpoint engine (fuel : nat) : (nat -> state -> res us) * (nat -> time -> bool -> state -> res (us * bool)) :=
    match fuel with
    | 0 => (fun _ _ => Out, fun _ _ _ _ => Out)
    | S fuel' => let e := engine fuel' in (update_file_1 (fst e) (snd e), check_dep (fst e) (snd e))
    end.

  (** src/remake.c:84-260 update_goal_chain: one walk over the goals.  STATUS is kept apart from
      "nothing was done" ([NoAttempt]) only where a goal has failed.  The third result: -q has
      triggered. *)
  Fixpoint goal_entries (fuel : nat) (l : list nat) (status : us) (undone : bool) (st : state) : res (us * bool * bool) :=
    match l with
    | [] => Ok (status, undone, false) st
    | e :: l' =>
        bind (update_file (fst (engine fuel)) e st) (fun fail st =>
        let x := s_files st e in
        let hit := (bad fail || f_updated x) && (us_rank status <? 2) && bad (f_status x) in
        let status := if hit then f_status x else status in
        let undone := undone || negb (f_updated x) in
        if hit && negb keep_going && match how with Ask => true | _ => false end then Ok (status, undone, true) st
        else goal_entries fuel l' status undone st)
    end.
  Fixpoint goals_pass (fuel : nat) (gs : list nat) (status : us) (st : state) : res (us * list nat * bool) :=
    match gs with
    | [] => Ok (status, [], false) st
    | g :: gs' =>
        bind (goal_entries fuel (chain (base g)) status false st) (fun r st =>
        let '(status, undone, stop) := r in
        if stop then Ok (status, gs', true) st
        else
          bind (goals_pass fuel gs' status st) (fun r st =>
          let '(status, rest, stop) := r in
          Ok (status, if undone then g :: rest else rest, stop) st))
    end.
  (** src/remake.c:104-253.  Before each walk make waits for a child, if there is one, and reaps
      those that have ended. *)
  Fixpoint update_goals (passes fuel : nat) (gs : list nat) (status : us) (st : state) : res us :=
    match gs with
    | [] => Ok status st
    | _ =>
        match passes with
        | 0 => Out
        | S passes' =>
            bind (reaps (S (t_after (world (s_clock st)))) st) (fun _ st =>
            bind (goals_pass fuel gs status st) (fun r st =>
            let '(status, rest, stop) := r in
            let st := if stop then st else mkstate (s_files st) (s_disk st) (s_jobs st) (s_clock st) (s_trace st) (S (s_pass st)) in
            update_goals passes' fuel rest status st))
        end
    end.
  (** The counter CONSIDERED is incremented at the beginning (src/remake.c:100-101). *)
  Definition update_goal_chain (passes fuel : nat) (gs : list nat) (st : state) : res us :=
    update_goals passes fuel gs NoAttempt (mkstate (s_files st) (s_disk st) (s_jobs st) (s_clock st) (s_trace st) (S (s_pass st))).
End Engine.

(** The files when the goals are first updated: nothing is known of them (src/file_basic.c:129-175
    enter_file; UNKNOWN_MTIME is 0), but snap_deps has marked the prerequisites of .PHONY
    (src/file.c:601-611). *)
Definition initial (deps : nat -> list dep) (phony inter tried : nat -> bool) (disk : nat -> time) (clock : nat) : state :=
  mkstate (fun f => mkfile (deps f) (if phony f then Some Absent else None) 0 NoAttempt NotStarted false false (inter f) (tried f)) disk [] clock [] 0.
(** The makefile as read, the options, and the world.  No target has several double-colon rules. *)
Record make := mkmake {
  m_deps : nat -> list dep; m_phony : nat -> bool; m_target : nat -> bool; m_cmds : nat -> bool; m_blank : nat -> bool; m_double : nat -> bool;
  m_inter : nat -> bool; m_tried : nat -> bool; m_keep : bool; m_always : bool; m_how : mode; m_world : nat -> tick }.
Definition build (m : make) (disk : nat -> time) (clock passes fuel : nat) (goals : list nat) : res us :=
  update_goal_chain (m_phony m) (m_target m) (m_cmds m) (m_blank m) (m_double m) (fun f => f) (fun f => [f]) (m_keep m) (m_always m) (m_how m) (m_world m)
    passes fuel goals (initial (m_deps m) (m_phony m) (m_inter m) (m_tried m) disk clock).
