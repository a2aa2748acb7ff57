(** Output of parallel jobs (-O): temporary files, the lock, and what arrives on the terminal. *)
From Verif Require Import Base.
Open Scope list_scope.
Open Scope nat_scope.

(** makeint.h OUTPUT_SYNC_NONE .. OUTPUT_SYNC_RECURSE; src/main.c:743-762. *)
Inductive mode := M_none | M_line | M_target | M_recurse.
Definition syncs (o : mode) : bool := match o with M_none => false | _ => true end.
Definition per_dump (o : mode) : bool := match o with M_line | M_target => true | _ => false end.

(** output_sync; print_directory (-w); combined_output (src/output.c:199-204); sizeof (buffer) (src/output.c:222).
    All makes of the build are given the same options, and have the same stdout and stderr; both are open. *)
Record config := mkconfig { c_mode : mode; c_print : bool; c_same : bool; c_size : nat }.

(** src/output.h:20-25 struct output.  The temporary files are here with their content; [o_same]: err == out
    (then [o_err] is not used). *)
Record output := mkoutput { o_out : option str; o_err : option str; o_same : bool; o_sync : bool }.

(** What has been written to the terminal: by which make, for which child, and whether by output_dump.
    A text with the stream it was written to, or the lines of log_working_directory (src/output.c:79-138). *)
Inductive what := Text (err : bool) (t : str) | Enter | Leave.
Record entry := mkentry { e_make : nat; e_kid : option nat; e_dump : bool; e_what : what }.

(** struct child: its output; a command of it is running; a command is about to be run; the child has been freed. *)
Record kid := mkkid { k_out : output; k_runs : bool; k_ready : bool; k_done : bool }.

(** What a make does inside output_dump: wait for the lock, or write.  [close]: it was called by output_close. *)
Inductive task :=
| T_wait (c : nat) (close : bool)
| T_pump (c : nat) (close : bool) (held : bool) (pending : list entry).
Record make := mkmake { m_kids : nat -> option kid; m_traced : bool; m_task : option task; m_quit : bool }.
Record state := mkstate { s_makes : nat -> make; s_lock : option nat; s_term : list entry }.

Definition upd {A} (f : nat -> A) (n : nat) (a : A) : nat -> A := fun k => if k =? n then a else f k.
Definition init : state := mkstate (fun _ => mkmake (fun _ => None) false None false) None [].

(** What happens: in make [m], or in a command it has started. *)
Inductive event :=
| New (c : nat)                            (** src/job.c:1502 output_init in new_job *)
| Start (c : nat) (recursive : bool)       (** src/job.c:1136-1149 start_job_command *)
| Say (c : nat) (err : bool) (t : str)     (** outputs, with the output of [c] set: the echo of a command, $(info), child_error *)
| Run (c : nat)                            (** src/job.c:1214-1215, then the command is started *)
| Write (c : nat) (err : bool) (t : str)   (** the command writes *)
| Exit (c : nat)                           (** the command has ended *)
| Next (c : nat)                           (** src/job.c:849-854 there are more commands *)
| Finish (c : nat)                         (** src/job.c:887 and 968: output_dump, output_close *)
| Acquire (ok : bool)                      (** src/output.c:251-264; [ok] = false: fcntl failed *)
| Pump                                     (** one fwrite or one line of log_working_directory *)
| Release                                  (** src/output.c:386-403 *)
| Quit.                                    (** src/main.c:3321 output_close (NULL) *)

Section Output.
  Variable cfg : config.

  (** src/output.c:458-463. *)
  Definition output_init : output := mkoutput None None false (syncs (c_mode cfg)).

  (** src/output.c:315-353 setup_tmpfile; the files can be created (otherwise make stops). *)
  Definition setup_tmpfile (o : output) : output :=
    if c_same cfg then mkoutput (Some []) None true (o_sync o)
    else mkoutput (Some []) (Some []) false (o_sync o).
  (** src/output.c:49 OUTPUT_ISSET. *)
  Definition is_set (o : output) : bool := match o_out o, o_err o with None, None => false | _, _ => true end.

  (** src/output.c:513-528 output_start; the output, stdio_traced, and what is written. *)
  Definition output_start (m : nat) (o : output) (traced : bool) : output * bool * list entry :=
    let o' := if o_sync o && negb (is_set o) then setup_tmpfile o else o in
    if negb (per_dump (c_mode cfg)) && negb traced && c_print cfg
    then (o', true, [mkentry m None false Enter])
    else (o', traced, []).

  (** src/output.c:57-74 _outputs (with o_sync the file is written at its end), and the same for the descriptors
      handed to a command (src/job.c:1998-2024): a file if there is one, else the real stdout or stderr. *)
  Definition put (m c : nat) (o : output) (err : bool) (t : str) : output * list entry :=
    let direct := (o, [mkentry m (Some c) false (Text err t)]) in
    if o_sync o then
      if err && negb (o_same o) then
        match o_err o with
        | Some s => (mkoutput (o_out o) (Some (s ++ t)) (o_same o) (o_sync o), [])
        | None => direct
        end
      else
        match o_out o with
        | Some s => (mkoutput (Some (s ++ t)) (o_err o) (o_same o) (o_sync o), [])
        | None => direct
        end
    else direct.

  (** src/output.c:173 FD_NOT_EMPTY. *)
  Definition not_empty (f : option str) : bool := match f with Some (_ :: _) => true | _ => false end.
  Definition some_output (o : output) : bool := not_empty (o_out o) || not_empty (o_err o).

  (** src/output.c:236-249 pump_from_tmp: the buffers it writes. *)
  Fixpoint buffers (fuel : nat) (s : str) : list str :=
    match fuel, s with
    | _, [] => []
    | 0, _ => [s]
    | S k, _ => firstn (c_size cfg) s :: buffers k (skipn (c_size cfg) s)
    end.
  Definition pump (m c : nat) (err : bool) (f : option str) : list entry :=
    match f with
    | Some s => map (fun t => mkentry m (Some c) true (Text err t)) (buffers (length s) s)
    | None => []
    end.

  (** src/output.c:373-384: what is written while the lock is held. *)
  Definition dump_entries (m c : nat) (o : output) : list entry :=
    let traced := c_print cfg && per_dump (c_mode cfg) in
    (if traced then [mkentry m None true Enter] else [])
    ++ pump m c false (o_out o) ++ pump m c true (o_err o)
    ++ (if traced then [mkentry m None true Leave] else []).

  (** src/output.c:391-402: the files are emptied. *)
  Definition empty (f : option str) : option str := match f with Some _ => Some [] | None => None end.
  Definition truncated (o : output) : output := mkoutput (empty (o_out o)) (empty (o_err o)) (o_same o) (o_sync o).

  Definition set_kid (M : make) (c : nat) (k : kid) : make := mkmake (upd (m_kids M) c (Some k)) (m_traced M) (m_task M) (m_quit M).
  Definition set_task (M : make) (t : option task) : make := mkmake (m_kids M) (m_traced M) t (m_quit M).

  (** src/output.c:490-509 output_close, after the dump. *)
  Definition closed (k : kid) : kid := mkkid output_init false false true.

  (** src/output.c:360-369: output_dump begins, unless there is nothing to write. *)
  Definition begin_dump (M : make) (c : nat) (k : kid) (close : bool) : make :=
    if some_output (k_out k) then set_task (set_kid M c k) (Some (T_wait c close))
    else set_kid M c (if close then closed k else k).

  Definition idle (M : make) : bool := match m_task M with None => negb (m_quit M) | _ => false end.
  Definition live (M : make) (c : nat) : option kid :=
    match m_kids M c with Some k => if k_done k then None else Some k | None => None end.
  (** A child make may deal with: make is not inside output_dump, and no command of the child is running. *)
  Definition at_rest (M : make) (c : nat) : option kid :=
    match live M c with Some k => if idle M && negb (k_runs k) then Some k else None | None => None end.

  (** What make [m] does by itself: its new state, and what it writes.  [None]: this cannot happen now. *)
  Definition act (m : nat) (M : make) (e : event) : option (make * list entry) :=
    match e with
    | New c =>
        match m_kids M c with
        | None => if idle M then Some (set_kid M c (mkkid output_init false false false), []) else None
        | Some _ => None
        end
    | Start c recursive =>
        match at_rest M c with
        | Some k =>
            let o := k_out k in
            let sync := syncs (c_mode cfg) && (match c_mode cfg with M_recurse => true | _ => negb recursive end) in
            let k' := mkkid (mkoutput (o_out o) (o_err o) (o_same o) sync) false true false in
            Some (if sync then set_kid M c k' else begin_dump M c k' false, [])
        | None => None
        end
    | Say c err t =>
        match at_rest M c, t with
        | Some k, _ :: _ =>
            let '(o1, traced, es) := output_start m (k_out k) (m_traced M) in
            let (o2, es') := put m c o1 err t in
            Some (set_kid (mkmake (m_kids M) traced (m_task M) (m_quit M)) c (mkkid o2 false (k_ready k) false), es ++ es')
        | _, _ => None
        end
    | Run c =>
        match at_rest M c with
        | Some k =>
            if k_ready k then
              let '(o1, traced, es) := output_start m (k_out k) (m_traced M) in
              Some (set_kid (mkmake (m_kids M) traced (m_task M) (m_quit M)) c (mkkid o1 true false false), es)
            else None
        | None => None
        end
    | Write c err t =>
        match live M c with
        | Some k =>
            if k_runs k then
              let (o, es) := put m c (k_out k) err t in
              Some (set_kid M c (mkkid o true (k_ready k) false), es)
            else None
        | None => None
        end
    | Exit c =>
        match live M c with
        | Some k => if k_runs k then Some (set_kid M c (mkkid (k_out k) false (k_ready k) false), []) else None
        | None => None
        end
    | Next c =>
        match at_rest M c with
        | Some k => match c_mode cfg with
                    | M_line => Some (begin_dump M c k false, [])
                    | _ => Some (M, [])
                    end
        | None => None
        end
    | Finish c =>
        match at_rest M c with
        | Some k => Some (begin_dump M c k true, [])
        | None => None
        end
    | Acquire ok =>
        match m_task M with
        | Some (T_wait c close) =>
            match m_kids M c with
            | Some k => Some (set_task M (Some (T_pump c close ok (dump_entries m c (k_out k)))), [])
            | None => None
            end
        | _ => None
        end
    | Pump =>
        match m_task M with
        | Some (T_pump c close held (x :: l)) => Some (set_task M (Some (T_pump c close held l)), [x])
        | _ => None
        end
    | Release =>
        match m_task M with
        | Some (T_pump c close held []) =>
            match m_kids M c with
            | Some k =>
                let k' := mkkid (truncated (k_out k)) (k_runs k) (k_ready k) (k_done k) in
                Some (set_task (set_kid M c (if close then closed k' else k')) None, [])
            | None => None
            end
        | _ => None
        end
    | Quit =>
        if idle M then
          Some (mkmake (m_kids M) (m_traced M) None true, if m_traced M then [mkentry m None false Leave] else [])
        else None
    end.

  (** F_SETLKW: the lock is had by one make at a time (src/output.c:251-276). *)
  Definition lock_after (m : nat) (M : make) (e : event) (l : option nat) : option (option nat) :=
    match e with
    | Acquire true => match l with None => Some (Some m) | Some _ => None end
    | Release => match m_task M with Some (T_pump _ _ true _) => Some None | _ => Some l end
    | _ => Some l
    end.

  Definition step (st : state) (m : nat) (e : event) : option state :=
    match act m (s_makes st m) e, lock_after m (s_makes st m) e (s_lock st) with
    | Some (M', es), Some l => Some (mkstate (upd (s_makes st) m M') l (s_term st ++ es))
    | _, _ => None
    end.

  Fixpoint run (st : state) (es : list (nat * event)) : option state :=
    match es with
    | [] => Some st
    | (m, e) :: l => match step st m e with Some st' => run st' l | None => None end
    end.
End Output.
