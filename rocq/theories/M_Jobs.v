(** Jobs, job slots and the jobserver: a transition system for any number of
    make processes sharing one pipe.

    Every process is a [mk]; the commands it runs hang below it as its chain of
    children, so a whole build is a tree (and, once a process has died leaving
    children behind, a forest).  One step is one uninterrupted piece of work of
    one process; anything may happen in the other processes between two steps.

    What is left to chance (the outside world) is chosen freely by each step:
    when a command exits and with what status, whether the system load is too
    high, whether starting a command works, whether a command line is a
    sub-make, when a signal interrupts the wait for a token.

    Not modelled: remote jobs, failing writes to the pipe, the $(shell)
    child, exits by a fatal signal, re-executing make, a limited pipe size. *)
From Verif Require Import Base.

(** src/job.h: struct child; [c_slot] is the field [jobslot], [c_job] stands
    for the process behind [pid].  [c_id] identifies the structure (its
    address). *)
Record child (J : Type) := Child {
  c_id : nat;
  c_slot : bool;
  c_job : J
}.
Arguments Child {J}. Arguments c_id {J}. Arguments c_slot {J}. Arguments c_job {J}.

(** Where [start_waiting_jobs] returns to. *)
Inductive ret := RIdle | RNew | RLoop.

(** Where a process is between two steps.
    [PIdle]: outside of new_job.  [PSW r]: in the loop of start_waiting_jobs
    (src/job.c:1968-1993), called from [r].  [PReady]: in new_job, in
    front of the wait for a job slot.  [PTop]: at the top of the token loop.
    [PLoop]: in the token loop, the free token is in use.  [PCheck]: after
    start_waiting_jobs in the token loop.  [PAsleep]: in jobserver_acquire.
    [PLinear c]: at the end of new_job, waiting for [c].  [PDie s]: in die(s).
    [PGone s]: die(s) was called a second time, which exits on the spot
    (src/main.c:3279-3330).  [PInternal]: one of the two INTERNAL errors was reported.
    [PCrash]: freed memory was used. *)
Inductive pc :=
  | PIdle | PSW (r : ret) | PReady | PTop | PLoop | PCheck | PAsleep
  | PLinear (c : nat) | PDie (s : nat) | PGone (s : nat) | PInternal | PCrash.

(** The globals of one make process: src/main.c:197 job_slots, src/job.c
    job_slots_used, jobserver_tokens, children, waiting_jobs;
    src/posixos.c jobserver_enabled; -k and .NOTPARALLEL; debugger_enabled.
    [m_next] is the next fresh address. *)
Record mk (J : Type) := Mk {
  m_slots : nat;
  m_js : bool;
  m_kflag : bool;
  m_np : bool;
  m_dbg : bool;
  m_used : nat;
  m_tokens : nat;
  m_next : nat;
  m_chain : list (child J);
  m_wait : list nat;
  m_pc : pc
}.
Arguments Mk {J}. Arguments m_slots {J}. Arguments m_js {J}. Arguments m_kflag {J}.
Arguments m_np {J}. Arguments m_dbg {J}. Arguments m_used {J}. Arguments m_tokens {J}.
Arguments m_next {J}. Arguments m_chain {J}. Arguments m_wait {J}. Arguments m_pc {J}.

(** What a child process is.  [JLeaf]: a command that is running.  [JBad]: the
    command could not be started (pid < 0).  [JExited s]: a sub-make that has
    exited with status [s] and not been waited for.  [JFreed]: the child
    structure is still on the chain though it was freed (src/job.c:801-807).
    [JMake m]: a running sub-make. *)
Inductive job :=
  | JLeaf | JBad | JFreed
  | JExited (s : nat)
  | JMake (m : mk job).

Notation make := (mk job).

Definition set_pc (p : pc) (m : make) : make :=
  Mk (m_slots m) (m_js m) (m_kflag m) (m_np m) (m_dbg m) (m_used m) (m_tokens m)
     (m_next m) (m_chain m) (m_wait m) p.
Definition set_used (u : nat) (m : make) : make :=
  Mk (m_slots m) (m_js m) (m_kflag m) (m_np m) (m_dbg m) u (m_tokens m)
     (m_next m) (m_chain m) (m_wait m) (m_pc m).
Definition set_tokens (t : nat) (m : make) : make :=
  Mk (m_slots m) (m_js m) (m_kflag m) (m_np m) (m_dbg m) (m_used m) t
     (m_next m) (m_chain m) (m_wait m) (m_pc m).
Definition set_chain (l : list (child job)) (m : make) : make :=
  Mk (m_slots m) (m_js m) (m_kflag m) (m_np m) (m_dbg m) (m_used m) (m_tokens m)
     (m_next m) l (m_wait m) (m_pc m).
Definition set_wait (w : list nat) (m : make) : make :=
  Mk (m_slots m) (m_js m) (m_kflag m) (m_np m) (m_dbg m) (m_used m) (m_tokens m)
     (m_next m) (m_chain m) w (m_pc m).
Definition bump (m : make) : make :=
  Mk (m_slots m) (m_js m) (m_kflag m) (m_np m) (m_dbg m) (m_used m) (m_tokens m)
     (S (m_next m)) (m_chain m) (m_wait m) (m_pc m).

(** A make process that has just started. *)
Definition fresh (slots : nat) (js k np dbg : bool) : make :=
  Mk slots js k np dbg 0 0 0 [] [] PIdle.

(** src/job.c:964-986 free_child, as far as tokens go; the first component is
    the number of tokens in the pipe (src/posixos.c:178 jobserver_release
    writes one). *)
Definition free_child (pipe : nat) (m : make) : nat * make :=
  match m_tokens m with
  | 0 => (pipe, set_pc PInternal m)
  | S t => (if m_js m && (1 <? m_tokens m) then S pipe else pipe, set_tokens t m)
  end.

(** What start_job_command comes to (src/job.c:1018-1404): the command runs
    (as a plain command or as a sub-make), it could not be started, or there
    was nothing (left) to run. *)
Inductive started := SRun (j : job) | SFail | SDone.

(** src/job.c:1411-1475 start_waiting_job for the child [id].  [high] is the
    answer of load_too_high.  The flag tells whether the child was started. *)
Definition start_waiting_job (high : bool) (s : started) (id pipe : nat) (m : make)
  : bool * (nat * make) :=
  if (0 <? m_used m) && high then (false, (pipe, set_wait (id :: m_wait m) m))
  else
    (true,
     match s with
     | SRun j =>
         (pipe, set_chain (Child id true j :: m_chain m) (set_used (S (m_used m)) m))
     | SFail => (pipe, set_chain (Child id false JBad :: m_chain m) m)
     | SDone => free_child pipe m
     end).

(** src/job.c:1694-1746: the end of new_job, once a slot or token is there. *)
Definition launch (high : bool) (s : started) (pipe : nat) (m : make) : nat * make :=
  let id := m_next m in
  let '(_, (pipe', m')) :=
    start_waiting_job high s id pipe (bump (set_tokens (S (m_tokens m)) m)) in
  match m_pc m' with
  | PInternal => (pipe', m')
  | _ =>
    (pipe', set_pc (if (m_slots m =? 1) || m_np m then PLinear id else PIdle) m')
  end.

(** Where start_waiting_jobs goes on. *)
Definition return_to (r : ret) : pc :=
  match r with RIdle => PIdle | RNew => PReady | RLoop => PCheck end.

(** What came of a child that was waited for (src/job.c:731-905).
    [OQuit]: a debugger "quit" in the child.  [OEnd f]: all commands are
    finished; [f] is 0 or the status of an error that counts.  [ONext j]: the
    next command line of the recipe was started ([JBad] if that failed). *)
Inductive outcome := OQuit | OEnd (f : nat) | ONext (j : job).

Definition quit_status : nat := 77.

(** src/job.c:731-955: what reap_children does with the child [c], which has
    [l1] in front of it and [l2] behind it on the chain. *)
Definition process_child (o : outcome) (l1 : list (child job)) (c : child job)
    (l2 : list (child job)) (pipe : nat) (m : make) : nat * make :=
  match o with
  | OQuit =>
      let m1 := set_used (pred (m_used m)) m in
      let '(pipe', m2) := free_child pipe m1 in
      match m_pc m2 with
      | PInternal => (pipe', m2)
      | p =>
        (pipe', set_pc (match p with PDie _ => PGone quit_status | _ => PDie quit_status end)
                  (set_chain (l1 ++ Child (c_id c) (c_slot c) JFreed :: l2) m2))
      end
  | ONext j => (pipe, set_chain (l1 ++ Child (c_id c) (c_slot c) j :: l2) m)
  | OEnd f =>
      let m1 := set_used (if c_slot c then pred (m_used m) else m_used m) m in
      let '(pipe', m2) := free_child pipe (set_chain (l1 ++ l2) m1) in
      match m_pc m2 with
      | PInternal | PDie _ => (pipe', m2)
      | _ =>
        if negb (f =? 0) && negb (m_kflag m) then (pipe', set_pc (PDie f) m2)
        else (pipe', m2)
      end
  end.

(** The places where reap_children is called. *)
Definition reaping (m : make) : bool :=
  match m_pc m with
  | PIdle | PSW _ | PReady | PLoop | PLinear _ => true
  | PDie _ => 0 <? m_used m
  | _ => false
  end.

(** src/main.c:3237-3256 clean_jobserver, the part every process runs. *)
Definition clean_jobserver (s pipe : nat) (m : make) : nat :=
  if m_js m && (0 <? m_tokens m) && (s =? 2) then pipe + pred (m_tokens m) else pipe.

Section Steps.

(** What may happen in the executions looked at: [allow_fail]: commands may
    fail to start.  [allow_load]: the load may be too high.  [allow_loss]: a
    make may exit with a status other than 2 while it still has children or
    waiting jobs.  [allow_quit]: "quit" may be typed in the debugger of a
    sub-make. *)
Record allowed := Allow {
  allow_fail : bool;
  allow_load : bool;
  allow_loss : bool;
  allow_quit : bool
}.
Variable A : allowed.

(** The processes a command line can start: a plain command, or a sub-make
    that shares the jobserver (src/job.c:1277 jobserver_pre_child). *)
Inductive newborn (js : bool) : job -> Prop :=
  | nb_leaf : newborn js JLeaf
  | nb_make : forall k np dbg, js = true -> newborn js (JMake (fresh 0 true k np dbg)).

Inductive starting (js : bool) : started -> Prop :=
  | st_run : forall j, newborn js j -> starting js (SRun j)
  | st_fail : allow_fail A = true -> starting js SFail
  | st_done : starting js SDone.

Definition load_ok (high : bool) : Prop := high = true -> allow_load A = true.

(** Children wait() or the search for pid < 0 can find, and what may come of
    them. *)
Inductive ended (m : make) : job -> outcome -> Prop :=
  | en_end : forall j f, j <> JFreed -> (forall m', j <> JMake m') -> ended m j (OEnd f)
  | en_next : forall j j', j <> JFreed -> (forall m', j <> JMake m') ->
      newborn (m_js m) j' -> ended m j (ONext j')
  | en_bad : forall j, j <> JFreed -> (forall m', j <> JMake m') ->
      allow_fail A = true -> ended m j (ONext JBad)
  | en_quit : allow_quit A = true -> m_dbg m = true ->
      ended m (JExited quit_status) OQuit.

(** One step of one process.  The numbers are the tokens in the pipe. *)
Inductive lstep : nat -> make -> nat -> make -> Prop :=
  (** new_job is called (src/job.c:1481-1493), or update_goal_chain calls
      start_waiting_jobs (src/remake.c). *)
  | ls_new : forall p m, m_pc m = PIdle -> lstep p m p (set_pc (PSW RNew) m)
  | ls_goals : forall p m, m_pc m = PIdle -> lstep p m p (set_pc (PSW RIdle) m)
  (** start_waiting_jobs (src/job.c:1968-1993). *)
  | ls_sw_none : forall p m r, m_pc m = PSW r -> m_wait m = [] ->
      lstep p m p (set_pc (return_to r) m)
  | ls_sw : forall p m r id w high s b p' m', m_pc m = PSW r -> m_wait m = id :: w ->
      load_ok high -> starting (m_js m) s ->
      start_waiting_job high s id p (set_wait w m) = (b, (p', m')) ->
      lstep p m p'
        (match m_pc m' with
         | PInternal => m'
         | _ => if b then m' else set_pc (return_to r) m'
         end)
  (** reap_children (src/job.c:477-960). *)
  | ls_reap : forall p m l1 c l2 o p' m', reaping m = true ->
      (forall c', In c' (m_chain m) -> c_job c' <> JFreed) ->
      m_chain m = l1 ++ c :: l2 -> ended m (c_job c) o ->
      process_child o l1 c l2 p m = (p', m') ->
      lstep p m p' m'
  | ls_reap_crash : forall p m c, reaping m = true ->
      In c (m_chain m) -> c_job c = JFreed ->
      lstep p m p (set_pc PCrash m)
  (** new_job, waiting for a slot (src/job.c:1633-1635). *)
  | ls_slot : forall p m high s p' m', m_pc m = PReady -> m_slots m <> 0 ->
      m_used m <> m_slots m -> load_ok high -> starting (m_js m) s ->
      launch high s p m = (p', m') -> lstep p m p' m'
  | ls_unlimited : forall p m high s p' m', m_pc m = PReady -> m_slots m = 0 ->
      m_js m = false -> load_ok high -> starting (m_js m) s ->
      launch high s p m = (p', m') -> lstep p m p' m'
  (** new_job, waiting for a token (src/job.c:1650-1694). *)
  | ls_enter : forall p m, m_pc m = PReady -> m_slots m = 0 -> m_js m = true ->
      lstep p m p (set_pc PTop m)
  | ls_free : forall p m high s p' m', m_pc m = PTop \/ m_pc m = PCheck ->
      m_tokens m = 0 -> load_ok high -> starting (m_js m) s ->
      launch high s p m = (p', m') -> lstep p m p' m'
  | ls_loop : forall p m, m_pc m = PTop -> m_tokens m <> 0 ->
      lstep p m p (set_pc PLoop m)
  | ls_waiting : forall p m, m_pc m = PLoop -> lstep p m p (set_pc (PSW RLoop) m)
  | ls_nochild : forall p m, m_pc m = PCheck -> m_tokens m <> 0 -> m_chain m = [] ->
      lstep p m p (set_pc PInternal m)
  | ls_sleep : forall p m, m_pc m = PCheck -> m_tokens m <> 0 -> m_chain m <> [] ->
      lstep p m p (set_pc PAsleep m)
  | ls_token : forall p m high s p' m', m_pc m = PAsleep -> load_ok high ->
      starting (m_js m) s -> launch high s p m = (p', m') ->
      lstep (S p) m p' m'
  | ls_wake : forall p m, m_pc m = PAsleep -> lstep p m p (set_pc PTop m)
  (** new_job, making things run linearly (src/job.c:1739-1743). *)
  | ls_linear : forall p m id, m_pc m = PLinear id ->
      (forall c, In c (m_chain m) -> c_id c <> id) -> ~ In id (m_wait m) ->
      lstep p m p (set_pc PIdle m)
  (** fatal errors and the end of main. *)
  | ls_die : forall p m s, reaping m = true -> (forall s', m_pc m <> PDie s') ->
      s = 2 \/ m_pc m = PIdle ->
      lstep p m p (set_pc (PDie s) m).

(** One step anywhere in a job; the list holds the jobs left without a parent.
    [js_exit]: the end of die (src/main.c:3289-3305). *)
Inductive jstep : nat -> job -> nat -> job -> list job -> Prop :=
  | js_here : forall p m p' m', lstep p m p' m' -> jstep p (JMake m) p' (JMake m') []
  | js_exit : forall p m s, m_pc m = PDie s -> m_used m = 0 ->
      (m_tokens m <> 0 -> s <> 2 -> allow_loss A = true) ->
      jstep p (JMake m) (clean_jobserver s p m) (JExited s) (map c_job (m_chain m))
  | js_gone : forall p m s, m_pc m = PGone s ->
      (m_tokens m <> 0 -> allow_loss A = true) ->
      jstep p (JMake m) p (JExited s) (map c_job (m_chain m))
  | js_below : forall p m p' l1 c l2 j' o, m_chain m = l1 ++ c :: l2 ->
      jstep p (c_job c) p' j' o ->
      jstep p (JMake m) p'
        (JMake (set_chain (l1 ++ Child (c_id c) (c_slot c) j' :: l2) m)) o.

(** The whole machine: the tokens in the pipe, and the first make followed by
    the jobs that have lost their parent. *)
Definition world := (nat * list job)%type.

Inductive wstep : world -> world -> Prop :=
  | ws : forall p p' l1 j l2 j' o, jstep p j p' j' o ->
      wstep (p, l1 ++ j :: l2) (p', l1 ++ j' :: l2 ++ o)
  (** a command without a parent exits; nobody waits for it. *)
  | ws_orphan : forall p l1 l2, wstep (p, l1 ++ JLeaf :: l2) (p, l1 ++ l2).

Inductive reach (w0 : world) : world -> Prop :=
  | r_refl : reach w0 w0
  | r_step : forall w w', reach w0 w -> wstep w w' -> reach w0 w'.

End Steps.

(** src/main.c:1962-1972: "make -jN" with a jobserver; src/posixos.c:84
    jobserver_setup writes N-1 tokens. *)
Definition start_jobserver (n : nat) (k np dbg : bool) : world :=
  (n - 1, [JMake (fresh 0 true k np dbg)]).

(** src/main.c:1950-1953: "make -jN" where there is no jobserver (N = 1
    included: plain "make"). *)
Definition start_slots (n : nat) (k np dbg : bool) : world :=
  (0, [JMake (fresh n false k np dbg)]).
