(** Model of the debugger's own data structures: the breakpoint list
    (libdebugger/break.c), the stop decision (libdebugger/cmd.c and the call
    sites in src/remake.c), frame motion (libdebugger/stack.c), command words
    and command lookup (libdebugger/fns.c, cmd.c, cmd_initialize.h) and the
    line number table (libdebugger/file2line.c). *)
From Verif Require Import Base.
Open Scope string_scope.
Open Scope list_scope.
Open Scope nat_scope.

(** * Breakpoints *)

(** src/types.h:56-61, the breakpoint masks. *)
Definition BRK_NONE : N := 0%N.
Definition BRK_BEFORE_PREREQ : N := 1%N.
Definition BRK_AFTER_PREREQ : N := 2%N.
Definition BRK_AFTER_CMD : N := 4%N.
Definition BRK_ALL : N := 7%N.
Definition BRK_TEMP : N := 8%N.

(** libdebugger/break.c:29-35, struct breakpoint_node.  A target is the
    address of its [file_t], here a natural number. *)
Record bnode := mkBnode {
  n_target : nat;
  n_num : nat;
  n_mask : N;
  n_next : option nat;
}.

(** libdebugger/break.c:38-41 and the [tracing] member of every [file_t]
    (src/filedef.h:95), together with the heap of breakpoint nodes and the
    step counters of src/trace.h.  [h_fresh] is the next address CALLOC hands
    out: simplification, addresses are never reused, and the allocation never
    fails.  [i_breakpoints] is an [unsigned int] in C; here it does not
    wrap. *)
Record dstate := mkD {
  h_mem : nat -> option bnode;
  h_fresh : nat;
  h_top : option nat;
  h_bottom : option nat;
  h_count : nat;
  h_tracing : nat -> N;
  h_stepping : nat;
  h_nexting : nat;
}.

Definition dinit : dstate :=
  mkD (fun _ => None) 0 None None 0 (fun _ => BRK_NONE) 0 0.

Definition updf {A} (f : nat -> A) (k : nat) (v : A) : nat -> A :=
  fun x => if x =? k then v else f x.

Definition set_tracing (s : dstate) (t : nat) (m : N) : dstate :=
  mkD (h_mem s) (h_fresh s) (h_top s) (h_bottom s) (h_count s)
      (updf (h_tracing s) t m) (h_stepping s) (h_nexting s).

(** libdebugger/break.c:46-95, add_breakpoint.  [None] is undefined
    behaviour or a failed assertion: the assert at line 55, the null or freed
    [p_breakpoint_bottom] at line 58.  The messages are left out. *)
Definition add_breakpoint (s : dstate) (t : nat) (m : N) : option dstate :=
  let a := h_fresh s in
  let num := S (h_count s) in
  let node := mkBnode t num m None in
  let tr := updf (h_tracing s) t m in
  match h_top s with
  | None =>
      match h_bottom s with
      | Some _ => None
      | None =>
          Some (mkD (updf (h_mem s) a (Some node)) (S a) (Some a) (Some a) num tr
                    (h_stepping s) (h_nexting s))
      end
  | Some top =>
      match h_bottom s with
      | None => None
      | Some b =>
          match h_mem s b with
          | None => None
          | Some nb =>
              let nb' := mkBnode (n_target nb) (n_num nb) (n_mask nb) (Some a) in
              Some (mkD (updf (updf (h_mem s) a (Some node)) b (Some nb')) (S a)
                        (Some top) (Some a) num tr (h_stepping s) (h_nexting s))
          end
      end
  end.

(** libdebugger/break.c:113-117, the search loop of remove_breakpoint, with
    [p_prev].  [None] is a read of a freed node, or more rounds than nodes
    were ever allocated (a cyclic list). *)
Fixpoint find_bp (fuel : nat) (h : nat -> option bnode) (i : nat)
    (prev cur : option nat) : option (option nat * option nat) :=
  match cur with
  | None => Some (prev, None)
  | Some a =>
      match fuel with
      | O => None
      | S f =>
          match h a with
          | None => None
          | Some n =>
              if n_num n =? i then Some (prev, Some a)
              else find_bp f h i (Some a) (n_next n)
          end
      end
  end.

(** libdebugger/break.c:100-144, remove_breakpoint: its return value and the
    new state. *)
Definition remove_breakpoint (s : dstate) (i : nat) : option (bool * dstate) :=
  if i =? 0 then Some (false, s)
  else if h_count s <? i then Some (false, s)
  else
    match find_bp (h_fresh s) (h_mem s) i None (h_top s) with
    | None => None
    | Some (_, None) => Some (false, s)
    | Some (prev, Some a) =>
        match h_mem s a with
        | None => None
        | Some n =>
            let bottom := match n_next n with None => prev | Some _ => h_bottom s end in
            let top := match h_top s with
                       | Some t0 => if t0 =? a then n_next n else Some t0
                       | None => None
                       end in
            let linked :=
              match prev with
              | None => Some (h_mem s)
              | Some p =>
                  match h_mem s p with
                  | None => None
                  | Some np =>
                      Some (updf (h_mem s) p
                        (Some (mkBnode (n_target np) (n_num np) (n_mask np) (n_next n))))
                  end
              end in
            match linked with
            | None => None
            | Some mem1 =>
                let traced := negb (N.eqb (h_tracing s (n_target n)) 0) in
                let tr := if traced then updf (h_tracing s) (n_target n) BRK_NONE
                          else h_tracing s in
                Some (traced,
                      mkD (updf mem1 a None) (h_fresh s) top bottom (h_count s) tr
                          (h_stepping s) (h_nexting s))
            end
        end
    end.

(** libdebugger/command/delete.c:34-43, `delete` without argument. *)
Fixpoint delete_from (s : dstate) (i k : nat) : option dstate :=
  match k with
  | O => Some s
  | S k' =>
      match remove_breakpoint s i with
      | None => None
      | Some (_, s') => delete_from s' (S i) k'
      end
  end.

Definition delete_all (s : dstate) : option dstate := delete_from s 1 (h_count s).

(** libdebugger/break.c:146-169, list_breakpoints: the (number, target, mask)
    lines it prints. *)
Fixpoint list_bp (fuel : nat) (h : nat -> option bnode) (cur : option nat)
  : option (list (nat * nat * N)) :=
  match cur with
  | None => Some []
  | Some a =>
      match fuel with
      | O => None
      | S f =>
          match h a with
          | None => None
          | Some n =>
              match list_bp f h (n_next n) with
              | None => None
              | Some l => Some ((n_num n, n_target n, n_mask n) :: l)
              end
          end
      end
  end.

Definition list_breakpoints (s : dstate) : option (list (nat * nat * N)) :=
  list_bp (h_fresh s) (h_mem s) (h_top s).

(** * Stopping *)

(** The reasons enter_debugger is called with that matter here
    (src/types.h, debug_enter_reason_t). *)
Inductive reason := R_before_prereq | R_after_prereq | R_after_cmd | R_step.

(** libdebugger/cmd.c:255-280, the head of enter_debugger for a non-null
    target, errcode 0 and the debugger not quitting: whether the command loop
    is entered, and the state afterwards.  [debugger_on_error] is the option
    of that name.  Simplification: the commands given in the loop are
    operations of their own (below). *)
Definition enter_debugger (on_error : bool) (s : dstate) (t : nat) (r : reason)
  : bool * dstate :=
  let traced := negb (N.eqb (h_tracing s t) 0) in
  let '(stop, s1) :=
    if (1 <? h_stepping s) || (1 <? h_nexting s) then
      (traced,
       mkD (h_mem s) (h_fresh s) (h_top s) (h_bottom s) (h_count s) (h_tracing s)
           (pred (h_stepping s)) (pred (h_nexting s)))
    else if negb on_error && negb ((0 <? h_stepping s) || (0 <? h_nexting s))
            && negb traced
         then (false, s)
         else (true, s) in
  if stop then
    if negb (N.eqb (N.land (h_tracing s1 t) BRK_TEMP) 0) then
      match r with
      | R_step => (true, s1)
      | _ => (true, set_tracing s1 t BRK_NONE)
      end
    else (true, s1)
  else (false, s1).

(** The bit each call site in update_file_1 tests: src/remake.c:438 (together
    with [i_debugger_stepping && file->cmds]), 702 and 872/894 (together with
    [i_debugger_stepping]). *)
Definition site_bit (r : reason) : N :=
  match r with
  | R_before_prereq => BRK_BEFORE_PREREQ
  | R_after_prereq => BRK_AFTER_PREREQ
  | R_after_cmd => BRK_AFTER_CMD
  | R_step => 0%N
  end.

(** src/remake.c:437-439, 702-703, 872-873 and 894-895: update_file_1 passes
    the point [r] of target [t].  [cmds]: the target has a recipe. *)
Definition visit (on_error : bool) (s : dstate) (t : nat) (cmds : bool) (r : reason)
  : bool * dstate :=
  let stepping := 0 <? h_stepping s in
  let enter :=
    negb (N.eqb (N.land (h_tracing s t) (site_bit r)) 0)
    || match r with
       | R_before_prereq => stepping && cmds
       | R_after_prereq => false
       | R_after_cmd => stepping
       | R_step => false
       end in
  if enter then enter_debugger on_error s t r else (false, s).

(** What can happen to the debugger: user commands, and the build passing a
    stopping point. *)
Inductive dop :=
| OpBreak (t : nat) (m : N)              (* break T ..., continue T ... *)
| OpDelete (i : nat)                     (* one number of delete N... *)
| OpDeleteAll                            (* delete *)
| OpFinish (t : nat)                     (* finish, command/finish.c:55-58 *)
| OpVisit (t : nat) (cmds : bool) (r : reason)
| OpStep (n : nat)                       (* step N, command/step.c *)
| OpContinue.                            (* continue, command/continue.c:74-80 *)

Definition set_steps (s : dstate) (st nx : nat) : dstate :=
  mkD (h_mem s) (h_fresh s) (h_top s) (h_bottom s) (h_count s) (h_tracing s) st nx.

Definition dstep (on_error : bool) (s : dstate) (o : dop) : option dstate :=
  match o with
  | OpBreak t m => add_breakpoint s t m
  | OpDelete i => match remove_breakpoint s i with
                  | None => None | Some (_, s') => Some s' end
  | OpDeleteAll => delete_all s
  | OpFinish t =>
      Some (set_steps (set_tracing s t (N.lor (h_tracing s t) BRK_AFTER_CMD)) 0 0)
  | OpVisit t cmds r => Some (snd (visit on_error s t cmds r))
  | OpStep n => Some (set_steps s n 0)
  | OpContinue => Some (set_steps s 0 0)
  end.

Fixpoint drun (on_error : bool) (s : dstate) (ops : list dop) : option dstate :=
  match ops with
  | [] => Some s
  | o :: r => match dstep on_error s o with
              | None => None
              | Some s' => drun on_error s' r
              end
  end.

(** libdebugger/command/continue.c:57-71 with a target: [psz_args] is
    overwritten by the first modifier word, so only that word is looked at. *)
Definition continue_mask (modifiers : list N) : N :=
  match modifiers with
  | [] => N.lor BRK_ALL BRK_TEMP
  | m :: _ => N.lor m BRK_TEMP
  end.

(** libdebugger/command/break.c:86-95: all modifier words count. *)
Definition break_mask (modifiers : list N) : N :=
  match modifiers with
  | [] => BRK_ALL
  | _ => fold_left N.lor modifiers BRK_NONE
  end.

(** * Frame motion *)

(** libdebugger/stack.c:27-33.  The target stack is the list of its frames
    from the top ([p_stack_top]); [f_cur] is [p_stack]: the part of the list
    that starts at the frame it points to, [None] when it is NULL.  [f_loc]
    is the frame [p_target_loc] was taken from.  The makefile stack
    ([p_floc_stack]) used while there is no target stack behaves in the same
    way except for [p_target_loc], which it leaves alone. *)
Record fstate := mkF {
  f_targets : list nat;
  f_flocs : list nat;
  f_cur : option (list nat);
  f_floc_cur : option (list nat);
  f_pos : Z;
  f_loc : option nat;
}.

Definition int_max : Z := 2147483647.
Definition int_min : Z := -2147483648.
Definition in_int (z : Z) : bool := (int_min <=? z)%Z && (z <=? int_max)%Z.

(** Conversion of the [long] returned by strtol to [int] or [unsigned]
    (libdebugger/fns.c:105, 123): the low 32 bits, as a two's complement
    number. *)
Definition wrap32 (z : Z) : Z :=
  let m := (z mod 4294967296)%Z in
  if (m <=? int_max)%Z then m else (m - 4294967296)%Z.

Definition ptr_of (l : list nat) : option (list nat) :=
  match l with [] => None | _ => Some l end.

(** libdebugger/stack.c:80-84 (and 100-105): the walk from the top; the final
    value of [i] and of the cursor. *)
Fixpoint walk (l : list nat) (i : Z) : Z * option (list nat) :=
  match l with
  | [] => (i, None)
  | x :: r => let i' := (i - 1)%Z in
              if (i' =? 0)%Z then (i', Some l) else walk r i'
  end.

Inductive motion_result := M_ok (s : fstate) | M_error (s : fstate) | M_overflow.

(** libdebugger/stack.c:36-56, dbg_stack_size: the size, and the cursors it
    leaves behind (NULL). *)
Definition dbg_stack_size (s : fstate) : Z * fstate :=
  match f_targets s with
  | _ :: _ => (Z.of_nat (length (f_targets s)),
               mkF (f_targets s) (f_flocs s) None (f_floc_cur s) (f_pos s) (f_loc s))
  | [] => match f_flocs s with
          | _ :: _ => (Z.of_nat (length (f_flocs s)),
                       mkF (f_targets s) (f_flocs s) (f_cur s) None (f_pos s) (f_loc s))
          | [] => (0%Z, s)
          end
  end.

(** libdebugger/stack.c:58-119, dbg_adjust_frame.  [M_overflow]: signed
    overflow in [i_stack_pos + i_amount] or [i_try_frame_pos + 1]. *)
Definition dbg_adjust_frame (s : fstate) (amount : Z) (absolute : bool) : motion_result :=
  let '(try, s0) :=
    if absolute then
      if (amount <? 0)%Z then
        let '(n, s') := dbg_stack_size s in (wrap32 (n + amount), s')
      else (amount, s)
    else ((f_pos s + amount)%Z, s) in
  if negb (in_int try) then M_overflow
  else if (try <? 0)%Z then M_error s0
  else if negb (in_int (try + 1)) then M_overflow
  else
    match f_targets s0 with
    | _ :: _ =>
        let '(i, cur) := walk (f_targets s0) (try + 1)%Z in
        if negb (i =? 0)%Z then
          M_error (mkF (f_targets s0) (f_flocs s0) cur (f_floc_cur s0) (f_pos s0) (f_loc s0))
        else
          M_ok (mkF (f_targets s0) (f_flocs s0) cur (f_floc_cur s0) try
                    (match cur with Some (x :: _) => Some x | _ => None end))
    | [] =>
        match f_flocs s0 with
        | _ :: _ =>
            let '(i, cur) := walk (f_flocs s0) (try + 1)%Z in
            if negb (i =? 0)%Z then
              M_error (mkF (f_targets s0) (f_flocs s0) (f_cur s0) cur (f_pos s0) (f_loc s0))
            else
              M_ok (mkF (f_targets s0) (f_flocs s0) (f_cur s0) cur try (f_loc s0))
        | [] => M_ok s0
        end
    end.

(** The commands with the number typed (the value strtol gives):
    command/frame.c, command/up.c, command/down.c. *)
Inductive motion := Frame (n : Z) | Up (n : Z) | Down (n : Z).

Definition do_motion (s : fstate) (m : motion) : motion_result :=
  match m with
  | Frame n => dbg_adjust_frame s (wrap32 n) true
  | Up n => dbg_adjust_frame s (wrap32 n) false
  | Down n => if in_int (- wrap32 n) then dbg_adjust_frame s (- wrap32 n) false
              else M_overflow
  end.

(** libdebugger/cmd.c:297-313: the state enter_debugger sets up. *)
Definition frame_init (targets flocs : list nat) : fstate :=
  mkF targets flocs (ptr_of targets) (ptr_of flocs) 0
      (match targets with x :: _ => Some x | [] => None end).

Fixpoint run_motions (s : fstate) (ms : list motion) : option fstate :=
  match ms with
  | [] => Some s
  | m :: r => match do_motion s m with
              | M_ok s' | M_error s' => run_motions s' r
              | M_overflow => None
              end
  end.

(** libdebugger/fns.c:164-171, get_current_target. *)
Definition get_current_target (s : fstate) : option nat :=
  match f_cur s with Some (x :: _) => Some x | _ => None end.

(** * Command words *)

(** libdebugger/fns.c:70 and cmd.c:52: blank or tab. *)
Definition whitespace (c : ascii) : bool := (c =?c c_sp) || (c =?c c_tab).

(** libdebugger/fns.c:145-146: the leading loop adds one to the character, it
    does not move the pointer.  Eight bits; the loop ends because a blank
    becomes `!' and a tab a newline. *)
Definition bump (c : ascii) : ascii := ascii_of_nat (S (nat_of_ascii c)).

Definition skip_leading (s : str) : str :=
  match s with
  | c :: r => if whitespace c then bump c :: r else s
  | [] => []
  end.

(** libdebugger/fns.c:152-155: the word and what follows its terminator. *)
Fixpoint cut_word (s : str) : str * str :=
  match s with
  | [] => ([], [])
  | c :: r => if whitespace c then ([], r)
              else let '(w, r') := cut_word r in (c :: w, r')
  end.

(** libdebugger/fns.c:139-158, get_word: the word and the new position. *)
Definition get_word (s : str) : str * str := cut_word (skip_leading s).

(** The loops of command/break.c:90, delete.c:49-55 and target.c:38: words until
    an empty one.  The fuel is the length of the line plus one. *)
Fixpoint words_loop (fuel : nat) (s : str) : list str :=
  match fuel with
  | O => []
  | S f => match get_word s with
           | ([], _) => []
           | (w, r) => w :: words_loop f r
           end
  end.

Definition arg_words (s : str) : list str := words_loop (S (length s)) s.

(** libdebugger/fns.c:366-382, stripwhite. *)
Fixpoint skip_white (s : str) : str :=
  match s with
  | c :: r => if whitespace c then skip_white r else s
  | [] => []
  end.

Definition stripwhite (s : str) : str := rev (skip_white (rev (skip_white s))).

(** libdebugger/fns.c:236-246, is_abbrev_of: strstr, then a comparison of the
    pointer found with the start of the word. *)
Fixpoint is_prefix (p s : str) : bool :=
  match p, s with
  | [], _ => true
  | x :: p', y :: s' => (x =?c y) && is_prefix p' s'
  | _, [] => false
  end.

(** strstr: the offset of the first occurrence. *)
Fixpoint strstr (hay needle : str) : option nat :=
  if is_prefix needle hay then Some 0
  else match hay with
       | [] => None
       | _ :: r => option_map S (strstr r needle)
       end.

Definition is_abbrev_of (sub word : str) (min : nat) : bool :=
  if length sub <? min then false
  else match strstr word sub with Some 0 => true | _ => false end.

(** libdebugger/fns.c:73-90, get_brkpt_option. *)
Definition get_brkpt_option (w : str) : N :=
  if is_abbrev_of w "all" 1 then BRK_ALL
  else if is_abbrev_of w "prerequisite" 3 then BRK_BEFORE_PREREQ
  else if is_abbrev_of w "run" 1 then BRK_AFTER_PREREQ
  else if is_abbrev_of w "end" 1 then BRK_AFTER_CMD
  else if is_abbrev_of w "temp" 1 then BRK_TEMP
  else BRK_NONE.

(** * Command lookup *)

(** libdebugger/cmd_initialize.h:63-96, dbg_commands. *)
Definition dbg_commands : list (str * ascii) :=
  [ (s2l "break", "b"%char); (s2l "cd", "C"%char); (s2l "comment", "#"%char);
    (s2l "continue", "c"%char); (s2l "delete", "d"%char); (s2l "down", "D"%char);
    (s2l "edit", "e"%char); (s2l "expand", "x"%char); (s2l "finish", "F"%char);
    (s2l "frame", "f"%char); (s2l "help", "h"%char); (s2l "info", "i"%char);
    (s2l "list", "l"%char); (s2l "load", "M"%char); (s2l "next", "n"%char);
    (s2l "print", "p"%char); (s2l "pwd", "P"%char); (s2l "quit", "q"%char);
    (s2l "run", "R"%char); (s2l "set", "="%char); (s2l "setq", c_dq);
    (s2l "setqx", "`"%char); (s2l "shell", "!"%char); (s2l "show", "S"%char);
    (s2l "skip", "k"%char); (s2l "source", "<"%char); (s2l "step", "s"%char);
    (s2l "target", "t"%char); (s2l "up", "u"%char); (s2l "where", "T"%char);
    (s2l "write", "w"%char) ].

(** libdebugger/cmd_initialize.h:100-110, aliases, as (alias, command). *)
Definition aliases : list (str * str) :=
  [ (s2l "!!", s2l "shell"); (s2l "?", s2l "help"); (s2l "L", s2l "break");
    (s2l "backtrace", s2l "where"); (s2l "bt", s2l "where"); (s2l "exit", s2l "quit");
    (s2l "restart", s2l "run"); (s2l "return", s2l "quit") ].

(** libdebugger/cmd_initialize.h:346-381, cmd_initialize: the letters that
    get a function. *)
Definition has_letter (c : ascii) : bool := existsb (fun e => snd e =?c c) dbg_commands.

(** strcmp, sign only. *)
Fixpoint strcmp (a b : str) : comparison :=
  match a, b with
  | [], [] => Eq
  | [], _ :: _ => Lt
  | _ :: _, [] => Gt
  | x :: a', y :: b' =>
      match Nat.compare (nat_of_ascii x) (nat_of_ascii y) with
      | Eq => strcmp a' b'
      | c => c
      end
  end.

(** libdebugger/cmd.c:100-109 and 111-119: both search loops, which give up at
    the first entry greater than the name. *)
Fixpoint table_search {A} (tab : list (str * A)) (name : str) : option A :=
  match tab with
  | [] => None
  | (k, v) :: r =>
      match strcmp name k with
      | Eq => Some v
      | Lt => None
      | Gt => table_search r name
      end
  end.

(** libdebugger/cmd.c:95-122, find_command. *)
Definition find_command (name : str) : option ascii :=
  let name' := match table_search aliases name with Some c => c | None => name end in
  table_search dbg_commands name'.

(** libdebugger/cmd.c:127-161, execute_line: the letter of the command and
    its argument string, [None] for "No such debugger command".  The
    needs_running test is left out. *)
Definition execute_line (line : str) : option (ascii * str) :=
  let '(w, rest) := get_word line in
  let cmd := match w with
             | [c] => if has_letter c then Some c else None
             | _ => find_command w
             end in
  match cmd with
  | None => None
  | Some c => Some (c, skip_white rest)
  end.

(** * Line numbers *)

(** libdebugger/file2line.h: what an entry of the table points to. *)
Inductive f2l := F_target (t : nat) | F_pattern (r : nat).

Definition f2l_id (e : f2l) : nat * bool :=
  match e with F_target t => (t, true) | F_pattern r => (r, false) end.

(** libdebugger/file2line.h: lineno_array_t; [size] is [length la]. *)
Definition la := list (option f2l).

(** The table [file2lines]: makefile name to line array.  Modelled as a map
    (properties C01 and C02 are about the hash table itself). *)
Definition f2ltab := list (nat * la).

Fixpoint ftab_get (tab : f2ltab) (f : nat) : option la :=
  match tab with
  | [] => None
  | (k, a) :: r => if k =? f then Some a else ftab_get r f
  end.

Fixpoint ftab_set (tab : f2ltab) (f : nat) (a : la) : f2ltab :=
  match tab with
  | [] => [(f, a)]
  | (k, b) :: r => if k =? f then (k, a) :: r else (k, b) :: ftab_set r f a
  end.

Fixpoint la_write (a : la) (i : nat) (e : f2l) : option la :=
  match a, i with
  | [], _ => None
  | _ :: r, O => Some (Some e :: r)
  | x :: r, S i' => match la_write r i' e with None => None | Some r' => Some (x :: r') end
  end.

(** libdebugger/file2line.c:76-110 and 123-159, enter_target_lineno and
    enter_rule_lineno.  [nlines f] is the [nlines] member of the file_t found
    by lookup_file, [None] if there is none (then only a message is printed).
    The result [None] is a write outside the array. *)
Definition enter_lineno (nlines : nat -> option nat) (tab : f2ltab)
    (f lineno : nat) (e : f2l) : option f2ltab :=
  match nlines f with
  | None => Some tab
  | Some n =>
      let a := match ftab_get tab f with
               | Some a => a
               | None => repeat None (n + 1)
               end in
      match la_write a lineno e with
      | None => None
      | Some a' => Some (ftab_set tab f a')
      end
  end.

(** One thing with a location: its makefile and line. *)
Record located := mkLoc { l_file : nat; l_line : nat; l_what : f2l }.

(** libdebugger/file2line.c:112-121 and 166-181, file2lines_init: all targets that have a
    location, in hash table order, then all pattern rules. *)
Fixpoint f2l_init (nlines : nat -> option nat) (tab : f2ltab) (ls : list located)
  : option f2ltab :=
  match ls with
  | [] => Some tab
  | l :: r => match enter_lineno nlines tab (l_file l) (l_line l) (l_what l) with
              | None => None
              | Some tab' => f2l_init nlines tab' r
              end
  end.

Inductive lookup_result :=
| L_found (e : f2l)     (* non-null pointer *)
| L_null_entry          (* the entry is NULL; *entry_type is F2L_TARGET (calloc) *)
| L_null_unset          (* NULL returned early; *entry_type not written *)
| L_out_of_bounds.      (* read outside the array *)

(** libdebugger/file2line.c:58-74, target_for_file_and_line. *)
Definition target_for_file_and_line (tab : f2ltab) (f lineno : nat) : lookup_result :=
  match ftab_get tab f with
  | None => L_null_unset
  | Some a =>
      if length a <? lineno then L_null_unset
      else match nth_error a lineno with
           | None => L_out_of_bounds
           | Some None => L_null_entry
           | Some (Some e) => L_found e
           end
  end.

(** libdebugger/command/break.c:58-75: what `break LINE' does with the
    answer.  [Bl_undefined]: [entry_type] is read although nothing was stored
    in it, or the lookup itself was out of bounds. *)
Inductive break_line := Bl_set (t : nat) | Bl_error | Bl_undefined.

Definition break_at_line (tab : f2ltab) (f lineno : nat) : break_line :=
  match target_for_file_and_line tab f lineno with
  | L_found (F_target t) => Bl_set t
  | L_found (F_pattern _) => Bl_error
  | L_null_entry => Bl_error
  | L_null_unset => Bl_undefined
  | L_out_of_bounds => Bl_undefined
  end.
