(** What make deletes when it is done: src/file.c remove_intermediates, the marks it looks at
    (src/file.c snap_deps, src/implicit.c), and src/main.c die, which calls it. *)
From Verif Require Import Base M_Build.

Definition mem (f : nat) (l : list nat) : bool := existsb (Nat.eqb f) l.

(** The marks of the files.  [k_precious], [k_intermediate]: the prerequisites of .PRECIOUS and
    .INTERMEDIATE; [k_secondary]: those of each rule for .SECONDARY.  [k_found]: the files an implicit
    search has entered as intermediate, [k_known] those that were files before, [k_pattern] those found
    by a pattern that is precious.  [k_given]: the goals on the command line.  [k_dontcare]: the flag
    for "-include", set only while makefiles are remade.  [k_table]: the files in the table, in the
    order of their slots.  [k_locked]: the files unlink cannot remove though they are there. *)
Record marks := mkmarks {
  k_precious : list nat; k_intermediate : list nat; k_secondary : list (list nat);
  k_found : nat -> bool; k_known : nat -> bool; k_pattern : nat -> bool;
  k_given : list nat; k_dontcare : nat -> bool; k_table : list nat; k_locked : nat -> bool }.
(** src/file.c:621-629: .SECONDARY without prerequisites. *)
Definition all_secondary (k : marks) : bool := existsb (fun l => match l with [] => true | _ => false end) (k_secondary k).
(** src/file.c:591-594; src/implicit.c:886-888, 950-955. *)
Definition precious (k : marks) (f : nat) : bool := mem f (k_precious k) || k_pattern k f.
(** src/file.c:621-626; src/implicit.c:866-871: an intermediate file that was mentioned before. *)
Definition secondary (k : marks) (f : nat) : bool := existsb (mem f) (k_secondary k) || (k_found k f && k_known k f).
(** src/file.c:613-617, 624-626, 507-509; src/implicit.c:883. *)
Definition marked (k : marks) (f : nat) : bool :=
  all_secondary k || mem f (k_intermediate k) || existsb (mem f) (k_secondary k) || k_found k f.
(** src/main.c:2571-2572. *)
Definition cmd_target (k : marks) (f : nat) : bool := mem f (k_given k).

(** src/file.c:201-274 remove_intermediates: the files that are named in its message, and the disk
    afterwards.  -s, which only silences the message, is not modelled. *)
Definition eligible (k : marks) (x : file) (f : nat) : bool :=
  f_intermediate x && (k_dontcare k f || negb (precious k f)) && negb (secondary k f) && negb (cmd_target k f).
Fixpoint sweep (how : mode) (k : marks) (files : nat -> file) (l : list nat) (disk : nat -> time) : list nat * (nat -> time) :=
  match l with
  | [] => ([], disk)
  | f :: l' =>
      if eligible k (files f) f then
        match f_status (files f) with
        | NoAttempt => sweep how k files l' disk
        | _ =>
            let dry := match how with Dry => true | _ => false end in
            if negb dry && time_eqb (disk f) Absent then sweep how k files l' disk
            else
              let '(said, disk') := sweep how k files l' (if dry || k_locked k f then disk else fun n => if n =? f then Absent else disk n) in
              (if k_dontcare k f then said else f :: said, disk')
        end
      else sweep how k files l' disk
  end.
Definition remove_intermediates (sig : bool) (how : mode) (k : marks) (st : state) : list nat * (nat -> time) :=
  match how with
  | Ask | Touch => ([], s_disk st)
  | Dry => if all_secondary k || sig then ([], s_disk st) else sweep how k (s_files st) (k_table k) (s_disk st)
  | Normal => if all_secondary k then ([], s_disk st) else sweep how k (s_files st) (k_table k) (s_disk st)
  end.

(** src/main.c:3277-3299 die: wait for the children, then remove the intermediate files.  A child that
    fails while make ends well, without -k, calls die again, which exits at once: [Die]. *)
Definition die (m : make) (k : marks) (err : bool) (st : state) : res (list nat * (nat -> time)) :=
  bind (reaps (m_phony m) (m_target m) (m_cmds m) (m_double m) (fun f => f) (fun f => [f]) (m_keep m || err) (m_how m) (m_world m) (length (s_jobs st)) st)
    (fun _ st => Ok (remove_intermediates false (m_how m) k st) st).
(** src/main.c:2434-2456: the goals are updated, and make exits with their status. *)
Definition whole (m : make) (k : marks) (disk : nat -> time) (clock passes fuel : nat) (goals : list nat) : res (list nat * (nat -> time)) :=
  match build m disk clock passes fuel goals with
  | Ok s st => die m k (1 <? us_rank s) st
  | Die st => die m k true st
  | Out => Out
  end.
