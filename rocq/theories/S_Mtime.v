(** What is to be known of the time of a file after it has been looked at. *)
From Verif Require Import Base M_Rename S_Rename M_Mtime.
Open Scope list_scope.
Open Scope nat_scope.

(** The first entry of a double-colon target; of others, the file. *)
Definition head_of (h : nat -> file) (i : nat) : nat := match f_colon (h i) with Some d => d | None => i end.
(** The list of entries from [x] on has an end. *)
Definition ends (h : nat -> file) (x : nat) : Prop := exists e, later h x e /\ f_prev (h e) = None.
(** Two files that may differ in the time and the mark of .INTERMEDIATE only. *)
Definition alike (f g : file) : Prop :=
  f_hname f = f_hname g /\ f_name f = f_name g /\ f_cmds f = f_cmds g /\ f_deps f = f_deps g /\ f_vars f = f_vars g /\ f_colon f = f_colon g /\ f_prev f = f_prev g /\ f_renamed f = f_renamed g /\
  f_before f = f_before g /\ f_builtin f = f_builtin g /\ f_flags f = f_flags g /\
  w_tracing (f_others f) = w_tracing (f_others g) /\ w_secondary (f_others f) = w_secondary (f_others g) /\ w_dontcare (f_others f) = w_dontcare (f_others g) /\ w_status (f_others f) = w_status (f_others g).
(** The time [m] is noted in those entries that are as much "updated" as the first one; files that are there and that make has not touched are no longer intermediate. *)
Definition recorded (not_started : nat -> bool) (h h' : nat -> file) (hd m : nat) : Prop :=
  forall e, (~ later h hd e -> h' e = h e) /\
  (later h hd e ->
    alike (h' e) (h e) /\
    f_mtime (h' e) = (if Bool.eqb (w_updated (f_flags (h e))) (w_updated (f_flags (h hd))) then m else f_mtime (h e)) /\
    (w_intermediate (f_others (h' e)) = true <-> w_intermediate (f_others (h e)) = true /\ ~ (m <> NONEXISTENT /\ not_started e = true /\ w_tried (f_flags (h e)) = false))).
(** What a search gives: by directories first, and for "-lNAME" also as a library. *)
Inductive found (vp lib : str -> option (str * nat)) (name : str) : str * nat -> Prop :=
| fd_path r : vp name = Some r -> found vp lib name r
| fd_lib r rest : vp name = None -> name = "-"%char :: "l"%char :: rest -> lib name = Some r -> found vp lib name r.
(** The file that has the name after the change. *)
Definition now_at (s : state) (i : nat) (nm : str) : nat := match table s nm with Some k => k | None => i end.

(** Times in the future. *)
Definition limit (x : nat * nat * nat * bool) : nat := let '(now, res, _, _) := x in now + (res - 1).
Definition time_of (x : nat * nat * nat * bool) : nat := let '(_, _, m, _) := x in m.
Definition counts (NEW : nat) (x : nat * nat * nat * bool) : Prop := let '(_, _, m, u) := x in m <> NONEXISTENT /\ m <> NEW /\ u = false.
