(** Deleting targets of recipes that failed or were interrupted. *)
From Verif Require Import Base.
Open Scope list_scope.
Open Scope nat_scope.

(** What stat says: an ordinary file or something else, and its time.  Times of files are at least 3
    (filedef.h:218-227: 0 is unknown, 1 nonexistent, 2 very old). *)
Record node := mknode { n_regular : bool; n_time : nat }.
Definition unknown_mtime := 0.
Definition nonexistent_mtime := 1.

(** struct child: file, file->also_make, pid >= 0, deleted. *)
Record kid := mkkid { k_file : str; k_also : list str; k_pid : bool; k_deleted : bool }.

(** The file system, last_mtime of each file, the children, .DELETE_ON_ERROR once looked up (job.c:813),
    handling_fatal_signal, update_status of finished targets, and the files make has deleted. *)
Record world := mkworld { disk : str -> option node; last : str -> nat; kids : list kid; doe : option bool; dying : bool; done : list (str * bool); log : list str }.

Definition upd {A} (f : str -> A) (n : str) (a : A) : str -> A := fun m => if str_eqb m n then a else f m.

Section Delete.
  (** Targets: precious, phony, a member of an archive; whether .DELETE_ON_ERROR is a target. *)
  Variable precious phony member : str -> bool.
  Variable on_error : bool.

  (** src/commands.c:703-749 delete_target; the message about archive members is left out; unlink succeeds. *)
  Definition delete_target (w : world) (f : str) : world :=
    if precious f || phony f then w
    else if member f then w
    else match disk w f with
         | Some d =>
             if n_regular d && negb (n_time d =? last w f)
             then mkworld (upd (disk w) f None) (last w) (kids w) (doe w) (dying w) (done w) (log w ++ [f])
             else w
         | None => w
         end.
  (** src/commands.c:755-772 delete_child_targets. *)
  Definition delete_child_targets (w : world) (k : kid) : world * kid :=
    if k_deleted k || negb (k_pid k) then (w, k)
    else (fold_left delete_target (k_file k :: k_also k) w, mkkid (k_file k) (k_also k) (k_pid k) true).
  Fixpoint delete_all (w : world) (l : list kid) : world * list kid :=
    match l with
    | [] => (w, [])
    | k :: l' => let (w1, k') := delete_child_targets w k in let (w2, l'') := delete_all w1 l' in (w2, k' :: l'')
    end.
  Definition set_kids (w : world) (l : list kid) : world := mkworld (disk w) (last w) l (doe w) (dying w) (done w) (log w).
  Definition finish (w : world) (f : str) (ok : bool) : world := mkworld (disk w) (last w) (kids w) (doe w) (dying w) (done w ++ [(f, ok)]) (log w).
  Definition set_doe (w : world) : world * bool :=
    let b := match doe w with Some b => b | None => on_error end in
    (mkworld (disk w) (last w) (kids w) (Some b) (dying w) (done w) (log w), b).

  (** How a command ended.  [Next]: there are more commands, and how the next one started. *)
  Inductive started := Runs | Not_found | Cannot.
  Inductive ending :=
  | Failed (by_signal : bool)
  | Last
  | Next (s : started).

  Inductive event :=
  | Look (f : str)                             (** file_mtime, filedef.h:212-213 *)
  | Start (f : str) (also : list str) (pid : bool) (** new_job, start_job_command *)
  | Change (f : str) (d : option node)         (** a recipe or someone else changes a file *)
  | Reap (f : str) (e : ending)                (** job.c:719-881 for one child *)
  | Fatal (user : bool).                       (** fatal_error_signal; [user]: SIGTERM, SIGINT, SIGHUP or SIGQUIT *)

  Fixpoint take (f : str) (l : list kid) : option (list kid * kid * list kid) :=
    match l with
    | [] => None
    | k :: l' => if str_eqb f (k_file k) then Some ([], k, l') else match take f l' with Some (a, x, b) => Some (k :: a, x, b) | None => None end
    end.

  (** src/job.c:809-881, for the child [k] between [a] and [b].  [Failed] means not ignored.  A child whose
      next command runs stays, otherwise it leaves the chain.  A command that is not found is reaped as a
      failed child without a pid (job.c:550-558); [Cannot]: start_job_command itself failed. *)
  Definition reap (w : world) (a : list kid) (k : kid) (b : list kid) (e : ending) : world :=
    match e with
    | Failed sig =>
        let (w1, d) := set_doe (finish w (k_file k) false) in
        let w2 := if sig || d then fst (delete_child_targets w1 k) else w1 in
        set_kids w2 (a ++ b)
    | Last => set_kids (finish w (k_file k) true) (a ++ b)
    | Next s =>
        if dying w then set_kids (fst (delete_child_targets (finish w (k_file k) false) k)) (a ++ b)
        else match s with
             | Runs => w
             | Not_found => set_kids w (a ++ mkkid (k_file k) (k_also k) false (k_deleted k) :: b)
             | Cannot => set_kids (fst (delete_child_targets (finish w (k_file k) false) k)) (a ++ b)
             end
    end.

  Definition step (w : world) (e : event) : option world :=
    match e with
    | Look f =>
        if last w f =? unknown_mtime
        then Some (mkworld (disk w) (upd (last w) f (match disk w f with Some d => n_time d | None => nonexistent_mtime end)) (kids w) (doe w) (dying w) (done w) (log w))
        else Some w
    | Start f also pid => if dying w then None else match take f (kids w) with None => Some (set_kids w (mkkid f also pid false :: kids w)) | Some _ => None end
    | Change f d => match d with Some n => if n_time n <? 3 then None else Some (mkworld (upd (disk w) f d) (last w) (kids w) (doe w) (dying w) (done w) (log w))
                    | None => Some (mkworld (upd (disk w) f d) (last w) (kids w) (doe w) (dying w) (done w) (log w)) end
    | Reap f e => match take f (kids w) with Some (a, k, b) => Some (reap w a k b e) | None => None end
    (** src/commands.c:625-664: the targets are deleted, then the children are waited for (as further [Reap]s). *)
    | Fatal user =>
        let w1 := mkworld (disk w) (last w) (kids w) (doe w) true (done w) (log w) in
        if user then let (w2, l) := delete_all w1 (kids w1) in Some (set_kids w2 l) else Some w1
    end.
  Fixpoint steps (w : world) (l : list event) : option world :=
    match l with [] => Some w | e :: l' => match step w e with Some w' => steps w' l' | None => None end end.
End Delete.
