(** What the cache of directories is to answer: each directory as it was when it was first asked about. *)
From Verif Require Import Base M_Dir.
Open Scope list_scope.
Open Scope nat_scope.

Definition dir_of (k : call) : str := match k with Exists d _ | Mark d _ | Marked d _ | Glob d => d end.
(** The directories that were asked about, in this order. *)
Definition visits (es : list (world * call)) : list (world * str) := map (fun x => (fst x, dir_of (snd x))) es.

(** The system when directory [d] was first asked about; the device and inode it had then. *)
Definition looked (vs : list (world * str)) (d : str) : option world := option_map fst (find (fun v => str_eqb (snd v) d) vs).
Definition node (vs : list (world * str)) (d : str) : option nat := match looked vs d with Some w => w_stat w d | None => None end.
(** The first visit to a device and inode, under whatever name; the files that were in it. *)
Definition is_node (vs : list (world * str)) (i : nat) (v : world * str) : bool := match node vs (snd v) with Some j => i =? j | None => false end.
Definition listing (vs : list (world * str)) (i : nat) : option (list str) :=
  match find (is_node vs i) vs with Some (w, d) => w_open w d | None => None end.
(** The files of a directory, if it could be read. *)
Definition files (vs : list (world * str)) (d : str) : option (list str) := match node vs d with Some i => listing vs i | None => None end.
Definition present (vs : list (world * str)) (d f : str) : Prop := exists l, files vs d = Some l /\ In f l.

(** Two names of one directory. *)
Definition same (vs : list (world * str)) (d e : str) : Prop := d = e \/ exists i, node vs d = Some i /\ node vs e = Some i.
Definition was_marked (es : list (world * call)) (d f : str) : Prop := exists w e, In (w, Mark e f) es /\ same (visits es) d e.

(** Only files that make has looked for in vain are marked (src/implicit.c:739 and 795; a name that ends in a slash is
    there if its directory is). *)
Definition careful (es : list (world * call)) : Prop :=
  forall w d f, In (w, Mark d f) es -> if str_eqb f [] then files (visits es) d = None else ~ present (visits es) d f.

(** A name is a directory and a file in it. *)
Definition no_slash (s : str) : Prop := ~ In c_slash s.
Inductive named : str -> str -> str -> Prop :=
| Named_here : forall f, no_slash f -> named f [c_dot] f
| Named_root : forall f, no_slash f -> named (c_slash :: f) [c_slash] f
| Named_in : forall d f, d <> [] -> no_slash f -> named (d ++ c_slash :: f) d f.

(** Names with the same device and inode are the same directory. *)
Definition coherent (w : world) : Prop := forall d e i, w_stat w d = Some i -> w_stat w e = Some i -> w_open w d = w_open w e.
