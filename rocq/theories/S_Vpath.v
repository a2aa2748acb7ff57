(** What the directive vpath and the variables VPATH and GPATH mean. *)
From Verif Require Import Base S_Text.

(** A list of directories is separated by blanks and colons; one slash at the end of a
    directory does not count, and the current directory need not be searched. *)
Definition sep (c : ascii) : Prop := c = c_sp \/ c = c_tab \/ c = c_colon.
Inductive pieces : str -> list str -> Prop :=
| pc_nil : pieces [] []
| pc_sep c s l : sep c -> pieces s l -> pieces (c :: s) l
| pc_last v : v <> [] -> (forall c, In c v -> ~ sep c) -> pieces v [v]
| pc_more v c s l : v <> [] -> (forall x, In x v -> ~ sep x) -> sep c -> pieces s l -> pieces (v ++ c :: s) (v :: l).
Inductive dir_of : str -> list str -> Prop :=
| do_slash v : v <> [] -> v <> [c_dot] -> dir_of (v ++ [c_slash]) [v]
| do_dot_slash : dir_of [c_dot; c_slash] []
| do_dot : dir_of [c_dot] []
| do_root : dir_of [c_slash] [[c_slash]]
| do_plain v c : c <> c_slash -> v ++ [c] <> [c_dot] -> dir_of (v ++ [c]) [v ++ [c]].
Definition directories (s : str) (ds : list str) : Prop :=
  exists ps dss, pieces s ps /\ Forall2 dir_of ps dss /\ ds = concat dss.

(** A directive: "vpath", "vpath PATTERN", "vpath PATTERN DIRECTORIES". *)
Inductive directive := Clear | Remove (p : str) | Add (p : str) (ds : list str).
Inductive reads : str -> directive -> Prop :=
| r_clear t : all_space t -> reads t Clear
| r_remove s1 w s2 : all_space s1 -> w <> [] -> no_space w -> all_space s2 -> reads (s1 ++ w ++ s2) (Remove w)
| r_add s1 w s2 r ds : all_space s1 -> w <> [] -> no_space w -> s2 <> [] -> all_space s2 -> r <> [] -> ~ starts_space r ->
    directories r ds -> reads (s1 ++ w ++ s2 ++ r) (Add w ds).

(** A directive with directories is in force unless cancelled later. *)
Definition cancels (d : directive) (p : str) : Prop :=
  match d with Clear => True | Remove q => pattern_of q = pattern_of p | Add _ _ => False end.
Inductive in_force : list directive -> list ((str * option str) * list str) -> Prop :=
| if_nil : in_force [] []
| if_add p ds later l : ds <> [] -> (forall d, In d later -> ~ cancels d p) -> in_force later l ->
    in_force (Add p ds :: later) ((pattern_of p, ds) :: l)
| if_gone p ds later l : (ds = [] \/ exists d, In d later /\ cancels d p) -> in_force later l ->
    in_force (Add p ds :: later) l
| if_other d later l : (forall p ds, d <> Add p ds) -> in_force later l -> in_force (d :: later) l.

(** The places searched for a file, with their numbers: the directories of every list whose
    pattern the file matches, then those of VPATH. *)
Inductive place (L : list ((str * option str) * list str)) (G : list str) (file : str) : nat -> nat -> str -> Prop :=
| pl_list vi p ds pi d stem : nth_error L vi = Some (p, ds) -> stem_of p file stem -> nth_error ds pi = Some d ->
    place L G file vi pi d
| pl_general pi d : nth_error G pi = Some d -> place L G file (length L) pi d.

Definition earlier (a b a' b' : nat) : Prop := a < a' \/ (a = a' /\ b < b').

Section Accept.
  Variable T : Type.
  Variable lookup_file : str -> option (bool * option T).
  Variable listed : str -> str -> bool.
  Variable stat : str -> option T.
  Definition target (n : str) : Prop := exists m, lookup_file n = Some (true, m).
  (** A file the makefiles mention counts as it is, unless only the name searched for is a
      target. *)
  Definition mentioned (file name : str) (time : option T) : Prop :=
    exists t, lookup_file name = Some (t, time) /\ (t = true \/ ~ target file).
  (** The directory of a name, and the name in it, below the directory [d]. *)
  Inductive split_below (d : str) : str -> str -> str -> Prop :=
  | sb_plain f : ~ In c_slash f -> split_below d f d f
  | sb_dir x f : ~ In c_slash f -> split_below d (x ++ c_slash :: f) (d ++ c_slash :: x) f.
  Inductive accepted (file d : str) : option T -> Prop :=
  | acc_mentioned time : mentioned file (d ++ c_slash :: file) time -> accepted file d time
  | acc_exists dir base t : (forall time, ~ mentioned file (d ++ c_slash :: file) time) ->
      split_below d file dir base -> listed dir base = true -> stat (d ++ c_slash :: file) = Some t -> accepted file d (Some t).

  (** Where a library is found: in the current directory, in a place searched, in a standard
      directory. *)
  Variable name_mtime : str -> option T.
  Variable std : list str.
  Inductive hit L G (x : str) : nat -> nat -> nat -> str -> option T -> Prop :=
  | h_here t : name_mtime x = Some t -> hit L G x 0 0 0 x (Some t)
  | h_path vi pi d time : place L G x vi pi d -> accepted x d time -> (forall y, x <> c_slash :: y) -> hit L G x 1 vi pi (d ++ c_slash :: x) time
  | h_std k d t : nth_error std k = Some d -> name_mtime (d ++ c_slash :: x) = Some t -> hit L G x 2 k 0 (d ++ c_slash :: x) (Some t).

End Accept.
