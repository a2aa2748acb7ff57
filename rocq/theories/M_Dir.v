(** The cache of directories: src/dir.c. *)
From Verif Require Import Base.
Open Scope list_scope.
Open Scope nat_scope.

(** What the system says at one moment: stat on a directory (device and inode as one number), and what opendir and
    readdir give (the names; entries that are not REAL_DIR_ENTRY left out).  opendir succeeds or not by the name; the
    stream goes on to give what was there when it was opened. *)
Record world := mkworld { w_stat : str -> option nat; w_open : str -> option (list str) }.

(** src/dir.c:229-254 struct directory_contents.  [c_table]: dirfiles.ht_vec is not null; the names with their flag
    'impossible' (src/dir.c:373-379), each name once; the rest of the stream. *)
Record contents := mkcontents { c_table : bool; c_files : list (str * bool); c_stream : option (list str) }.

(** A pointer to contents: those of the table of contents, by their number, or those file_impossible has allocated
    for one directory. *)
Inductive place := Node (i : nat) | Own (d : str).
(** src/dir.c:332-340 struct directory: the table by name. *)
Record state := mkstate { s_dirs : str -> option (option place); s_contents : place -> option contents; s_open : nat }.
Definition init : state := mkstate (fun _ => None) (fun _ => None) 0.

Definition max_open : nat := 10.  (** src/dir.c:366 *)

Definition place_eqb (p q : place) : bool :=
  match p, q with Node i, Node j => i =? j | Own d, Own e => str_eqb d e | _, _ => false end.
Definition set_dir (st : state) (d : str) (p : option place) : state :=
  mkstate (fun e => if str_eqb e d then Some p else s_dirs st e) (s_contents st) (s_open st).
Definition set_contents (st : state) (p : place) (c : contents) (n : nat) : state :=
  mkstate (s_dirs st) (fun q => if place_eqb q p then Some c else s_contents st q) n.

(** The hash table of names: hash_find_item; hash_insert, which replaces. *)
Fixpoint find_item (l : list (str * bool)) (f : str) : option bool :=
  match l with [] => None | (g, b) :: l' => if str_eqb g f then Some b else find_item l' f end.
Fixpoint insert (l : list (str * bool)) (f : str) (b : bool) : list (str * bool) :=
  match l with [] => [(f, b)] | (g, x) :: l' => if str_eqb g f then (f, b) :: l' else (g, x) :: insert l' f b end.

(** src/dir.c:537-577: reads the stream up to the name, if any; [true]: it was found. *)
Fixpoint read_on (files : list (str * bool)) (stream : list str) (f : option str) : list (str * bool) * option (list str) * bool :=
  match stream with
  | [] => (files, None, false)
  | g :: rest =>
      let files' := insert files g false in
      match f with
      | Some f' => if str_eqb g f' then (files', Some rest, true) else read_on files' rest f
      | None => read_on files' rest f
      end
  end.

(** src/dir.c:498-590 dir_contents_file_exists_p; with the number of open directories. *)
Definition contents_exists (c : contents) (n : nat) (f : option str) : contents * nat * bool :=
  let read :=
    match c_stream c with
    | None => (c, n, false)
    | Some s => match read_on (c_files c) s f with
                | (files, Some rest, b) => (mkcontents true files (Some rest), n, b)
                | (files, None, b) => (mkcontents true files None, n - 1, b)
                end
    end in
  if c_table c then
    match f with
    | Some [] => (c, n, true)
    | Some f' => match find_item (c_files c) f' with
                 | Some impossible => (c, n, negb impossible)
                 | None => read
                 end
    | None => read
    end
  else (c, n, false).

(** src/dir.c:414-493 find_directory; returns dir->contents. *)
Definition find_directory (w : world) (st : state) (d : str) : state * option place :=
  match s_dirs st d with
  | Some p => (st, p)
  | None =>
      match w_stat w d with
      | None => (set_dir st d None, None)
      | Some i =>
          let st1 := set_dir st d (Some (Node i)) in
          match s_contents st (Node i) with
          | Some _ => (st1, Some (Node i))
          | None =>
              match w_open w d with
              | None => (set_contents st1 (Node i) (mkcontents false [] None) (s_open st), Some (Node i))
              | Some l =>
                  let c := mkcontents true [] (Some l) in
                  let n := S (s_open st) in
                  if n =? max_open
                  then let '(c', n', _) := contents_exists c n None in (set_contents st1 (Node i) c' n', Some (Node i))
                  else (set_contents st1 (Node i) c n, Some (Node i))
              end
          end
      end
  end.

(** src/dir.c:595-600 dir_file_exists_p. *)
Definition dir_file_exists_p (w : world) (st : state) (d f : str) : state * bool :=
  let (st1, p) := find_directory w st d in
  match p with
  | None => (st1, false)
  | Some q => match s_contents st1 q with
              | None => (st1, false)
              | Some c => let '(c', n, b) := contents_exists c (s_open st1) (Some f) in (set_contents st1 q c' n, b)
              end
  end.

(** src/dir.c:669-688: the entry is made, in contents that are allocated or whose table is made if there is none. *)
Definition mark (w : world) (st : state) (d f : str) : state :=
  let (st1, p) := find_directory w st d in
  let q := match p with Some q => q | None => Own d end in
  let st2 := match p with Some _ => st1 | None => set_dir st1 d (Some (Own d)) end in
  let c := match s_contents st1 q with Some c => c | None => mkcontents false [] None end in
  set_contents st2 q (mkcontents true (insert (c_files c) f true) (c_stream c)) (s_open st1).

(** src/dir.c:722-740. *)
Definition marked (w : world) (st : state) (d f : str) : state * bool :=
  let (st1, p) := find_directory w st d in
  (st1, match p with
        | None => false
        | Some q => match s_contents st1 q with
                    | Some c => if c_table c then match find_item (c_files c) f with Some b => b | None => false end else false
                    | None => false
                    end
        end).

(** src/dir.c:849-870 open_dirstream and 872-919 read_dirstream to its end: the names, in some order. *)
Definition list_dir (w : world) (st : state) (d : str) : state * option (list str) :=
  let (st1, p) := find_directory w st d in
  match p with
  | None => (st1, None)
  | Some q => match s_contents st1 q with
              | None => (st1, None)
              | Some c => if c_table c then
                            let '(c', n, _) := contents_exists c (s_open st1) None in
                            (set_contents st1 q c' n, Some (map fst (filter (fun x => negb (snd x)) (c_files c'))))
                          else (st1, None)
              end
  end.

(** src/dir.c:619-635, and the same in 650-667 and 701-718: the name up to its last slash, and what follows. *)
Fixpoint last_slash (s : str) : option (str * str) :=
  match s with
  | [] => None
  | c :: s' => match last_slash s' with
               | Some (d, f) => Some (c :: d, f)
               | None => if c =?c c_slash then Some ([], s') else None
               end
  end.
Definition split_name (name : str) : str * str :=
  match last_slash name with
  | None => ([c_dot], name)
  | Some ([], f) => ([c_slash], f)
  | Some (d, f) => (d, f)
  end.
(** src/dir.c:604-636 file_exists_p (for names that are not members of archives), 642-689 file_impossible, 693-740
    file_impossible_p. *)
Definition file_exists_p (w : world) (st : state) (name : str) : state * bool := let (d, f) := split_name name in dir_file_exists_p w st d f.
Definition file_impossible (w : world) (st : state) (name : str) : state := let (d, f) := split_name name in mark w st d f.
Definition file_impossible_p (w : world) (st : state) (name : str) : state * bool := let (d, f) := split_name name in marked w st d f.

(** A call, and what it returns. *)
Inductive call := Exists (d f : str) | Mark (d f : str) | Marked (d f : str) | Glob (d : str).
Inductive answer := Bool (b : bool) | Names (l : option (list str)) | Nothing.
Definition do_call (w : world) (st : state) (k : call) : state * answer :=
  match k with
  | Exists d f => let (st', b) := dir_file_exists_p w st d f in (st', Bool b)
  | Mark d f => (mark w st d f, Nothing)
  | Marked d f => let (st', b) := marked w st d f in (st', Bool b)
  | Glob d => let (st', l) := list_dir w st d in (st', Names l)
  end.
(** Calls, each with the system as it is then. *)
Definition calls (st : state) (l : list (world * call)) : state := fold_left (fun st x => fst (do_call (fst x) st (snd x))) l st.
