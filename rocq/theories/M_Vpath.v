(** Search paths: src/vpath.c, the directive vpath (src/read.c) and library_search
    (src/remake.c). *)
From Verif Require Import Base M_Quote M_Text.

(** src/vpath.c:27-35 struct vpath.  [vp_percent]: the offset of PERCENT in PATTERN.  MAXLEN only
    serves to size a buffer and as a shortcut. *)
Record vpath := mkvp { vp_pattern : str; vp_percent : option nat; vp_dirs : list str }.

(** MAP_BLANK|MAP_PATHSEP, with PATH_SEPARATOR_CHAR ':'. *)
Definition is_sep (c : ascii) : bool := isblank c || (c =?c c_colon).
Fixpoint skip_seps (s : str) : str :=
  match s with c :: s' => if is_sep c then skip_seps s' else s | [] => [] end.
Fixpoint to_sep (s : str) : str * str :=
  match s with
  | c :: s' => if is_sep c then ([], s) else let (v, r) := to_sep s' in (c :: v, r)
  | [] => ([], [])
  end.
Definition last_char (s : str) : ascii := last s c_nul.

(** src/vpath.c:250-266: one entry, without a trailing slash; "." is left out. *)
Definition entry (v : str) : list str :=
  let v := if (1 <? length v) && (last_char v =?c c_slash) then removelast v else v in
  match v with
  | [c] => if c =?c c_dot then [] else [v]
  | _ => [v]
  end.
(** src/vpath.c:229-271: the loop; every round takes a character, [n] is enough if it is the
    length.  dir_name returns the name it is given (src/dir.c:742-746, 433). *)
Fixpoint entries (n : nat) (p : str) : list str :=
  match n, p with
  | S n', _ :: _ => let (v, r) := to_sep p in entry v ++ entries n' (skip_seps r)
  | _, _ => []
  end.

(** find_percent edits the pattern in place: the text afterwards, and the percent's place. *)
Definition unquote_pattern (p : str) : str * option nat :=
  let f := find_percent p in
  match f_rest f with
  | Some r => (f_before f ++ r, Some (length (f_before f)))
  | None => (f_before f, None)
  end.
Definition opt_nat_eqb (a b : option nat) : bool :=
  match a, b with Some x, Some y => x =? y | None, None => true | _, _ => false end.

(** src/vpath.c:157-301 construct_vpath_list on the list VPATHS.  (If only one of the two
    percents is null, 183 subtracts a null pointer; the result is never equal here.) *)
Definition construct_vpath_list (pattern dirpath : option str) (vpaths : list vpath) : list vpath :=
  match pattern, dirpath with
  | None, None => []
  | Some p, None =>
      let (p, pct) := unquote_pattern p in
      filter (fun v => negb (opt_nat_eqb pct (vp_percent v) && str_eqb p (vp_pattern v))) vpaths
  | None, Some _ => vpaths                       (* no caller *)
  | Some p, Some d =>
      let (p, pct) := unquote_pattern p in
      let d := skip_seps d in
      match entries (length d) d with
      | [] => vpaths
      | ds => mkvp p pct ds :: vpaths
      end
  end.

(** src/read.c:869-894: the directive, from the expanded text after the word vpath. *)
Definition vpath_line (text : str) (vpaths : list vpath) : list vpath :=
  match find_next_token text with
  | None => construct_vpath_list None None vpaths
  | Some (vpat, cp) =>
      construct_vpath_list (Some vpat) (match next_token cp with [] => None | p => Some p end) vpaths
  end.

(** src/vpath.c:85-102: the list of the variable VPATH (or GPATH), from its stripped value. *)
Definition one_path (p : str) : option vpath :=
  match p with
  | [] => None
  | _ => match construct_vpath_list (Some [c_percent]) (Some p) [] with v :: _ => Some v | [] => None end
  end.

(** src/vpath.c:54-136 build_vpath_lists; [value] and [gvalue]: $(strip $(VPATH)), $(strip
    $(GPATH)). *)
Record paths := mkpaths { vpaths : list vpath; general_vpath : option vpath; gpaths : option vpath }.
Definition build_vpath_lists (l : list vpath) (value gvalue : str) : paths :=
  mkpaths (rev l) (one_path value) (one_path gvalue).

(** src/vpath.c:306-318 gpath_search (the test of maxlen is a shortcut). *)
Definition gpath_search (ps : paths) (file : str) (len : nat) : bool :=
  match gpaths ps with
  | Some g => existsb (fun gp => strneq gp file len && (length gp =? len)) (vp_dirs g)
  | None => false
  end.

(** src/function.c:290-314 pattern_matches, for a pattern edited before. *)
Definition vp_matches (v : vpath) (file : str) : bool :=
  match vp_percent v with
  | Some k => pattern_matches_at (firstn k (vp_pattern v)) (skipn (S k) (vp_pattern v)) file
  | None => pattern_matches (vp_pattern v) file
  end.

(** strrchr (file, '/'): what is before and after the last slash. *)
Fixpoint last_slash (s : str) : option (str * str) :=
  match s with
  | [] => None
  | c :: s' =>
      match last_slash s' with
      | Some (a, b) => Some (c :: a, b)
      | None => if c =?c c_slash then Some ([], s') else None
      end
  end.

Section Search.
  (** Time stamps; lookup_file: is_target, and last_mtime if that is OLD_MTIME or NEW_MTIME;
      dir_file_exists_p; stat.  A name has one answer throughout a search. *)
  Variable T : Type.
  Variable lookup_file : str -> option (bool * option T).
  Variable dir_file_exists : str -> str -> bool.
  Variable stat : str -> option T.

  (** [time]: [None] is UNKNOWN_MTIME.  [Undefined]: an unterminated string is read. *)
  Inductive vres := Nothing | Found (name : str) (time : option T) (vi pi : nat) | Undefined.

  (** src/vpath.c:374-532: the loop of selective_vpath_search.  [dp]: the directory prefix, if
      NAME_DPLEN is positive. *)
  Fixpoint try_dirs (not_target : bool) (dp : option str) (filename : str) (vi i : nat) (dirs : list str) : vres :=
    match dirs with
    | [] => Nothing
    | d :: dirs' =>
        let p := d ++ match dp with Some x => c_slash :: x | None => [] end in
        let slash := negb (length p =? 0) && negb (last_char p =?c c_slash) in
        let name := if slash then p ++ c_slash :: filename else p ++ filename in
        let f := lookup_file name in
        let known := match f with Some (t, _) => not_target || t | None => false end in
        if known || dir_file_exists p filename then
          (* the slash is put back at P *)
          if negb slash && (length filename =? 0) then Undefined
          else
            let name := if slash then name else p ++ c_slash :: tl filename in
            if known then Found name (match f with Some (_, m) => m | None => None end) vi i
            else match stat name with
                 | Some t => Found name (Some t) vi i
                 | None => try_dirs not_target dp filename vi (S i) dirs'
                 end
        else try_dirs not_target dp filename vi (S i) dirs'
    end.
  (** src/vpath.c:327-535 selective_vpath_search. *)
  Definition selective_vpath_search (v : vpath) (file : str) (vi : nat) : vres :=
    let not_target := match lookup_file file with Some (true, _) => false | _ => true end in
    let '(dp, filename) := match last_slash file with
                           | Some (c :: d, f) => (Some (c :: d), f)
                           | _ => (None, file)
                           end in
    try_dirs not_target dp filename vi 0 (vp_dirs v).
  (** src/vpath.c:544-590 vpath_search. *)
  Fixpoint search_lists (file : str) (general : option vpath) (vi : nat) (l : list vpath) : vres :=
    match l with
    | [] => match general with Some g => selective_vpath_search g file vi | None => Nothing end
    | v :: l' =>
        if vp_matches v file then
          match selective_vpath_search v file vi with
          | Nothing => search_lists file general (S vi) l'
          | r => r
          end
        else search_lists file general (S vi) l'
    end.
  Definition vpath_search (ps : paths) (file : str) : vres :=
    match file with
    | c :: _ => if c =?c c_slash then Nothing else search_lists file (general_vpath ps) 0 (vpaths ps)
    | [] => search_lists file (general_vpath ps) 0 (vpaths ps)
    end.

  (** ** Libraries *)

  (** name_mtime; [None] is NONEXISTENT_MTIME. *)
  Variable name_mtime : str -> option T.
  (** ~0 as unsigned int, and the directories of src/remake.c:1652-1665. *)
  Variable uint_max : nat.
  Variable std : list str.
  (** FILE with *MTIME_PTR, BEST_VPATH and BEST_PATH. *)
  Record best := mkbest { b_file : option (str * option T); b_vpath : nat; b_path : nat }.

  (** src/remake.c:1780-1797. *)
  Fixpoint std_dirs (libbuf : str) (vi : nat) (ds : list str) (b : best) : best :=
    match ds with
    | [] => b
    | d :: ds' =>
        let buf := d ++ c_slash :: libbuf in
        let b := match name_mtime buf with
                 | Some t =>
                     if match b_file b with None => true | Some _ => vi <? b_vpath b end
                     then mkbest (Some (buf, Some t)) vi (b_path b) else b
                 | None => b
                 end in
        std_dirs libbuf (S vi) ds' b
    end.
  (** src/remake.c:1690-1800: the loop over the words of .LIBPATTERNS.  (The copy of the text after
      the percent also takes the terminator; STD_DIRS is counted once.) *)
  Fixpoint lib_patterns (ps : paths) (lib : str) (pats : list str) (b : best) : option best :=
    match pats with
    | [] => Some b
    | p :: pats' =>
        match split_percent (find_percent p) with
        | (_, None) => lib_patterns ps lib pats' b           (* with a warning *)
        | (pre, Some post) =>
            let libbuf := pre ++ lib ++ post in
            match name_mtime libbuf with
            | Some t => Some (mkbest (Some (libbuf, Some t)) 0 0)
            | None =>
                match vpath_search ps libbuf with
                | Undefined => None
                | r =>
                    let b := match r with
                             | Found f m vi pi =>
                                 if match b_file b with
                                    | None => true
                                    | Some _ => (vi <? b_vpath b) || ((vi =? b_vpath b) && (pi <? b_path b))
                                    end
                                 then mkbest (Some (f, m)) vi pi else b
                             | _ => b
                             end in
                    lib_patterns ps lib pats' (std_dirs libbuf (uint_max - length std) std b)
                end
            end
        end
    end.
  (** src/remake.c:1649-1804 library_search; [pats]: the words of $(.LIBPATTERNS), [lib]: the
      name without -l. *)
  Definition library_search (ps : paths) (lib : str) (pats : list str) : option (option (str * option T)) :=
    option_map b_file (lib_patterns ps lib pats (mkbest None 0 0)).
End Search.
