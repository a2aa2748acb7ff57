(** The rules of a makefile in the data base: src/read.c record_files, src/file.c enter_prereqs,
    src/file_basic.c lookup_file and enter_file. *)
From Verif Require Import Base M_Text M_Quote M_Seq.
Open Scope string_scope.
Open Scope list_scope.
Open Scope nat_scope.

(** A prerequisite; [d_order]: behind a bar. *)
Record dep := mkdep { d_name : str; d_order : bool }.
(** A recipe; the number stands for its address. *)
Record recipe := mkrecipe { c_id : nat; c_text : str }.
(** A rule as eval hands it over (src/read.c:1976-1983); the prerequisites have been split (they are kept for
    later if they contain a dollar sign and .SECONDEXPANSION was seen; not modelled).
    [r_pattern]: the texts around the percent of a static pattern. *)
Record rule := mkrule { r_targets : list str; r_two : bool; r_grouped : bool; r_pattern : option (str * str);
                        r_deps : list dep; r_cmds : option recipe }.
(** What struct file has of a rule. *)
Record entry := mkentry { e_deps : list dep; e_cmds : option recipe; e_target : bool; e_stem : option str; e_also : list str }.
Definition blank_entry : entry := mkentry [] None false None [].
(** The entries of a name: one, or a chain of double-colon entries. *)
Inductive slot := Single (e : entry) | Double (l : list entry).
(** The table of files (C01), as a list; src/file_basic.c. *)
Definition db := list (str * slot).
Fixpoint find (n : str) (d : db) : option slot := match d with [] => None | (m, s) :: d' => if str_eqb n m then Some s else find n d' end.
Fixpoint put (n : str) (s : slot) (d : db) : db :=
  match d with [] => [(n, s)] | (m, s') :: d' => if str_eqb n m then (m, s) :: d' else (m, s') :: put n s d' end.
Inductive warning := W_override (n : str) | W_twice (n : str) | W_nomatch (n : str) | W_mixed.
Record state := mkstate { s_db : db; s_patterns : list rule; s_warn : list warning }.

(** src/file_basic.c:61-119 lookup_file. *)
Definition lookup_file (n : str) (d : db) : option slot := find (or_dot (strip_dots (length n) n)) d.

(** src/file.c:374-386: prerequisites become files. *)
Definition enter (n : str) (d : db) : db :=
  match lookup_file n d with
  | Some _ => d
  | None => match find n d with Some _ => d | None => put n (Single blank_entry) d end
  end.
Definition enter_all (l : list dep) (d : db) : db := fold_left (fun d x => enter (d_name x) d) l d.
(** src/file.c:323-371: a prerequisite of a static pattern rule gets the stem.  A name that becomes empty is left out. *)
Definition dep_stem (stem : str) (x : dep) : list dep :=
  match split_percent (find_percent (d_name x)) with
  | (_, None) => [x]
  | (p, Some q) =>
      match (match stem with [] => Some (p ++ q) | _ :: _ => patsubst_expand_pat stem [] (Some []) p (Some q) end) with
      | Some (c :: n) => [mkdep (c :: n) (d_order x)]
      | _ => []
      end
  end.
(** src/read.c:2215-2219: the stem of a target. *)
Definition stem_of (pre post name : str) : str :=
  match patsubst_expand_pat name pre (Some post) [] (Some []) with Some s => s | None => [] end.

(** src/read.c:2229-2257: old and new prerequisites. *)
Definition add_deps (cmds : option recipe) (this old : list dep) : list dep :=
  match this with
  | [] => old
  | _ :: _ => match old with [] => this | _ :: _ => match cmds with Some _ => this ++ old | None => old ++ this end end
  end.
Definition n_default : str := ".DEFAULT".
Definition n_suffixes : str := ".SUFFIXES".

Section Target.
  (** The rule; [group]: its also_make list. *)
  Variable r : rule.
  Variable group : list str.

  (** src/read.c:2110-2117 and 2212-2227 for one target: prerequisites and stem. *)
  Definition this_deps (name : str) : list dep :=
    match r_pattern r with
    | None => r_deps r
    | Some (pre, post) => if pattern_matches_at pre post name then flat_map (dep_stem (stem_of pre post name)) (r_deps r) else []
    end.
  (** As line 2113 sees them, before the percent signs are replaced. *)
  Definition raw_deps (name : str) : list dep :=
    match r_pattern r with
    | None => r_deps r
    | Some (pre, post) => if pattern_matches_at pre post name then r_deps r else []
    end.
  Definition this_stem (name : str) (old : option str) : option str :=
    match r_pattern r with None => old | Some (pre, post) => Some (stem_of pre post name) end.
  Definition same_cmds (a b : option recipe) : bool := match a, b with Some x, Some y => c_id x =? c_id y | _, _ => false end.
  Definition none_b {A} (o : option A) : bool := match o with None => true | Some _ => false end.
  Definition nil_b {A} (l : list A) : bool := match l with [] => true | _ => false end.
  Definition also (old : list str) : list str := if r_grouped r then group else old.

  (** src/read.c:2120-2261 for one target.  [None]: make stops. *)
  Definition record_target (name : str) (s : state) : option state :=
    let nomatch := match r_pattern r with Some (pre, post) => if pattern_matches_at pre post name then [] else [W_nomatch name] | None => [] end in
    let this := this_deps name in
    let done slot warn :=
      let d := put name slot (s_db s) in
      Some (mkstate (match r_pattern r with Some _ => enter_all this d | None => d end) (s_patterns s) (s_warn s ++ nomatch ++ warn)) in
    if negb (r_two r) then
      match find name (s_db s) with
      | Some (Double _) => None
      | f =>
          let e := match f with Some (Single e) => e | _ => blank_entry end in
          let warn :=
            if same_cmds (r_cmds r) (e_cmds e) then [W_twice name]
            else if negb (none_b (r_cmds r)) && negb (none_b (e_cmds e)) && e_target e then [W_override name] else [] in
          let cmds := match r_cmds r with
                      | Some c => Some c
                      | None => if str_eqb name n_default && nil_b (raw_deps name) then None else e_cmds e
                      end in
          let old := if str_eqb name n_suffixes && nil_b (raw_deps name) then [] else e_deps e in
          done (Single (mkentry (add_deps (r_cmds r) this old) cmds true (this_stem name (e_stem e)) (also (e_also e)))) warn
      end
    else
      let stop := match lookup_file name (s_db s) with Some (Single e) => e_target e | _ => false end in
      if stop then None
      else
        let make e := mkentry (add_deps (r_cmds r) this (e_deps e)) (r_cmds r) true (this_stem name (e_stem e)) (also (e_also e)) in
        match find name (s_db s) with
        | Some (Double l) => done (Double (l ++ [make blank_entry])) []
        | Some (Single e) => done (Double [make e]) []
        | None => done (Double [make blank_entry]) []
        end.
  Fixpoint record_targets (names : list str) (s : state) : option state :=
    match names with [] => Some s | n :: names' => match record_target n s with Some s' => record_targets names' s' | None => None end end.
End Target.

Definition whole (f : found) : str := f_before f ++ match f_rest f with Some t => t | None => [] end.
(** Target names without their backslashes before percent signs; a percent sign is reported. *)
Fixpoint unpercent (l : list str) : option (list str * bool) :=
  match l with
  | [] => Some ([], false)
  | n :: l' =>
      match find_percent_cached n, unpercent l' with
      | Some f, Some (m, b) => Some (whole f :: m, negb (none_b (f_rest f)) || b)
      | _, _ => None
      end
  end.
Definition has_percent (n : str) : bool := match find_percent_cached n with Some f => negb (none_b (f_rest f)) | None => false end.
(** src/read.c:1976-2290 record_files.  A pattern rule goes to the list of pattern rules (create_pattern_rule).
    The also_make lists are given to the targets at once (the warning about group membership is left out).
    Special targets like .POSIX are recorded, their effect is not. *)
Definition record_files (r : rule) (s : state) : option state :=
  if r_grouped r && none_b (r_cmds r) then None
  else match r_targets r with
  | [] => None
  | t0 :: ts =>
      if has_percent t0 then
        if negb (none_b (r_pattern r)) then None
        else if forallb has_percent ts then Some (mkstate (s_db s) (s_patterns s ++ [r]) (s_warn s)) else None
      else
        match unpercent (t0 :: ts) with
        | None => None
        | Some (names, mixed) =>
            let d := match r_pattern r with None => enter_all (r_deps r) (s_db s) | Some _ => s_db s end in
            record_targets r (rev names) names (mkstate d (s_patterns s) (s_warn s ++ if mixed then [W_mixed] else []))
        end
  end.
Fixpoint record_all (l : list rule) (s : state) : option state :=
  match l with [] => Some s | r :: l' => match record_files r s with Some s' => record_all l' s' | None => None end end.
