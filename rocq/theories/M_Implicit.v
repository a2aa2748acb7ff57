(** Implicit rules: src/rule.c and src/implicit.c. *)
From Verif Require Import Base.

(** src/rule.h:25-38 struct rule.  A target: its text and the offset of the percent (SUFFIXES
    less one).  A prerequisite: its name and ignore_mtime.  The commands are known by a number.
    IN_USE is an argument of the search.  Prerequisites that need a second expansion are not
    modelled. *)
Record pdep := mkpdep { pd_name : str; pd_order : bool }.
Record rule := mkrule { r_targets : list (str * nat); r_deps : list pdep; r_cmds : option nat; r_terminal : bool }.

(** ** The list of rules *)

Fixpoint same_names (a b : list pdep) : bool :=
  match a, b with
  | [], [] => true
  | d :: a', d2 :: b' => str_eqb (pd_name d) (pd_name d2) && same_names a' b'
  | _, _ => false
  end.
(** src/rule.c:317-330: a target of the new rule is all targets of the old one, and the
    prerequisites have the same names. *)
Definition duplicates (new old : rule) : bool :=
  existsb (fun t => forallb (fun u => str_eqb (fst t) (fst u)) (r_targets old)) (r_targets new) &&
  same_names (r_deps new) (r_deps old).
Fixpoint remove_first (f : rule -> bool) (l : list rule) : list rule :=
  match l with [] => [] | r :: l' => if f r then l' else r :: remove_first f l' end.
(** src/rule.c:300-372 new_pattern_rule and freerule (src/rule.c:432-467). *)
Definition new_pattern_rule (new : rule) (override : bool) (l : list rule) : list rule :=
  if existsb (duplicates new) l then
    if override then remove_first (duplicates new) l ++ [new] else l
  else l ++ [new].

(** src/rule.c:172-217 convert_suffix_rule: the rule it creates; a null target is "(%.o)". *)
Definition suffix_rule (target source : option str) (cmds : option nat) : rule :=
  mkrule [match target with Some t => (c_percent :: t, 0) | None => ([c_lparen; c_percent; c_dot; ascii_of_nat 111; c_rparen], 1) end]
         (match source with Some s => [mkpdep (c_percent :: s) false] | None => [] end) cmds false.
(** A file of the table: its commands and whether it has prerequisites. *)
Definition ftable := str -> option (option nat * bool).
Definition dot_a : str := [c_dot; ascii_of_nat 97].
(** src/rule.c:256-292: the second loop. *)
Definition two_suffixes (files : ftable) (posix : bool) (d d2 : str) : list rule :=
  if str_eqb d d2 then []
  else match files (d ++ d2) with
       | Some (Some c, deps) =>
           if deps && posix then []
           else (if str_eqb d2 dot_a then [suffix_rule None (Some d) (Some c)] else []) ++
                [suffix_rule (Some d2) (Some d) (Some c)]
       | _ => []
       end.
(** src/rule.c:243-255. *)
Definition one_suffix (files : ftable) (posix : bool) (all : list str) (d : str) : list rule :=
  suffix_rule (Some d) None None ::
  match files d with
  | Some (Some c, _) => [suffix_rule (Some []) (Some d) (Some c)]
  | _ => []
  end ++ flat_map (two_suffixes files posix d) all.
(** src/rule.c:223-293 convert_to_pattern; [suffixes]: the prerequisites of .SUFFIXES. *)
Definition convert_to_pattern (files : ftable) (posix : bool) (suffixes : list str) (l : list rule) : list rule :=
  fold_left (fun l r => new_pattern_rule r false l) (flat_map (one_suffix files posix suffixes) suffixes) l.
(** src/rule.c:69-163 snap_implicit_rules: every rule gets the prerequisites of the global
    .EXTRA_PREREQS.  (The flag CHANGED is not used by the search any more.) *)
Definition snap_implicit_rules (extra : list str) (l : list rule) : list rule :=
  map (fun r => mkrule (r_targets r) (r_deps r ++ map (fun e => mkpdep e false) extra) (r_cmds r) (r_terminal r)) l.

(** ** The search *)

(** src/ar.c:34-53 ar_name.  (For lib((entry)) make stops.) *)
Fixpoint from_paren (s : str) : option str :=
  match s with [] => None | c :: s' => if c =?c c_lparen then Some s' else from_paren s' end.
Definition ar_name (n : str) : bool :=
  match n with
  | [] => false
  | c :: n' =>
      if c =?c c_lparen then false
      else match from_paren n' with
           | Some m => (2 <=? length m) && (last m c_nul =?c c_rparen)
           | None => false
           end
  end.

(** memrchr (filename, '/', namelen - 1), as the length of the text up to the slash. *)
Fixpoint path_length (n : str) : nat :=
  match n with
  | [] => 0
  | c :: n' =>
      match path_length n' with
      | 0 => match n' with [] => 0 | _ => if c =?c c_slash then 1 else 0 end
      | S k => S (S k)
      end
  end.
(** src/implicit.c:263-275: PATHLEN. *)
Definition pathlen (archive : bool) (filename : str) : nat :=
  if archive || ar_name filename then 0 else path_length filename.

Definition has_slash (s : str) : bool := existsb (fun c => c =?c c_slash) s.
(** src/implicit.c:313-371: does a target match?  The offset and the length of the stem, and
    CHECK_LASTSLASH. *)
Definition match_target (filename : str) (pl : nat) (t : str * nat) : option (nat * nat * bool) :=
  let (target, pct) := t in
  if length filename <? length target then None
  else
    let stemlen := length filename - length target + 1 in
    let check := (0 <? pl) && negb (has_slash target) in
    if check && (stemlen <? pl) then None
    else
      let stemlen := if check then stemlen - pl else stemlen in
      let stem := if check then pct + pl else pct in
      let start := if check then skipn pl filename else filename in
      if negb (str_eqb (firstn pct target) (firstn pct start)) then None
      else if str_eqb (skipn (S pct) target) (skipn (stem + stemlen) filename) then Some (stem, stemlen, check)
      else None.

Definition match_anything (t : str * nat) : bool := length (fst t) =? 1.

(** src/implicit.c:169-183 struct tryrule; RULE with its place in the list. *)
Record tryrule := mktry { t_index : nat; t_rule : rule; t_matches : nat; t_stem : nat; t_stemlen : nat; t_check : bool; t_order : nat }.
(** TRYRULES[].stemlen: with the directory. *)
Definition full_len (pl : nat) (t : tryrule) : nat := t_stemlen t + (if t_check t then pl else 0).

(** src/implicit.c:294-389, one rule: the entries it adds, and whether a target that is not just
    "%" matched.  The ORDER is set afterwards. *)
Fixpoint try_targets (filename : str) (pl : nat) (recursing : bool) (i : nat) (r : rule) (ti : nat) (ts : list (str * nat)) : list tryrule * bool :=
  match ts with
  | [] => ([], false)
  | t :: ts' =>
      let (l, sp) := try_targets filename pl recursing i r (S ti) ts' in
      if recursing && match_anything t && negb (r_terminal r) then (l, sp)
      else match match_target filename pl t with
           | None => (l, sp)
           | Some (st, sl, ck) =>
               let sp := negb (match_anything t) || sp in
               match r_deps r, r_cmds r with
               | [], None => (l, sp)
               | _, _ => (mktry i r ti st sl ck 0 :: l, sp)
               end
           end
  end.
Definition in_list (x : nat) (l : list nat) : bool := existsb (Nat.eqb x) l.
Fixpoint try_rules (filename : str) (pl : nat) (recursing : bool) (in_use : list nat) (i : nat) (rs : list rule) : list tryrule * bool :=
  match rs with
  | [] => ([], false)
  | r :: rs' =>
      let (l, sp) := try_rules filename pl recursing in_use (S i) rs' in
      match r_deps r, r_cmds r with
      | _ :: _, None => (l, sp)
      | _, _ =>
          if in_list i in_use then (l, sp)
          else let (l1, sp1) := try_targets filename pl recursing i r 0 (r_targets r) in (l1 ++ l, sp1 || sp)
      end
  end.
Fixpoint number (n : nat) (l : list tryrule) : list tryrule :=
  match l with
  | [] => []
  | t :: l' => mktry (t_index t) (t_rule t) (t_matches t) (t_stem t) (t_stemlen t) (t_check t) n :: number (S n) l'
  end.

(** src/implicit.c:185-192 stemlen_compare, without the conversion to int. *)
Definition before (pl : nat) (a b : tryrule) : bool :=
  (full_len pl a <? full_len pl b) || ((full_len pl a =? full_len pl b) && (t_order a <? t_order b)).
(** qsort. *)
Fixpoint insert (pl : nat) (t : tryrule) (l : list tryrule) : list tryrule :=
  match l with
  | [] => [t]
  | u :: l' => if before pl u t then u :: insert pl t l' else t :: l
  end.
Definition sort_rules (pl : nat) (l : list tryrule) : list tryrule := fold_right (insert pl) [] l.

(** src/implicit.c:396-412. *)
Definition candidates (filename : str) (pl : nat) (recursing : bool) (in_use : list nat) (rs : list rule) : list tryrule :=
  let (l, specific) := try_rules filename pl recursing in_use 0 rs in
  let l := sort_rules pl (number 0 l) in
  if specific then filter (fun t => r_terminal (t_rule t) || negb (existsb match_anything (r_targets (t_rule t)))) l else l.

(** strchr (nptr, '%'). *)
Fixpoint at_percent (s : str) : option (str * str) :=
  match s with
  | [] => None
  | c :: s' => if c =?c c_percent then Some ([], s') else option_map (fun ab => (c :: fst ab, snd ab)) (at_percent s')
  end.
Definition stem_of_try (filename : str) (t : tryrule) : str := firstn (t_stemlen t) (skipn (t_stem t) filename).
(** src/implicit.c:521-538: DEPNAME. *)
Definition dep_text (filename : str) (pl : nat) (t : tryrule) (d : pdep) : str :=
  match at_percent (pd_name d) with
  | None => pd_name d
  | Some (a, b) => (if t_check t then firstn pl filename else []) ++ a ++ stem_of_try filename t ++ b
  end.

(** What a search finds: the rule, the matching target, the stem, the prerequisites (with their
    ignore_mtime; those that are intermediate files with what was found for them), and the other
    targets of the rule. *)
Inductive plan := Plan (rule matches : nat) (stem : str) (deps : list (str * bool * option plan)) (also : list str).

Section Search.
  Variable rules : list rule.
  (** GET_PATH_MAX. *)
  Variable path_max : nat.
  (** PARSE_FILE_SEQ on one prerequisite: wildcards, leading "./". *)
  Variable parse : str -> list str.
  (** lookup_file before the search, file_exists_p, and vpath_search when the names given have
      been entered since. *)
  Variable lookup exists_p : str -> bool.
  Variable vpath : list str -> str -> bool.

  (** Names entered in the table of files, and names marked as impossible. *)
  Record sstate := mkst { s_files : list str; s_impossible : list str }.
  Definition mem (n : str) (l : list str) : bool := existsb (str_eqb n) l.
  (** src/implicit.c:714-760. *)
  Definition available (s : sstate) (expl : list str) (n : str) : bool :=
    mem n expl || (lookup n || mem n (s_files s)) || exists_p n || vpath (s_files s) n.

  Inductive attempt := Applies | Fails | Impossible | OutOfFuel.
  Definition pats := list (str * bool * option plan).

  Section Try.
    (** The recursive call. *)
    Variable rec : str -> sstate -> option (sstate * option plan).
    (** src/implicit.c:686-800: the names of one prerequisite. *)
    Fixpoint try_names (intermed_ok order : bool) (expl : list str) (ns : list str) (s : sstate) (pat : pats) : attempt * sstate * pats :=
      match ns with
      | [] => (Applies, s, pat)
      | n :: ns' =>
          if mem n (s_impossible s) then (Impossible, s, pat)
          else if available s expl n then try_names intermed_ok order expl ns' s (pat ++ [(n, order, None)])
          else if intermed_ok then
            match rec n s with
            | None => (OutOfFuel, s, pat)
            | Some (s', Some p) => try_names intermed_ok order expl ns' s' (pat ++ [(n, order, Some p)])
            | Some (s', None) => (Fails, mkst (s_files s') (n :: s_impossible s'), pat)
            end
          else (Fails, s, pat)
      end.
    (** src/implicit.c:503-808: the prerequisites of one rule. *)
    Fixpoint try_deps (filename : str) (pl : nat) (t : tryrule) (intermed_ok : bool) (expl : list str) (ds : list pdep) (s : sstate) (pat : pats) : attempt * sstate * pats :=
      match ds with
      | [] => (Applies, s, pat)
      | d :: ds' =>
          match try_names intermed_ok (pd_order d) expl (parse (dep_text filename pl t d)) s pat with
          | (Applies, s', pat') => try_deps filename pl t intermed_ok expl ds' s' pat'
          | r => r
          end
      end.
  End Try.

  (** src/implicit.c:418-831: one pass over TRYRULES.  The result: the state, PAT, the rule
      found, and the entries that are left.  PAT is not reset for a rule without
      prerequisites. *)
  Fixpoint one_pass (rec : nat -> str -> sstate -> option (sstate * option plan)) (filename : str) (pl : nat) (intermed_ok : bool) (expl : list str) (ts : list tryrule) (s : sstate) (pat : pats)
      : option (sstate * pats * option tryrule * list tryrule) :=
    match ts with
    | [] => Some (s, pat, None, [])
    | t :: ts' =>
        let skip := match one_pass rec filename pl intermed_ok expl ts' s pat with
                    | Some (s', pat', f, l) => Some (s', pat', f, t :: l)
                    | None => None
                    end in
        if intermed_ok && r_terminal (t_rule t) then skip
        else if path_max <? full_len pl t then skip
        else match r_deps (t_rule t) with
             | [] => Some (s, pat, Some t, ts)
             | ds =>
                 match try_deps (rec (t_index t)) filename pl t intermed_ok expl ds s [] with
                 | (OutOfFuel, _, _) => None
                 | (Applies, s', pat') => Some (s', pat', Some t, ts)
                 | (Fails, s', pat') =>
                     match one_pass rec filename pl intermed_ok expl ts' s' pat' with
                     | Some (s'', pat'', f, l) => Some (s'', pat'', f, t :: l)
                     | None => None
                     end
                 | (Impossible, s', pat') => one_pass rec filename pl intermed_ok expl ts' s' pat'
                 end
             end
    end.

  (** src/implicit.c:963-990: the names of the other targets; FULLSTEMLEN characters of the stem. *)
  Definition also_make (r : rule) (matches : nat) (stem : str) : list str :=
    flat_map (fun jt : nat * (str * nat) => let (j, t) := jt in
                if j =? matches then [] else [firstn (snd t) (fst t) ++ stem ++ skipn (S (snd t)) (fst t)])
             (combine (seq 0 (length (r_targets r))) (r_targets r)).
  Definition plan_deps (p : plan) : list str := match p with Plan _ _ _ ds _ => map (fun d => fst (fst d)) ds end.
  (** src/implicit.c:852-926: what is entered in the table of files. *)
  Definition entered (recursing : bool) (pat : pats) : list str :=
    flat_map (fun d : str * bool * option plan =>
      let '(n, _, sub) := d in
      match sub with Some p => n :: plan_deps p | None => [] end ++ if recursing then [] else [n]) (rev pat).
  (** src/implicit.c:834-999: the rule found is put into effect. *)
  Definition finish (filename : str) (pl : nat) (recursing : bool) (s : sstate) (pat : pats) (t : tryrule) : sstate * plan :=
    let stem := (if t_check t then firstn pl filename else []) ++ stem_of_try filename t in
    let also := also_make (t_rule t) (t_matches t) stem in
    (mkst (s_files s ++ entered recursing pat ++ also) (s_impossible s), Plan (t_index t) (t_matches t) stem pat also).

  (** src/implicit.c:200-999 pattern_search.  [archive]: FILENAME is already the text from the
      parenthesis; [expl]: the names of FILE->deps.  [None]: the fuel was not enough. *)
  Fixpoint pattern_search (fuel : nat) (in_use : list nat) (recursing archive : bool) (filename : str) (expl : list str) (s : sstate) : option (sstate * option plan) :=
    match fuel with
    | 0 => None
    | S fuel' =>
        let pl := pathlen archive filename in
        let rec i n s := pattern_search fuel' (i :: in_use) true false n [] s in
        let ts := candidates filename pl recursing in_use rules in
        match one_pass rec filename pl false expl ts s [] with
        | None => None
        | Some (s1, pat, Some t, _) => let (s', p) := finish filename pl recursing s1 pat t in Some (s', Some p)
        | Some (s1, _, None, ts1) =>
            match one_pass rec filename pl true expl ts1 s1 [] with
            | None => None
            | Some (s2, pat, Some t, _) => let (s', p) := finish filename pl recursing s2 pat t in Some (s', Some p)
            | Some (s2, _, None, _) => Some (s2, None)
            end
        end
    end.

  (** src/implicit.c:35-63 try_implicit_rule. *)
  Definition try_implicit_rule (fuel : nat) (name : str) (expl : list str) (s : sstate) : option (sstate * option plan) :=
    match pattern_search fuel [] false false name expl s with
    | Some (s', None) =>
        if ar_name name then
          pattern_search fuel [] false true (c_lparen :: match from_paren name with Some m => m | None => [] end) expl s'
        else Some (s', None)
    | r => r
    end.
End Search.
