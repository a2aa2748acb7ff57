(** What implicit rules mean. *)
From Verif Require Import Base M_Implicit.

(** A reference to a member of an archive, lib(member). *)
Definition member_reference (n : str) : Prop :=
  exists a m, n = a ++ c_lparen :: m ++ [c_rparen] /\ a <> [] /\ ~ In c_lparen a /\ m <> [].
(** The directory of a name and the rest; a slash at the end does not count. *)
Inductive parts (whole : Prop) : str -> str -> str -> Prop :=
| p_whole n : whole -> parts whole n [] n
| p_none n : ~ whole -> ~ In c_slash (removelast n) -> parts whole n [] n
| p_dir d b : ~ whole -> b <> [] -> ~ In c_slash (removelast b) -> parts whole (d ++ c_slash :: b) (d ++ [c_slash]) b.

(** A target pattern: the text before and after the percent. *)
Definition pattern (t : str * nat) (pre suf : str) : Prop := fst t = pre ++ c_percent :: suf /\ snd t = length pre.
Definition well_formed (r : rule) : Prop := forall t, In t (r_targets r) -> exists pre suf, pattern t pre suf.
Definition anything (t : str * nat) : Prop := fst t = [c_percent].

(** A name fits a pattern: a pattern without slash is held against the name without its
    directory.  The stem is [prefix ++ st].  It is not empty. *)
Inductive fits (archive : bool) (name : str) (t : str * nat) : str -> str -> Prop :=
| f_base dir base pre suf st : parts (archive = true \/ member_reference name) name dir base -> dir <> [] ->
    pattern t pre suf -> ~ In c_slash (fst t) -> base = pre ++ st ++ suf -> fits archive name t dir st
| f_whole dir base pre suf st : parts (archive = true \/ member_reference name) name dir base ->
    pattern t pre suf -> (dir = [] \/ In c_slash (fst t)) -> name = pre ++ st ++ suf -> st <> [] -> fits archive name t [] st.

(** A prerequisite with the stem put in. *)
Inductive instance (prefix st : str) : str -> str -> Prop :=
| i_plain n : ~ In c_percent n -> instance prefix st n n
| i_stem a b : ~ In c_percent a -> instance prefix st (a ++ c_percent :: b) (prefix ++ a ++ st ++ b).

Section Rules.
  Variable rules : list rule.
  Section Context.
    (** The rules that may not be used, whether the file is an intermediate one, and the name. *)
    Variable in_use : list nat.
    Variable recursing archive : bool.
    Variable name : str.

    (** A rule without commands is cancelled if it has prerequisites. *)
    Definition candidate (i ti : nat) (r : rule) (t : str * nat) (prefix st : str) : Prop :=
      nth_error rules i = Some r /\ ~ In i in_use /\ (r_deps r = [] \/ r_cmds r <> None) /\
      nth_error (r_targets r) ti = Some t /\ (recursing = true -> anything t -> r_terminal r = true) /\
      fits archive name t prefix st.
    Definition specific : Prop := exists i ti r t prefix st, candidate i ti r t prefix st /\ ~ anything t.
    (** A rule with neither commands nor prerequisites only counts as a specific one.  A rule that
        matches anything and is not terminal yields to a specific one. *)
    Definition eligible (i ti : nat) (r : rule) (prefix st : str) : Prop :=
      (exists t, candidate i ti r t prefix st) /\ r_cmds r <> None /\
      (specific -> r_terminal r = true \/ forall t, In t (r_targets r) -> ~ anything t).
  End Context.

  (** The order: the length of the stem, then the place. *)
  Definition sooner (l i ti l' i' ti' : nat) : Prop := l < l' \/ (l = l' /\ (i < i' \/ (i = i' /\ ti < ti'))).

  Variable path_max : nat.
  Variable parse : str -> list str.
  (** A name the rule needs. *)
  Definition needs (r : rule) (prefix st : str) (n : str) : Prop :=
    exists d x, In d (r_deps r) /\ instance prefix st (pd_name d) x /\ In n (parse x).
  (** All of them, with their marks, in order. *)
  Inductive needed (prefix st : str) : list pdep -> list (str * bool) -> Prop :=
  | n_nil : needed prefix st [] []
  | n_cons d ds x l : instance prefix st (pd_name d) x -> needed prefix st ds l ->
      needed prefix st (d :: ds) (map (fun n => (n, pd_order d)) (parse x) ++ l).

  Section Direct.
    Variable avail impossible : str -> Prop.
    (** A rule applies as things are. *)
    Definition direct in_use recursing archive name i ti r prefix st : Prop :=
      eligible in_use recursing archive name i ti r prefix st /\ length (prefix ++ st) <= path_max /\
      forall n, needs r prefix st n -> ~ impossible n /\ avail n.
  End Direct.

  (** A name can be made, ideally: by a rule that applies as things are, or by one that is not
      terminal and whose prerequisites can be had or made. *)
  Inductive makeable (avail : str -> Prop) (recursing archive : bool) (name : str) : Prop :=
  | mk_direct i ti r prefix st : direct avail (fun _ => False) [] recursing archive name i ti r prefix st -> makeable avail recursing archive name
  | mk_chain i ti r prefix st : eligible [] recursing archive name i ti r prefix st -> r_terminal r = false ->
      length (prefix ++ st) <= path_max ->
      (forall n, needs r prefix st n -> avail n \/ makeable avail true false n) -> makeable avail recursing archive name.

  (** The other targets of a rule, made from the stem. *)
  Inductive others (stem : str) (ti : nat) : nat -> list (str * nat) -> list str -> Prop :=
  | o_nil k : others stem ti k [] []
  | o_same t ts l : others stem ti (S ti) ts l -> others stem ti ti (t :: ts) l
  | o_other k t pre suf ts l : k <> ti -> pattern t pre suf -> others stem ti (S k) ts l ->
      others stem ti k (t :: ts) ((pre ++ stem ++ suf) :: l).

  (** A plan holds good: its rule may be used, the prerequisites are those of the rule, and each
      can be had or has a plan of its own, in which the rules above are not used.  [avail]: what
      can be had, given the names of the prerequisites the makefile lists for the file. *)
  Inductive sound (avail : list str -> str -> Prop) (in_use : list nat) (recursing archive : bool) (name : str) (expl : list str) : plan -> Prop :=
  | s_plan i ti r prefix st deps also :
      eligible in_use recursing archive name i ti r prefix st -> length (prefix ++ st) <= path_max ->
      others (prefix ++ st) ti 0 (r_targets r) also ->
      (r_deps r <> [] -> needed prefix st (r_deps r) (map fst deps)) ->
      (r_deps r <> [] -> forall n o, In (n, o, None) deps -> avail expl n) ->
      (r_deps r <> [] -> forall n o p, In (n, o, Some p) deps -> r_terminal r = false /\ sound avail (i :: in_use) true false n [] p) ->
      sound avail in_use recursing archive name expl (Plan i ti (prefix ++ st) deps also).
End Rules.

(** What can be had: the makefile lists it for the file, the table knew it, it has been entered,
    it exists, or it is found on a search path. *)
Definition had (lookup exists_p : str -> bool) (vpath : list str -> str -> bool) (files expl : list str) (n : str) : Prop :=
  In n expl \/ lookup n = true \/ In n files \/ exists_p n = true \/ vpath files n = true.
Definition starts {A} (a b : list A) : Prop := exists c, b = a ++ c.

(** ** Definitions of pattern rules *)

(** A rule with one target; two of them that are the same rule. *)
Definition single (r : rule) : Prop := exists t, r_targets r = [t].
Definition rule_names (r : rule) : list str * list str := (map fst (r_targets r), map pd_name (r_deps r)).
(** Definitions: the rule and whether it overrides.  The definition [j] counts in the end: it is
    the last one of the rule that overrides, or the first one if none does. *)
Definition survives (defs : list (rule * bool)) (j : nat) : Prop :=
  exists r o, nth_error defs j = Some (r, o) /\
    if o then forall k r', j < k -> nth_error defs k = Some (r', true) -> rule_names r' <> rule_names r
    else (forall k r', nth_error defs k = Some (r', true) -> rule_names r' <> rule_names r) /\
         (forall k r', k < j -> nth_error defs k = Some (r', false) -> rule_names r' <> rule_names r).

(** The rules that the suffixes stand for. *)
Inductive suffix_meaning (files : str -> option (option nat * bool)) (posix : bool) (suffixes : list str) : rule -> Prop :=
| sm_dummy d : In d suffixes -> suffix_meaning files posix suffixes (mkrule [(c_percent :: d, 0)] [] None false)
| sm_single d c deps : In d suffixes -> files d = Some (Some c, deps) ->
    suffix_meaning files posix suffixes (mkrule [([c_percent], 0)] [mkpdep (c_percent :: d) false] (Some c) false)
| sm_double d d2 c deps : In d suffixes -> In d2 suffixes -> d <> d2 -> files (d ++ d2) = Some (Some c, deps) -> (deps = true -> posix = false) ->
    suffix_meaning files posix suffixes (mkrule [(c_percent :: d2, 0)] [mkpdep (c_percent :: d) false] (Some c) false)
| sm_archive d c deps : In d suffixes -> In (s2l ".a"%string) suffixes -> d <> s2l ".a"%string -> files (d ++ s2l ".a"%string) = Some (Some c, deps) -> (deps = true -> posix = false) ->
    suffix_meaning files posix suffixes (mkrule [(s2l "(%.o)"%string, 1)] [mkpdep (c_percent :: d) false] (Some c) false).
(** A rule of the list that is the same: all its targets are that target. *)
Definition same_rule (r old : rule) : Prop :=
  exists t, r_targets r = [t] /\ (forall u, In u (r_targets old) -> fst u = fst t) /\ map pd_name (r_deps old) = map pd_name (r_deps r).

(** A plan mentions a name: a prerequisite, another target, or what the plans for the
    prerequisites mention. *)
Inductive mentions : plan -> str -> Prop :=
| me_dep i ti st deps also n o x : In (n, o, x) deps -> mentions (Plan i ti st deps also) n
| me_also i ti st deps also n : In n also -> mentions (Plan i ti st deps also) n
| me_sub i ti st deps also n o p m : In (n, o, Some p) deps -> mentions p m -> mentions (Plan i ti st deps also) m.
