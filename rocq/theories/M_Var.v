(** Variables, variable sets and scopes: src/variable.c, src/variable.h. *)
From Verif Require Import Base.
Open Scope nat_scope.

(** src/variable.h:25-36 enum variable_origin. *)
Inductive origin :=
  o_default | o_env | o_file | o_env_override | o_command | o_override | o_automatic
| o_debugger | o_invalid.
Definition onum (o : origin) : nat :=
  match o with
  | o_default => 0 | o_env => 1 | o_file => 2 | o_env_override => 3 | o_command => 4
  | o_override => 5 | o_automatic => 6 | o_debugger => 7 | o_invalid => 8
  end.
Definition origin_eqb (a b : origin) : bool := onum a =? onum b.

(** src/variable.h:38-47 enum variable_flavor, without f_bogus. *)
Inductive flavor := f_simple | f_recursive | f_append | f_conditional | f_shell | f_append_value.

(** src/variable.h:80-86 enum variable_export. *)
Inductive vexport := v_export | v_noexport | v_ifset | v_default.
Definition vexport_eqb (a b : vexport) : bool :=
  match a, b with
  | v_export, v_export | v_noexport, v_noexport | v_ifset, v_ifset | v_default, v_default => true
  | _, _ => false
  end.

(** src/variable.h:56-87 struct variable.  Not kept: fileinfo, length, flavor (only used for
    pattern variables, see [pvar]), special (see lookup_variable).  [expanding] and
    [exp_count] live in the expander's state (M_Expand). *)
Record var := mkvar {
  v_value : str;
  v_origin : origin;
  v_recursive : bool;
  v_append : bool;
  v_conditional : bool;
  v_per_target : bool;
  v_private : bool;
  v_exp : vexport;
  v_exportable : bool }.

(** A variable set: the hash table of variables, as the finite map that C01 shows it to be. *)
Definition vset := list (str * var).

(** src/variable.c:580-590 lookup_variable_in_set. *)
Fixpoint set_find (n : str) (s : vset) : option var :=
  match s with
  | [] => None
  | (m, v) :: s' => if str_eqb n m then Some v else set_find n s'
  end.
Fixpoint set_remove (n : str) (s : vset) : vset :=
  match s with
  | [] => []
  | (m, v) :: s' => if str_eqb n m then set_remove n s' else (m, v) :: set_remove n s'
  end.
(** Store through the slot of a present or absent item. *)
Definition set_put (n : str) (v : var) (s : vset) : vset := (n, v) :: set_remove n s.

Definition is_alpha_ (c : ascii) : bool :=
  let n := nat_of_ascii c in
  (c =?c ascii_of_nat 95) || ((65 <=? n) && (n <=? 90)) || ((97 <=? n) && (n <=? 122)).
Definition is_digit (c : ascii) : bool :=
  let n := nat_of_ascii c in (48 <=? n) && (n <=? 57).

(** src/variable.c:323-337: can the shell take this name?  [tail] is the text that follows the
    name in memory, which the C loop also reads since it ignores LENGTH. *)
Definition exportable_name (n tail : str) : bool :=
  match n ++ tail with
  | [] => false
  | c :: s => is_alpha_ c && forallb (fun c => is_alpha_ c || is_digit c) s
  end.

Section Env.
  Variable env_overrides : bool.        (* -e *)

  Definition upgrade (o : origin) : origin :=
    if env_overrides && origin_eqb o o_env then o_env_override else o.

  (** src/variable.c:234-339 define_variable_in_set.  [tail]: see exportable_name. *)
  Definition define_in_set (n tail value : str) (o : origin) (recursive : bool) (s : vset) : vset * var :=
    let o := upgrade o in
    match set_find n s with
    | Some v =>
        let vo := upgrade (v_origin v) in
        let v' :=
          if onum vo <=? onum o
          then mkvar value o recursive (v_append v) (v_conditional v) (v_per_target v)
                     (v_private v) (v_exp v) (v_exportable v)
          else mkvar (v_value v) vo (v_recursive v) (v_append v) (v_conditional v) (v_per_target v)
                     (v_private v) (v_exp v) (v_exportable v) in
        (set_put n v' s, v')
    | None =>
        let v' := mkvar value o recursive false false false false v_default (exportable_name n tail) in
        (set_put n v' s, v')
    end.

  (** src/variable.c:363-401 undefine_variable_in_set. *)
  Definition undefine_in_set (n : str) (o : origin) (s : vset) : vset :=
    let o := upgrade o in
    match set_find n s with
    | None => s
    | Some v =>
        let vo := upgrade (v_origin v) in
        if onum vo <=? onum o then set_remove n s
        else set_put n (mkvar (v_value v) vo (v_recursive v) (v_append v) (v_conditional v)
                              (v_per_target v) (v_private v) (v_exp v) (v_exportable v)) s
    end.
End Env.

(** ** Scope chains *)

(** src/variable.h:98-103 struct variable_set_list; [n_id] names the set, so that the flags of
    "the same variable" can be recognised. *)
Record node := mknode { n_id : nat; n_set : vset; n_parent : bool (* next_is_parent *) }.
Definition chain := list node.

(** src/variable.c:493-573 lookup_variable.  Not modelled: the special variables .VARIABLES and
    .INCLUDE_DIRS-like introspection (lookup_special_var, 413-490). *)
Fixpoint lookup_from (is_parent : bool) (n : str) (c : chain) : option (nat * var) :=
  match c with
  | [] => None
  | nd :: c' =>
      match set_find n (n_set nd) with
      | Some v =>
          if negb is_parent || negb (v_private v) then Some (n_id nd, v)
          else lookup_from (is_parent || n_parent nd) n c'
      | None => lookup_from (is_parent || n_parent nd) n c'
      end
  end.
Definition lookup_variable (n : str) (c : chain) : option (nat * var) := lookup_from false n c.

(** Where the variables of the program live: [gl] the sets reachable from [global_setlist]
    (never empty; its last one is [global_variable_set]), [cur] the nodes of
    [current_variable_set_list] in front of [global_setlist] (empty: it points to it). *)
Record scopes := mkscopes { cur : chain; gl : chain; next_id : nat }.
Definition cur_chain (s : scopes) : chain := cur s ++ gl s.

(** src/variable.c:704-746 create_new_variable_set and push_new_variable_scope. *)
Definition push_scope (s : scopes) : scopes :=
  let nd := mknode (next_id s) [] false in
  match cur s with
  | [] => mkscopes [] (nd :: gl s) (S (next_id s))
  | _ => mkscopes (nd :: cur s) (gl s) (S (next_id s))
  end.

(** src/variable.c:748-781 pop_variable_scope; [None]: the assertion fails. *)
Definition pop_scope (s : scopes) : option scopes :=
  match cur s, gl s with
  | nd :: c, g :: _ => Some (mkscopes c (gl s) (next_id s))
  | [], _ :: g :: g' => Some (mkscopes [] (g :: g') (next_id s))
  | _, _ => None
  end.

Definition with_set (nd : node) (s : vset) : node := mknode (n_id nd) s (n_parent nd).

(** src/variable.h:242-246 define_variable: in current_variable_set_list->set. *)
Definition define_cur (e : bool) (n tail value : str) (o : origin) (recursive : bool) (s : scopes)
  : option scopes :=
  match cur s, gl s with
  | nd :: c, _ =>
      Some (mkscopes (with_set nd (fst (define_in_set e n tail value o recursive (n_set nd))) :: c) (gl s) (next_id s))
  | [], nd :: g =>
      Some (mkscopes [] (with_set nd (fst (define_in_set e n tail value o recursive (n_set nd))) :: g) (next_id s))
  | [], [] => None
  end.

(** ** Pattern-specific variables *)

(** src/variable.h:107-114 struct pattern_var: prefix and suffix of the target pattern, and
    the definition: name, value, origin, recursive or simple.  (Flavours += and ?= are not
    modelled for pattern variables.) *)
Record pvar := mkpvar { pv_prefix : str; pv_suffix : str;
  pv_name : str; pv_value : str; pv_origin : origin; pv_rec : bool }.
Definition pv_len (p : pvar) : nat := length (pv_prefix p) + 1 + length (pv_suffix p).

(** src/variable.c:89-135 create_pattern_var.  The list, and for every length below 256 the
    position of the last pattern inserted with that length ([last_pattern_vars]; [None] when
    zero).  Pointers are positions in the list; inserting shifts the later ones. *)
Record pvars := mkpvars { pv_list : list pvar; pv_last : nat -> option nat }.
Fixpoint insert_at {A} (k : nat) (x : A) (l : list A) : list A :=
  match k, l with
  | 0, _ => x :: l
  | S k', y :: l' => y :: insert_at k' x l'
  | S _, [] => [x]
  end.
Fixpoint find_insert (len : nat) (l : list pvar) : nat :=
  match l with
  | [] => 0
  | p :: l' => if len <? pv_len p then 0 else S (find_insert len l')
  end.
Definition create_pattern_var (p : pvar) (st : pvars) : pvars :=
  let len := pv_len p in
  let pos :=
    match pv_list st with
    | [] => 0
    | _ =>
        match (if len <? 256 then pv_last st len else None) with
        | Some q => S q
        | None => find_insert len (pv_list st)
        end
    end in
  mkpvars (insert_at pos p (pv_list st))
          (fun k => if (len <? 256) && (k =? len) then Some pos
                    else match pv_last st k with
                         | Some q => Some (if q <? pos then q else S q)
                         | None => None
                         end).

(** src/variable.c:139-174 lookup_pattern_var: does the pattern match? *)
Definition pv_matches (p : pvar) (target : str) : bool :=
  if length target <? pv_len p then false
  else str_eqb (firstn (length (pv_prefix p)) target) (pv_prefix p)
       && str_eqb (skipn (length target - length (pv_suffix p)) target) (pv_suffix p).
(** The successive results of lookup_pattern_var in initialize_file_variables (640-690). *)
Definition pattern_vars_for (st : pvars) (target : str) : list pvar :=
  filter (fun p => pv_matches p target) (pv_list st).

(** src/variable.c:640-690: the set of pattern variables of a target. *)
Definition pat_set (e : bool) (st : pvars) (target : str) : vset :=
  fold_left (fun s p => fst (define_in_set e (pv_name p) [] (pv_value p) (pv_origin p) (pv_rec p) s))
            (pattern_vars_for st target) [].

(** ** Environments of recipes *)
Section TargetEnv.
  Variable export_all : bool.           (* export_all_variables *)
  Variable shell_value : option str.    (* shell_var.value *)
  Variable global : vset.               (* global_variable_set *)

  (** src/variable.c:1064-1076: export setting of a per-target variable. *)
  Definition eff_export (n : str) (v : var) : vexport :=
    if v_per_target v && vexport_eqb (v_exp v) v_default
    then match set_find n global with Some gv => v_exp gv | None => v_exp v end
    else v_exp v.

  Definition n_SHELL : str := s2l "SHELL".

  (** src/variable.c:1078-1117: what goes into TABLE for this variable, if anything: itself, or
      for an unexported SHELL the value of the original environment. *)
  Definition env_candidate (n : str) (v : var) : option var :=
    match eff_export n v with
    | v_default =>
        if origin_eqb (v_origin v) o_default || origin_eqb (v_origin v) o_automatic then None
        else if negb (v_exportable v) then None
        else if negb export_all && negb (origin_eqb (v_origin v) o_command)
                && negb (origin_eqb (v_origin v) o_env)
                && negb (origin_eqb (v_origin v) o_env_override) then None
        else Some v
    | v_export => Some v
    | v_noexport =>
        if str_eqb n n_SHELL
        then option_map (fun s => mkvar s o_default false false false false false v_default false) shell_value
        else None
    | v_ifset => if origin_eqb (v_origin v) o_default then None else Some v
    end.

  (** src/variable.c:1052-1122: TABLE, first entry for a name wins.  Order of the hash tables
      is not modelled (list order of the sets instead). *)
  Definition add_candidate (id : nat) (t : list (str * (nat * var))) (nv : str * var) : list (str * (nat * var)) :=
    match env_candidate (fst nv) (snd nv) with
    | None => t
    | Some v =>
        if existsb (fun x => str_eqb (fst nv) (fst x)) t then t else t ++ [(fst nv, (id, v))]
    end.
  Fixpoint env_table (t : list (str * (nat * var))) (c : chain) : list (str * (nat * var)) :=
    match c with
    | [] => t
    | nd :: c' => env_table (fold_left (add_candidate (n_id nd)) (n_set nd) t) c'
    end.
End TargetEnv.
