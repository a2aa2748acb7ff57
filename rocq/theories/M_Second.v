(** Second expansion and extra prerequisites: src/file.c expand_deps, expand_extra_prereqs, snap_file. *)
From Verif Require Import Base M_Text M_Auto M_Rules.
Open Scope string_scope.
Open Scope list_scope.
Open Scope nat_scope.

(** src/dep.h struct dep: [i_name] is the name, or with [i_2nd] (need_2nd_expansion) the text of all prerequisites of
    one rule; ignore_mtime, staticpattern, stem, ignore_automatic_vars. *)
Record item := mkitem { i_name : str; i_order : bool; i_2nd : bool; i_static : bool; i_stem : option str; i_extra : bool }.
(** What struct file has.  [f_vars]: f->variables, with the value of .EXTRA_PREREQS in its set. *)
Record file := mkfile { f_name : str; f_deps : list item; f_stem : option str; f_target : bool; f_vars : option (option str) }.

(** As set_file_variables sees them; nothing has changed yet when dependencies are snapped. *)
Definition adep_of (d : item) : adep := mkadep (i_name d) (i_order d) false (i_2nd d) (i_extra d).
Definition with_order (d : item) (x : adep) : item := mkitem (i_name d) (a_order x) (i_2nd d) (i_static d) (i_stem d) (i_extra d).
(** set_file_variables may clear ignore_mtime. *)
Fixpoint reorder (l : list item) (ds : list adep) : list item :=
  match l, ds with d :: l', x :: ds' => with_order d x :: reorder l' ds' | _, _ => [] end.

(** The automatic variables of a target. *)
Record values := mkvalues { t_at : str; t_percent : str; t_star : str; t_less : str; t_lists : autos }.

(** A prerequisite that was split off: src/file.c:454, with enter_prereqs (src/file.c:314-388). *)
Definition fresh (stem : option str) (x : dep) : item := mkitem (d_name x) (d_order x) false false stem false.
Definition enter_prereqs (stem : option str) (l : list dep) : list item :=
  map (fresh stem) (match stem with Some s => flat_map (dep_stem s) l | None => l end).

Section Expand.
  (** -B; the list of .SUFFIXES; variable_expand_for_file, given the automatic variables; split_prereqs (C58). *)
  Variable always : bool.
  Variable suffixes : list str.
  Variable ex : values -> str -> str.
  Variable split : str -> list dep.

  (** src/file.c:392-473 expand_deps.  [before]: what dp has passed; [n] is the length of the rest.  The stem of the file
      while the loop runs is [stem]; [z]: the sizes of the static buffers.  [None]: a write past the end of a buffer. *)
  Fixpoint expand_loop (n : nat) (f : file) (stem : option str) (z : sizes) (before rest : list item) : option (list item * option str * sizes) :=
    match n, rest with
    | S n', d :: rest' =>
        if i_2nd d then
          match (if i_static d then subst_expand (i_name d) "%" "$*" false else Some (i_name d)) with
          | None => None
          | Some text =>
              let d' := mkitem text (i_order d) true false (i_stem d) (i_extra d) in
              let all := before ++ d' :: rest' in
              let now := match i_stem d with Some s => Some s | None => stem end in
              match set_lists always z (map adep_of all) with
              | None => None
              | Some (v, ds, z') =>
                  let star := star_value now (f_name f) suffixes in
                  let a := mkvalues (at_value (f_name f)) (percent_value (f_name f)) star (less_value (map adep_of all)) v in
                  let all' := reorder all ds in
                  let stem' := match i_stem d with Some _ => f_stem f | None => Some star end in
                  expand_loop n' f stem' z' (firstn (length before) all' ++ enter_prereqs (i_stem d) (split (ex a text))) (skipn (S (length before)) all')
              end
          end
        else expand_loop n' f stem z (before ++ [d]) rest'
    | _, _ => Some (before, stem, z)
    end.
  (** initialize_file_variables makes a set of variables if there is something to expand. *)
  Definition expand_deps (f : file) (z : sizes) : option (file * sizes) :=
    match expand_loop (length (f_deps f)) f (f_stem f) z [] (f_deps f) with
    | Some (deps, stem, z') =>
        let vars := if existsb i_2nd (f_deps f) then match f_vars f with Some v => Some v | None => Some None end else f_vars f in
        Some (mkfile (f_name f) deps stem (f_target f) vars, z')
    | None => None
    end.
End Expand.

Section Extra.
  (** variable_expand and split_prereqs; the global value of .EXTRA_PREREQS. *)
  Variable ex : str -> str.
  Variable split : str -> list dep.
  (** src/file.c:477-493. *)
  Definition expand_extra_prereqs (v : option str) : list item :=
    match v with
    | None => []
    | Some t => map (fun x => mkitem (d_name x) (d_order x) false false None true) (split (ex t))
    end.
  (** src/file.c:498-539 snap_file, for the prerequisites. *)
  Definition snap_file (global : option str) (f : file) : file :=
    let prereqs := match f_vars f with
                   | Some v => expand_extra_prereqs v
                   | None => if f_target f then expand_extra_prereqs global else []
                   end in
    let deps := if existsb (fun d => str_eqb (f_name f) (i_name d)) prereqs then f_deps f else f_deps f ++ prereqs in
    mkfile (f_name f) deps (f_stem f) (f_target f) (f_vars f).
End Extra.
