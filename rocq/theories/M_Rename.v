(** Files whose names turn out to be the same: src/file.c rehash_file, rename_file; src/variable.c merge_variable_set_lists. *)
From Verif Require Import Base.
Open Scope string_scope.
Open Scope list_scope.
Open Scope nat_scope.

(** ** Sets of variables. *)
(** A list of sets without the global one, the innermost first; each with its address.  A null pointer is the empty list.
    What is freed of [setlist1] is in [freed] below. *)
Definition vset := list (str * str).
Definition vlist := list (nat * vset).
Definition has (s : vset) (n : str) : bool := existsb (fun p => str_eqb (fst p) n) s.
(** src/variable.c:785-812 merge_variable_sets. *)
Definition merge_sets (a b : vset) : vset := a ++ filter (fun p => negb (has a (fst p))) b.
(** src/variable.c:839-858: level by level; what is left of [setlist1] is put at the end. *)
Fixpoint merge_levels (a b : vlist) : vlist :=
  match a, b with
  | (i, x) :: a', (_, y) :: b' => (i, merge_sets x y) :: merge_levels a' b'
  | [], _ => b
  | _, [] => a
  end.
(** src/variable.c:816-860 merge_variable_set_lists; nothing is done if [setlist1] is a part of [setlist0]. *)
Definition merge_lists (a b : vlist) : vlist :=
  match b with
  | [] => a
  | (j, _) :: _ => if existsb (fun p => fst p =? j) a then a else merge_levels a b
  end.

(** src/variable.c:806-811: the variables that are freed, by the address of their set and the name.  They remain in the table of that set ("GKM FIXME"). *)
Fixpoint freed_levels (a b : vlist) : list (nat * str) :=
  match a, b with
  | (_, x) :: a', (j, y) :: b' => map (fun p => (j, fst p)) (filter (fun p => has x (fst p)) y) ++ freed_levels a' b'
  | _, _ => []
  end.
Definition freed (a b : vlist) : list (nat * str) :=
  match b with
  | [] => []
  | (j, _) :: _ => if existsb (fun p => fst p =? j) a then [] else freed_levels a b
  end.

(** ** Files: src/filedef.h:27-130. *)
(** The flags that are merged: src/file.c:166-176. *)
Record flags := mkflags { w_precious : bool; w_tried : bool; w_updating : bool; w_updated : bool; w_target : bool; w_cmd_target : bool; w_phony : bool; w_loaded : bool; w_ignore : bool }.
Definition or_flags (a b : flags) : flags :=
  mkflags (w_precious a || w_precious b) (w_tried a || w_tried b) (w_updating a || w_updating b) (w_updated a || w_updated b) (w_target a || w_target b)
          (w_cmd_target a || w_cmd_target b) (w_phony a || w_phony b) (w_loaded a || w_loaded b) (w_ignore a || w_ignore b).
(** The others, of which nothing is merged: tracing, intermediate, secondary, dontcare, update_status. *)
Record others := mkothers { w_tracing : nat; w_intermediate : bool; w_secondary : bool; w_dontcare : bool; w_status : nat }.
(** [f_cmds]: the recipe, by its address.  [f_colon]: double_colon, the first entry.  [f_mtime]: last_mtime. *)
Record file := mkfile { f_hname : str; f_name : str; f_cmds : option nat; f_deps : list str; f_vars : vlist; f_colon : option nat; f_prev : option nat; f_renamed : option nat;
                        f_mtime : nat; f_before : nat; f_builtin : bool; f_flags : flags; f_others : others }.
(** The files by their addresses, and the table of names (C01). *)
Record state := mkstate { heap : nat -> file; table : str -> option nat }.
Definition put {A} (h : nat -> A) (i : nat) (a : A) : nat -> A := fun j => if j =? i then a else h j.
Definition put_name (t : str -> option nat) (n : str) (v : option nat) : str -> option nat := fun m => if str_eqb m n then v else t m.
Definition with_hname (f : file) (n : str) : file := mkfile n (f_name f) (f_cmds f) (f_deps f) (f_vars f) (f_colon f) (f_prev f) (f_renamed f) (f_mtime f) (f_before f) (f_builtin f) (f_flags f) (f_others f).
Definition with_name (f : file) (n : str) : file := mkfile (f_hname f) n (f_cmds f) (f_deps f) (f_vars f) (f_colon f) (f_prev f) (f_renamed f) (f_mtime f) (f_before f) (f_builtin f) (f_flags f) (f_others f).
Definition with_renamed (f : file) (g : nat) : file := mkfile (f_hname f) (f_name f) (f_cmds f) (f_deps f) (f_vars f) (f_colon f) (f_prev f) (Some g) (f_mtime f) (f_before f) (f_builtin f) (f_flags f) (f_others f).
Definition not_builtin (f : file) : file := mkfile (f_hname f) (f_name f) (f_cmds f) (f_deps f) (f_vars f) (f_colon f) (f_prev f) (f_renamed f) (f_mtime f) (f_before f) false (f_flags f) (f_others f).

(** src/filedef.h:241-242 check_renamed.  [None]: no end within [n] steps. *)
Fixpoint check_renamed (n : nat) (h : nat -> file) (i : nat) : option nat :=
  match f_renamed (h i), n with
  | None, _ => Some i
  | Some j, S n' => check_renamed n' h j
  | Some _, 0 => None
  end.
(** The entries of a double-colon target, from one of them on. *)
Fixpoint entries (n : nat) (h : nat -> file) (i : option nat) : option (list nat) :=
  match i, n with
  | None, _ => Some []
  | Some j, S n' => option_map (cons j) (entries n' h (f_prev (h j)))
  | Some _, 0 => None
  end.
Definition is_some {A} (o : option A) : bool := match o with Some _ => true | None => false end.

(** src/file.c:108-176: what becomes of TO_FILE. *)
Definition merged (to from : file) : file :=
  mkfile (f_hname to) (f_name to) (match f_cmds to with Some c => Some c | None => f_cmds from end) (f_deps to ++ f_deps from) (merge_lists (f_vars to) (f_vars from))
         (match f_colon to with Some c => Some c | None => f_colon from end) (f_prev to) (f_renamed to)
         (Nat.max (f_mtime to) (f_mtime from)) (f_before from) false (or_flags (f_flags to) (f_flags from)) (f_others to).
(** src/file.c:119-133: "Recipe for A will be ignored in favor of the one for B." *)
Definition warning (to from : file) (to_hname : str) : option (str * str) :=
  match f_cmds from, f_cmds to with
  | Some a, Some b => if a =? b then None else Some (to_hname, f_name from)
  | _, _ => None
  end.
(** src/file.c:146-156. *)
Definition clash (to from : file) : bool :=
  (is_some (f_colon to) && w_target (f_flags from) && negb (is_some (f_colon from))) || (negb (is_some (f_colon to)) && is_some (f_colon from) && w_target (f_flags to)).

Inductive outcome := Done (s : state) (w : option (str * str)) | Fatal | Abort | Endless.
(** src/file.c:53-180. *)
Definition rehash_file (n : nat) (s : state) (i : nat) (to : str) : outcome :=
  let h := put (heap s) i (not_builtin (heap s i)) in
  let old := f_hname (h i) in
  if str_eqb old to then Done (mkstate h (table s)) None
  else match check_renamed n h i with
       | None => Endless
       | Some g =>
           if negb (str_eqb (f_hname (h g)) old) then Abort
           else match table s (f_hname (h g)) with
                | Some d =>
                    if negb (d =? g) then Abort
                    else
                      let t := put_name (table s) (f_hname (h g)) None in
                      match entries n h (f_colon (h g)) with
                      | None => Endless
                      | Some es =>
                          let h := fold_left (fun h e => put h e (with_hname (h e) to)) (g :: es) h in
                          match t to with
                          | None => Done (mkstate h (put_name t to (Some g))) None
                          | Some k =>
                              if clash (h k) (h g) then Fatal
                              else let w := warning (h k) (h g) to in
                                   let h1 := put h k (merged (h k) (h g)) in
                                   Done (mkstate (put h1 g (with_renamed (h1 g) k)) t) w
                          end
                      end
                | None => Abort
                end
       end.
(** src/file.c:185-194. *)
Definition rename_file (n : nat) (s : state) (i : nat) (to : str) : outcome :=
  match rehash_file n s i to with
  | Done s w =>
      match entries n (heap s) (Some i) with
      | None => Endless
      | Some es => Done (mkstate (fold_left (fun h e => put h e (with_name (h e) (f_hname (h e)))) es (heap s)) (table s)) w
      end
  | o => o
  end.

(** src/remake.c:315, 334-353: the entries that update_file goes through, if no recipe is running. *)
Fixpoint rounds (n : nat) (h : nat -> file) (i : option nat) : option (list nat) :=
  match i, n with
  | None, _ => Some []
  | Some j, S n' => match check_renamed n' h j with None => None | Some k => option_map (cons j) (rounds n' h (f_prev (h k))) end
  | Some _, 0 => None
  end.
Definition update_rounds (n : nat) (h : nat -> file) (i : nat) : option (list nat) := rounds n h (match f_colon (h i) with Some c => Some c | None => Some i end).
