(** Tests of what S_Rename says, for files in a finite table. *)
From Verif Require Import Base M_Rename S_Rename.
Open Scope list_scope.
Open Scope nat_scope.

Definition listed (l : list (str * nat)) : str -> option nat := fun n => match find (fun p => str_eqb (fst p) n) l with Some p => Some (snd p) | None => None end.
Fixpoint follow (n : nat) (h : nat -> file) (x : nat) : option nat :=
  match f_renamed (h x) with None => Some x | Some y => match n with 0 => None | S n' => follow n' h y end end.
Fixpoint chain (n : nat) (h : nat -> file) (d : nat) : option (list nat) :=
  match n with 0 => None | S n' => match f_prev (h d) with None => Some [d] | Some p => option_map (cons d) (chain n' h p) end end.
Definition entries_of (n : nat) (h : nat -> file) (i : nat) : option (list nat) := match f_colon (h i) with None => Some [] | Some d => chain n h d end.
Definition memb (x : nat) (l : list nat) : bool := existsb (Nat.eqb x) l.
Definition soundb (n : nat) (h : nat -> file) (l : list (str * nat)) : bool :=
  forallb (fun p => str_eqb (f_hname (h (snd p))) (fst p) && negb (is_some (f_renamed (h (snd p)))) &&
                    match entries_of n h (snd p) with Some es => forallb (fun e => (e =? snd p) || negb (memb e (map snd l))) es | None => false end) l.
Definition opt_eqb (a b : option nat) : bool := match a, b with Some x, Some y => x =? y | None, None => true | _, _ => false end.
Definition ostr_eqb (a b : option str) : bool := match a, b with Some x, Some y => str_eqb x y | None, None => true | _, _ => false end.
Fixpoint strs_eqb (a b : list str) : bool := match a, b with [], [] => true | x :: a', y :: b' => str_eqb x y && strs_eqb a' b' | _, _ => false end.
Definition others_eqb (a b : others) : bool :=
  (w_tracing a =? w_tracing b) && Bool.eqb (w_intermediate a) (w_intermediate b) && Bool.eqb (w_secondary a) (w_secondary b) && Bool.eqb (w_dontcare a) (w_dontcare b) && (w_status a =? w_status b).
Definition all_flags : list (flags -> bool) := [w_precious; w_tried; w_updating; w_updated; w_target; w_cmd_target; w_phony; w_loaded; w_ignore].
Definition flags_eqb (a b : flags) : bool := forallb (fun p : flags -> bool => Bool.eqb (p a) (p b)) all_flags.
(** But for the hashed name and the sets of variables. *)
Definition file_eqb (a b : file) : bool :=
  str_eqb (f_name a) (f_name b) && opt_eqb (f_cmds a) (f_cmds b) && strs_eqb (f_deps a) (f_deps b) && opt_eqb (f_colon a) (f_colon b) && opt_eqb (f_prev a) (f_prev b) && opt_eqb (f_renamed a) (f_renamed b) &&
  (f_mtime a =? f_mtime b) && (f_before a =? f_before b) && Bool.eqb (f_builtin a) (f_builtin b) && flags_eqb (f_flags a) (f_flags b) && others_eqb (f_others a) (f_others b).
(** Which variable is to be seen. *)
Definition seen (a b : vlist) (v : str) : option str :=
  match level a v, level b v with
  | Some (i, x), Some (j, y) => Some (if i <=? j then x else y)
  | Some (_, x), None => Some x
  | None, Some (_, y) => Some y
  | None, None => None
  end.
Definition apart (a b : vlist) : bool := forallb (fun q => negb (memb (fst q) (map fst a))) b.
Definition stops (a b : file) : bool :=
  (is_some (f_colon a) && w_target (f_flags b) && negb (is_some (f_colon b))) || (negb (is_some (f_colon a)) && is_some (f_colon b) && w_target (f_flags a)).

Section Test.
  Variables (n : nat) (h : nat -> file) (l : list (str * nat)) (i : nat) (to : str).
  Variables (names vars : list str) (addrs : list nat).
  Let s := mkstate h (listed l).
  Let k := match listed l to with Some k => k | None => i end.
  (** C69_lookup. *)
  Definition t_lookup : bool :=
    match rehash_file n s i to with
    | Done s' _ => opt_eqb (table s' to) (Some k) && opt_eqb (table s' (f_hname (h i))) None && forallb (fun m => str_eqb m to || str_eqb m (f_hname (h i)) || opt_eqb (table s' m) (listed l m)) names &&
                   forallb (fun x => match follow n h x with Some y => match follow (n + n) (heap s') x with Some z => z =? (if y =? i then k else y) | None => true end | None => true end) addrs
    | _ => true
    end.
  (** C69_safe, C69_result. *)
  Definition t_safe : bool := match rehash_file n s i to with Abort | Endless => false | _ => true end.
  (** C69_fatal. *)
  Definition t_fatal : bool :=
    Bool.eqb (match rehash_file n s i to with Fatal => true | _ => false end) (match listed l to with Some k => stops (h k) (h i) | None => false end).
  (** C69_merge. *)
  Definition t_merge : bool :=
    match rehash_file n s i to, listed l to with
    | Done s' _, Some k =>
        let a := h k in let b := h i in let c := heap s' k in
        strs_eqb (f_deps c) (f_deps a ++ f_deps b) && opt_eqb (f_cmds c) (match f_cmds a with Some r => Some r | None => f_cmds b end) && str_eqb (f_hname c) to && str_eqb (f_name c) (f_name a) &&
        (negb (apart (f_vars a) (f_vars b)) || forallb (fun v => ostr_eqb (value (f_vars c) v) (seen (f_vars a) (f_vars b) v)) vars) &&
        (f_mtime a <=? f_mtime c) && (f_mtime b <=? f_mtime c) && ((f_mtime c =? f_mtime a) || (f_mtime c =? f_mtime b)) && (f_before c =? f_before b) && others_eqb (f_others c) (f_others a) &&
        forallb (fun p : flags -> bool => Bool.eqb (p (f_flags c)) (p (f_flags a) || p (f_flags b))) all_flags
    | _, _ => true
    end.
  (** C69_frame. *)
  Definition t_frame : bool :=
    match rehash_file n s i to, entries_of n h i with
    | Done s' _, Some es => forallb (fun j => (j =? i) || opt_eqb (listed l to) (Some j) || (file_eqb (heap s' j) (h j) && str_eqb (f_hname (heap s' j)) (if memb j es then to else f_hname (h j)))) addrs
    | _, _ => true
    end.
  (** C69_warning. *)
  Definition t_warning : bool :=
    match rehash_file n s i to, listed l to with
    | Done _ w, Some k => Bool.eqb (is_some w) (match f_cmds (h i), f_cmds (h k) with Some a, Some b => negb (a =? b) | _, _ => false end)
    | _, _ => true
    end.
  (** C69_rename. *)
  Definition t_rename : bool :=
    match rename_file n s i to, rehash_file n s i to with
    | Done s' _, Done s1 _ => match chain n (heap s1) i with None => true | Some es => forallb (fun j => str_eqb (f_name (heap s' j)) (if memb j es then f_hname (heap s1 j) else f_name (heap s1 j)) && str_eqb (f_hname (heap s' j)) (f_hname (heap s1 j))) addrs
                             && forallb (fun m => opt_eqb (table s' m) (table s1 m)) names end
    | _, _ => true
    end.
  Definition usable : bool := soundb n h l && opt_eqb (listed l (f_hname (h i))) (Some i) && negb (str_eqb (f_hname (h i)) to).
  Definition t_rehash : bool := negb usable || (t_lookup && t_safe && t_fatal && t_merge && t_frame && t_warning && t_rename).
End Test.
(** C69_shared. *)
Definition t_shared (l b : vlist) (vars : list str) : bool := forallb (fun v => ostr_eqb (value (merge_lists (l ++ b) b) v) (value (l ++ b) v)) vars && match freed (l ++ b) b with [] => true | _ => false end.
(** C69_variables, C69_freed. *)
Fixpoint distinct (l : list nat) : bool := match l with [] => true | x :: l' => negb (memb x l') && distinct l' end.
Definition t_vars (a b : vlist) (vars : list str) : bool :=
  negb (apart a b && distinct (map fst b)) ||
  (forallb (fun v => ostr_eqb (value (merge_lists a b) v) (seen a b v)) vars && forallb (fun p => negb (memb (fst p) (map fst (merge_lists a b)))) (freed a b)).
