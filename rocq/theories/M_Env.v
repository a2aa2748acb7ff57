(** The environment on its way in (src/main.c) and out (src/variable.c). *)
From Verif Require Import Base M_Text M_Var M_Expand.
Open Scope nat_scope.

Definition n_MAKELEVEL : str := s2l "MAKELEVEL".
Definition n_MAKEPARENT_PID : str := s2l "MAKEPARENT_PID".
Definition n_MAKEPARENT_TARGET : str := s2l "MAKEPARENT_TARGET".
Definition n_MAKE_RESTARTS : str := s2l "MAKE_RESTARTS".

Section Out.
  Variable ftab : str -> option fent.
  Variable fuel : nat.                  (* depth of expansion *)
  Variable export_all : bool.
  Variable shell_value : option str.
  Variable global : vset.

  Definition env_origin (o : origin) : bool := origin_eqb o o_env || origin_eqb o o_env_override.

  (** src/variable.c:1150-1168: the entry for one variable.  Every expansion leaves the flags of
      the variables as it found them, so they all start from the same state here. *)
  Definition env_entry (c : chain) (x : str * (nat * var)) : xres (str * str) :=
    let '(n, (id, v)) := x in
    if v_recursive v && negb (env_origin (v_origin v))
    then match recursively_expand true (expand ftab true fuel) c st0 id n v with
         | XOk (_, s) => XOk (n, s)
         | XFail e => XFail e
         | XFuel => XFuel
         end
    else XOk (n, v_value v).
  Fixpoint env_entries (c : chain) (t : list (str * (nat * var))) : xres (list (str * str)) :=
    match t with
    | [] => XOk []
    | x :: t' => xbind (env_entry c x) (fun e => xbind (env_entries c t') (fun l => XOk (e :: l)))
    end.

  (** src/variable.c:1123-1133: hash_delete of the three names make sets itself. *)
  Definition own_name (n : str) : bool :=
    str_eqb n n_MAKELEVEL || str_eqb n n_MAKEPARENT_PID || str_eqb n n_MAKEPARENT_TARGET.

  (** src/variable.c:1031-1183 target_environment for a file with scopes [c].  Entries are pairs
      of name and value instead of NAME=VALUE. *)
  Definition target_environment (c : chain) (makelevel pid : nat) (file : str) : xres (list (str * str)) :=
    let t := filter (fun x => negb (own_name (fst x))) (env_table export_all shell_value global [] c) in
    xbind (env_entries c t) (fun l =>
      XOk (l ++ [(n_MAKELEVEL, show_nat (S makelevel)); (n_MAKEPARENT_PID, show_nat pid); (n_MAKEPARENT_TARGET, file)])).
End Out.

(** src/main.c:1304-1350: reading ENVP into the global set, before any makefile.  [None]: an
    entry without an equals sign; the loop of line 1312 does not stop at its end.  Second
    component: shell_var.value.  The counter [restarts] is left out. *)
Fixpoint import_env (e : bool) (envp : list str) (s : vset) (shell : option str) : option (vset * option str) :=
  match envp with
  | [] => Some (s, shell)
  | entry :: l =>
      match cut_at c_eq entry with
      | None => None
      | Some (n, value) =>
          let restarts := str_eqb n n_MAKE_RESTARTS in
          let value := if restarts then match value with c :: r => if c =?c c_minus then r else value | [] => value end else value in
          let '(s', v) := define_in_set e n (c_eq :: value) value o_env true s in
          let isshell := str_eqb n n_SHELL in
          let x := if restarts || isshell then v_noexport else v_export in
          let v' := mkvar (v_value v) (v_origin v) (v_recursive v) (v_append v) (v_conditional v) (v_per_target v)
                          (v_private v) x (v_exportable v) in
          import_env e l (set_put n v' s') (if isshell then Some value else shell)
      end
  end.
