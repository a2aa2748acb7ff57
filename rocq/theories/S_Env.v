(** Which variables a recipe's environment is meant to have. *)
From Verif Require Import Base M_Var.

(** What the makefile says about exporting a variable: its own setting, or for a target-specific
    variable without one the setting of the global variable of that name. *)
Definition export_setting (global : vset) (n : str) (v : var) (x : vexport) : Prop :=
  (x = v_exp v /\ ~ (v_per_target v = true /\ v_exp v = v_default)) \/
  (v_per_target v = true /\ v_exp v = v_default /\
     ((exists gv, set_find n global = Some gv /\ x = v_exp gv) \/ (set_find n global = None /\ x = v_default))).

(** Exported on request; or, without any request, if it came from outside, or everything is
    exported, provided it is not one of make's own and the shell can take the name. *)
Definition exported (export_all : bool) (global : vset) (n : str) (v : var) : Prop :=
  exists x, export_setting global n v x /\
    (x = v_export \/
     (x = v_ifset /\ v_origin v <> o_default) \/
     (x = v_default /\ v_origin v <> o_default /\ v_origin v <> o_automatic /\ v_exportable v = true /\
      (export_all = true \/ v_origin v = o_command \/ v_origin v = o_env \/ v_origin v = o_env_override))).

(** The first definition on the way from the innermost scope outwards. *)
Definition first_in (n : str) (c : chain) (id : nat) (v : var) : Prop :=
  exists pre nd post, c = pre ++ nd :: post /\ n_id nd = id /\ set_find n (n_set nd) = Some v /\
    forall x, In x pre -> set_find n (n_set x) = None.
