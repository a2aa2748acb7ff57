(** What a makefile author may rely on about variables, written without the model's helpers. *)
From Verif Require Import Base M_Var.
Open Scope nat_scope.

(** ** Precedence of definitions (C14) *)

(** Precedence of an origin, weakest first; -e lifts the environment above the makefiles. *)
Definition rank (e : bool) (o : origin) : nat :=
  match o with
  | o_default => 0
  | o_env => if e then 3 else 1
  | o_file => 2
  | o_env_override => 3
  | o_command => 4
  | o_override => 5
  | o_automatic => 6
  | o_debugger => 7
  | o_invalid => 8
  end.

(** What happened to one name: defined by somebody as something, or undefined by somebody. *)
Inductive event := Def (o : origin) (value : str) (recursive : bool) | Undef (o : origin).
Definition by_whom (x : event) : origin := match x with Def o _ _ => o | Undef o => o end.

(** The definition that stands after a history: nothing later was as strong, and every
    stronger definition before it had been withdrawn by an equally strong undefinition. *)
Definition stands_after (e : bool) (h : list event) (o : origin) (value : str) (recursive : bool) : Prop :=
  exists pre post, h = pre ++ Def o value recursive :: post /\
    (forall x, In x post -> rank e (by_whom x) < rank e o) /\
    (forall a o' v' r' b, pre = a ++ Def o' v' r' :: b -> rank e o < rank e o' ->
       exists u, In (Undef u) b /\ rank e o' <= rank e u).

(** ** Visibility (C15) *)

(** Scope [i] of a chain shows name [n]: it defines it, and if privately then no step to a
    parent target lies in front of it. *)
Definition shows (c : chain) (n : str) (i : nat) (v : var) : Prop :=
  exists nd, nth_error c i = Some nd /\ In (n, v) (n_set nd) /\
    (v_private v = true -> forall j nd', j < i -> nth_error c j = Some nd' -> n_parent nd' = false).

(** ** Pattern-specific variables (C17) *)

(** The pattern matches the target with a non-empty stem. *)
Definition pat_matches (p : pvar) (target : str) : Prop :=
  exists stem, stem <> [] /\ target = pv_prefix p ++ stem ++ pv_suffix p.
