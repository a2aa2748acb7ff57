(** When the files of a plan are had, searched for and entered. *)
From Verif Require Import Base M_Implicit S_Implicit.

Section Timely.
  Variable rules : list rule.
  Variable lookup exists_p : str -> bool.
  Variable vpath : list str -> str -> bool.
  Definition deps_of (p : plan) : list (str * bool * option plan) := match p with Plan _ _ _ deps _ => deps end.
  Definition has_prereqs (i : nat) : Prop := exists r, nth_error rules i = Some r /\ r_deps r <> [].
  (** The search begins with the table of files [F] and ends with [G].  Just before the end the table is [mid]: a prerequisite without a plan is had in the table at some time between [F]
      and [mid], without the help of what this plan enters; one with a plan is not had when it is searched for, and its plan is of a search in between.  What is entered at the end is
      mentioned in the plan, and all its intermediate files with their prerequisites, and the other targets, are among it; for the file the search was for ([top]) all prerequisites. *)
  Inductive timely : bool -> list str -> list str -> plan -> list str -> Prop :=
  | ti_plan top F expl i ti stem deps also mid added :
      starts F mid ->
      (forall n, In n added -> mentions (Plan i ti stem deps also) n) ->
      (forall n, In n also -> In n added) ->
      (forall n o p, In (n, o, Some p) deps -> In n added /\ forall m o' x, In (m, o', x) (deps_of p) -> In m added) ->
      (has_prereqs i -> forall n o, In (n, o, None) deps -> exists f, starts F f /\ starts f mid /\ had lookup exists_p vpath f expl n) ->
      (has_prereqs i -> forall n o p, In (n, o, Some p) deps -> exists f g, starts F f /\ starts g mid /\ ~ had lookup exists_p vpath f expl n /\ timely false f [] p g) ->
      (top = true -> forall n o x, In (n, o, x) deps -> In n added) ->
      timely top F expl (Plan i ti stem deps also) (mid ++ added).
End Timely.
