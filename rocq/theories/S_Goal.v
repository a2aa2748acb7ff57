(** Which target is made when none is named. *)
From Verif Require Import Base M_Var M_Goal.
Open Scope list_scope.

Definition dotted (n : str) : Prop := exists r, n = c_dot :: r.
(** A target that may be the default goal. *)
Definition candidate (suffixes : list str) (n : str) : Prop :=
  (dotted n -> In c_slash n) /\ ~ (In n suffixes /\ ~ dotted n) /\ ~ exists a b, In a suffixes /\ In b suffixes /\ n = a ++ b.
(** [n] is the first candidate among the targets, before any with a percent sign. *)
Definition first_candidate (suffixes : list str) (ts : list str) (n : str) : Prop :=
  exists before after, ts = before ++ n :: after /\ ~ In c_percent n /\ candidate suffixes n /\
    Forall (fun m => ~ In c_percent m /\ ~ candidate suffixes m) before.
(** The suffixes after these events. *)
Fixpoint suffixes_after (l : list str) (evs : list event) : list str :=
  match evs with [] => l | Suffixes l' :: evs' => suffixes_after l' evs' | _ :: evs' => suffixes_after l evs' end.
(** A rule whose [n] becomes the default goal, with only rules without candidates before it. *)
Definition provides (l : list str) (ts : list str) : Prop := exists n, first_candidate l ts n.
Definition first_rule (l : list str) (evs : list event) (n : str) : Prop :=
  exists evs1 ts evs2, evs = evs1 ++ Rule_line true ts :: evs2 /\ first_candidate (suffixes_after l evs1) ts n /\
    forall a ts' b, evs1 = a ++ Rule_line true ts' :: b -> ~ provides (suffixes_after l a) ts'.
Definition no_rule (l : list str) (evs : list event) : Prop :=
  forall a ts b, evs = a ++ Rule_line true ts :: b -> ~ provides (suffixes_after l a) ts.
(** Events that do not mention the variable. *)
Definition silent (ev : event) : Prop := match ev with Define n _ _ _ | Undefine n _ => n <> n_goal | _ => True end.
