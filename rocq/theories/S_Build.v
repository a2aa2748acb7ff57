(** What building means: in terms of the graph as read, the disk as it was, and the events. *)
From Verif Require Import Base M_Build.

(** [later a b]: something of the time [a] is newer than something of the time [b]. *)
Inductive later : time -> time -> Prop :=
| later_at n k : n < k -> later (At k) (At n)
| later_new n : later New (At n)
| later_there a : a <> Absent -> later a Absent.

Section Spec.
  (** The prerequisites as read, and which files are intermediate then. *)
  Variable G : nat -> list dep.
  Variable inter : nat -> bool.
  Variable phony : nat -> bool.
  (** The times before the build. *)
  Variable disk : nat -> time.

  Definition edge (f d : nat) (order : bool) : Prop := exists x, In x (G f) /\ d_file x = d /\ d_order x = order.
  Inductive reach : nat -> nat -> Prop :=
  | reach_refl f : reach f f
  | reach_step f g d o : reach f g -> edge g d o -> reach f d.

  (** [reason t this d]: after the events [t] there is a reason in [d] to remake a file of the time
      [this].  A missing intermediate file is none; one of its prerequisites may be. *)
  Inductive reason (t : list event) (this : time) : nat -> Prop :=
  | r_phony d : phony d = true -> reason t this d
  | r_missing d : inter d = false -> disk d = Absent -> reason t this d
  | r_newer d : later (disk d) this -> reason t this d
  | r_remade d ok : In (Finish d ok) t -> reason t this d
  | r_intermediate d e : inter d = true -> edge d e false -> reason t this e -> reason t this d.

  (** Every recipe that is started, and every complaint that there is no rule, has a reason: the
      target is missing or phony, or -B was given, or it is a double-colon rule without
      prerequisites, or a prerequisite gives one. *)
  Definition justified (always : bool) (double : nat -> bool) (tr : list event) : Prop := forall t2 e f t1, tr = t2 ++ e :: t1 -> e = Start f \/ e = NoRule f ->
    phony f = true \/ disk f = Absent \/ always = true \/ (double f = true /\ forall d o, edge f d o -> In (Drop f d) t1) \/
    exists d, edge f d false /\ reason t1 (disk f) d.

  (** Nothing starts twice. *)
  Fixpoint starts (t : list event) : list nat :=
    match t with
    | [] => []
    | Start f :: t' => f :: starts t'
    | _ :: t' => starts t'
    end.
  Fixpoint finishes (t : list event) : list nat :=
    match t with
    | [] => []
    | Finish f _ :: t' => f :: finishes t'
    | _ :: t' => finishes t'
    end.
  (** [before t tr d]: when the events [t] of [tr] have happened, [d] is settled, and well: if its
      recipe is run at all, it has been run by then and has succeeded. *)
  Definition before (t tr : list event) (d : nat) : Prop :=
    (In (Start d) tr -> In (Finish d true) t) /\ ~ In (Finish d false) tr /\ ~ In (NoRule d) tr.
  (** When a recipe starts, every prerequisite that is not dropped is settled. *)
  Definition ordered (tr : list event) : Prop := forall t2 f t1 d o, tr = t2 ++ Start f :: t1 -> edge f d o ->
    In (Drop f d) t1 \/ before t1 tr d.
  (** A prerequisite is dropped only if it depends on the target. *)
  Definition drops_cycles (tr : list event) : Prop := forall f d, In (Drop f d) tr -> reach d f /\ exists o, edge f d o.

  (** Failures and what follows from them. *)
  Inductive hopeless (tr : list event) : nat -> Prop :=
  | h_failed f : In (Finish f false) tr -> hopeless tr f
  | h_no_rule f : In (NoRule f) tr -> hopeless tr f
  | h_dep f d o : edge f d o -> hopeless tr d -> hopeless tr f.
  (** The same, along prerequisites that are not dropped and not intermediate. *)
  Inductive doomed (tr : list event) : nat -> Prop :=
  | dm_failed f : In (Finish f false) tr -> doomed tr f
  | dm_no_rule f : In (NoRule f) tr -> doomed tr f
  | dm_dep f d o : edge f d o -> ~ In (Drop f d) tr -> (inter d = false \/ phony d = true) -> doomed tr d -> doomed tr f.
  (** Nothing is started that has a doomed prerequisite. *)
  Definition contained (tr : list event) : Prop := forall f d o, In (Start f) tr -> edge f d o -> ~ In (Drop f d) tr -> inter d = false \/ phony d = true -> ~ doomed tr d.
  (** Nothing happens after a failure. *)
  Definition failure (e : event) : Prop := exists f, e = Finish f false \/ e = NoRule f.
  Definition stops (tr : list event) : Prop := forall t2 e t1, tr = t2 ++ e :: t1 -> failure e -> t2 = [].

  (** What a goal needs in the end: along prerequisites that are not dropped and not intermediate. *)
  Inductive needs (tr : list event) : nat -> nat -> Prop :=
  | needs_refl f : needs tr f f
  | needs_step f g d o : needs tr f g -> edge g d o -> ~ In (Drop g d) tr -> (inter d = false \/ phony d = true) -> needs tr f d.
  (** [accomplished tr D f]: the events [tr] have left [f] up to date on the disk [D].  A recipe that
      was started has succeeded.  If none was started though there is one, or if there is no rule
      for [f] at all, then [f] is there and so are its prerequisites, none of which is newer or phony. *)
  Variable cmds blank target : nat -> bool.
  Definition unmade (tr : list event) (f : nat) : Prop :=
    (cmds f = true /\ blank f = false /\ ~ In (Start f) tr) \/ (cmds f = false /\ target f = false /\ phony f = false).
  Definition accomplished (tr : list event) (D : nat -> time) (f : nat) : Prop :=
    (In (Start f) tr -> In (Finish f true) tr) /\ ~ In (Finish f false) tr /\ ~ In (NoRule f) tr /\
    (unmade tr f -> phony f = false /\ D f <> Absent /\ forall d, edge f d false -> ~ In (Drop f d) tr -> inter d = false \/ phony d = true -> phony d = false /\ D d <> Absent /\ ~ later (D d) (D f)).
  (** [foreseen tr f]: the events [tr] of a build that only prints what it would do, or only asks
      whether there is anything to do, have left nothing out that [f] wants: if its recipe is not
      printed, then [f] is there and so are its prerequisites; none of them is newer, and the recipe of
      none is printed. *)
  Definition foreseen (tr : list event) (f : nat) : Prop :=
    ~ In (NoRule f) tr /\
    (unmade tr f -> phony f = false /\ disk f <> Absent /\
     forall d, edge f d false -> ~ In (Drop f d) tr -> inter d = false \/ phony d = true -> phony d = false /\ disk d <> Absent /\ ~ later (disk d) (disk f) /\ ~ In (Start d) tr).
  (** When a recipe starts, every prerequisite that is not dropped (intermediate or not) is there:
      it was there before the build, or its recipe has run; or there is nothing to run, or it is phony. *)
  Definition present (tr : list event) : Prop := forall t2 f t1 d o, tr = t2 ++ Start f :: t1 -> edge f d o ->
    In (Drop f d) t1 \/ phony d = true \/ (cmds d = true /\ blank d = true) \/ (cmds d = false /\ target d = true) \/ In (Finish d true) t1 \/ disk d <> Absent.
End Spec.

(** The hypotheses on a makefile.  The files are the numbers below [N]. *)
Definition fits (m : make) (disk : nat -> time) (N : nat) (goals : list nat) : Prop :=
  (forall g, In g goals -> g < N) /\ (forall f d o, f < N -> edge (m_deps m) f d o -> d < N) /\
  (* -q and -t without -k stop in the middle of a walk *)
  (m_keep m = true \/ m_how m = Normal \/ m_how m = Dry) /\
  (* no intermediate files; or recipes write their own targets only, and intermediate files that exist have recipes *)
  ((forall f, m_inter m f = false) \/
   ((forall c f D n, n <> f -> t_effect (m_world m c) f D n = D n) /\ forall f, m_inter m f = true -> disk f <> Absent -> m_tried m f = false /\ m_cmds m f = true)).
(** What the goals depend on. *)
Definition wanted (m : make) (goals : list nat) (f : nat) : Prop := exists g, In g goals /\ reach (m_deps m) g f.
(** Recipes write their own targets only. *)
Definition writes_own (m : make) : Prop := forall c f D n, n <> f -> t_effect (m_world m c) f D n = D n.
(** What a recipe writes is not older than anything there is. *)
Definition writes_new (m : make) : Prop := forall c f D n, t_ok (m_world m c) = true -> ~ later (D n) (t_effect (m_world m c) f D f).
(** How make leaves: after the last goal, or at once. *)
Definition leaves (r : res us) (st : state) : Prop := r = Die st \/ exists s, r = Ok s st.
(** The exit status is 0 (src/main.c:2436-2453). *)
Definition fine (s : us) : Prop := us_rank s < 2.

