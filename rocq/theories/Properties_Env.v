From Verif Require Import Base M_Text M_Var S_Var P_Var M_Expand S_Expand P_Expand S_Text S_Eval P_Eval M_Env S_Env P_Env Properties_Expand.
Open Scope string_scope.
Open Scope list_scope.
Open Scope nat_scope.

(** ** C16 *)

(** If the definition a recipe sees for a name is the innermost one and is exported, the
    recipe's environment has that name, with the value $(NAME) has in that recipe.  (A recursive
    variable that came from the environment is excepted, see C45.) *)
Theorem C16_exported_value :
  forall ftab fuel all shell global c level pid file env n id v,
  sets_ok c ->
  target_environment ftab fuel all shell global c level pid file = XOk env ->
  lookup_variable n c = Some (id, v) -> first_in n c id v -> exported all global n v ->
  n <> n_MAKELEVEL -> n <> n_MAKEPARENT_PID -> n <> n_MAKEPARENT_TARGET -> plain_name c_rparen n ->
  v_recursive v = false \/ (v_origin v <> o_env /\ v_origin v <> o_env_override) ->
  exists s st, In (n, s) env /\
    expand ftab true (S fuel) c st0 (c_dollar :: c_lparen :: n ++ [c_rparen]) = XOk (st, s).
Proof.
  intros ftab fuel all shell global c level pid file env n id v OK H L F X N1 N2 N3 P R.
  assert (O : own_name n = false).
  { destruct (own_name n) eqn:E; [apply (proj1 (own_name_iff n)) in E; destruct E as [E|[E|E]]; contradiction|reflexivity]. }
  destruct (env_entry_of ftab fuel all shell global c level pid file env n (id, v) H O (table_first all shell global c n id v OK F X)) as [s [J1 J2]].
  destruct (entry_reference ftab fuel c n id v s L) as [st E]; [|exact P|exact J2|exists s, st; auto].
  destruct R as [R|[R1 R2]]; [left; exact R|right]. unfold env_origin. apply oneqb in R1. apply oneqb in R2. rewrite R1, R2. reflexivity.
Qed.
Print Assumptions C16_exported_value.

(** No name has two entries, and a name none of whose definitions is exported has none. *)
Theorem C16_no_other_names :
  forall ftab fuel all shell global c level pid file env,
  sets_ok c ->
  target_environment ftab fuel all shell global c level pid file = XOk env ->
  NoDup (map fst env) /\
  (forall n, n <> n_MAKELEVEL -> n <> n_MAKEPARENT_PID -> n <> n_MAKEPARENT_TARGET -> n <> n_SHELL ->
     (forall nd v, In nd c -> set_find n (n_set nd) = Some v -> ~ exported all global n v) ->
     ~ In n (map fst env)).
Proof.
  intros ftab fuel all shell global c level pid file env OK H. destruct (env_names ftab fuel all shell global c level pid file env H) as [D I].
  split; [exact D|]. intros n N1 N2 N3 N4 X Hn. apply I in Hn. rewrite own_name_iff in Hn.
  destruct Hn as [[Hn|[Hn|Hn]]|[_ Hn]]; [contradiction..|]. exact (table_absent all shell global c n OK N4 X Hn).
Qed.
Print Assumptions C16_no_other_names.

(** MAKELEVEL is one more than make's own, whatever the makefile says about the variable. *)
Theorem C16_makelevel :
  forall ftab fuel all shell global c level pid file env,
  target_environment ftab fuel all shell global c level pid file = XOk env ->
  In (n_MAKELEVEL, show_nat (S level)) env /\ forall s, In (n_MAKELEVEL, s) env -> s = show_nat (S level).
Proof.
  intros ftab fuel all shell global c level pid file env H.
  assert (A : In (n_MAKELEVEL, show_nat (S level)) env).
  { unfold target_environment in H. destruct (env_entries _ _ _ _) as [l| |]; cbn [xbind] in H; try discriminate.
    injection H as H. subst env. apply in_or_app. right. left. reflexivity. }
  split; [exact A|]. intros s Hs. destruct (env_names ftab fuel all shell global c level pid file env H) as [D _].
  clear H. induction env as [|[m x] env IH]; [destruct A|]. cbn [map fst] in D. inversion D; subst.
  destruct A as [A|A], Hs as [Hs|Hs].
  - inversion A; inversion Hs; subst; congruence.
  - inversion A; subst. exfalso. apply H1. change n_MAKELEVEL with (fst (n_MAKELEVEL, s)). apply in_map. exact Hs.
  - inversion Hs; subst. exfalso. apply H1. change n_MAKELEVEL with (fst (n_MAKELEVEL, show_nat (S level))). apply in_map. exact A.
  - apply IH; assumption.
Qed.
Print Assumptions C16_makelevel.

Definition ev_var (value : string) (o : origin) (rec priv : bool) (x : vexport) (pt : bool) : var :=
  mkvar (s2l value) o rec false false pt priv x true.
Definition g1 : vset := [(s2l "A", ev_var "1$(B)" o_file true false v_export false); (s2l "B", ev_var "2" o_file false false v_default false)].
Example C16_example :
  target_environment real 10 false None g1 [mknode 1 g1 false] 0 42 (s2l "all")
  = XOk [(s2l "A", s2l "12"); (s2l "MAKELEVEL", s2l "1"); (s2l "MAKEPARENT_PID", s2l "42"); (s2l "MAKEPARENT_TARGET", s2l "all")] /\
  first_in (s2l "A") [mknode 1 g1 false] 1 (ev_var "1$(B)" o_file true false v_export false) /\
  exported false g1 (s2l "A") (ev_var "1$(B)" o_file true false v_export false).
Proof.
  split; [vm_compute; reflexivity|]. split.
  - exists [], (mknode 1 g1 false), []. split; [reflexivity|]. split; [reflexivity|]. split; [reflexivity|]. intros x [].
  - exists v_export. split; [|left; reflexivity]. left. split; [reflexivity|]. intros [? _]; discriminate.
Qed.

(** Without the guard the claim fails in two ways.  A private variable of the parent target is
    not seen by the prerequisite's recipe, but is in its environment. *)
Theorem C16_private_leaks_refuted :
  exists c env s, target_environment real 10 false None [] c 0 1 (s2l "bar") = XOk env /\
    lookup_variable (s2l "X") c = None /\ In (s2l "X", s) env.
Proof.
  exists [mknode 2 [] true; mknode 1 [(s2l "X", ev_var "1" o_file false true v_export true)] false; mknode 0 [] false].
  eexists _, (s2l "1"). split; [vm_compute; reflexivity|]. split; [reflexivity|left; reflexivity].
Qed.
Print Assumptions C16_private_leaks_refuted.

(** A target-specific "override X = 1" against X=2 on the command line: the recipe sees
    $(X) = 1, its environment has X=2. *)
Theorem C16_outer_value_refuted :
  exists c global env st, target_environment real 10 false None global c 0 1 (s2l "foo") = XOk env /\
    expand real true 10 c st0 (s2l "$(X)") = XOk (st, s2l "1") /\ In (s2l "X", s2l "2") env.
Proof.
  set (g := [(s2l "X", ev_var "2" o_command false false v_default false)]).
  exists [mknode 1 [(s2l "X", ev_var "1" o_override false false v_default true)] true; mknode 0 g false], g.
  eexists _, _. split; [vm_compute; reflexivity|]. split; [vm_compute; reflexivity|left; reflexivity].
Qed.
Print Assumptions C16_outer_value_refuted.

(** ** C45: the environment passes through *)

(** An entry of make's own environment (the last one for its name) reaches every recipe
    character for character, dollar signs included, as long as no scope redefines the name. *)
Theorem C45_environment_passes_through :
  forall e ftab fuel all pre post s0 s1 sh c level pid file env n v,
  import_env e (pre ++ (n ++ c_eq :: v) :: post) s0 None = Some (s1, sh) ->
  ~ In c_eq n -> (forall x w, In x post -> x <> n ++ c_eq :: w) -> set_find n s0 = None ->
  n <> n_MAKE_RESTARTS -> n <> n_SHELL ->
  n <> n_MAKELEVEL -> n <> n_MAKEPARENT_PID -> n <> n_MAKEPARENT_TARGET ->
  forall inner outer id, c = inner ++ mknode id s1 false :: outer -> sets_ok c ->
  (forall nd, In nd inner -> set_find n (n_set nd) = None) ->
  target_environment ftab fuel all sh s1 c level pid file = XOk env ->
  In (n, v) env /\ forall w, In (n, w) env -> w = v.
Proof.
  intros e ftab fuel all pre post s0 s1 sh c level pid file env n v I Hn Hl H0 R1 R2 N1 N2 N3 inner outer id Ec OK Hi T.
  destruct (import_value e pre n v post s0 None s1 sh I Hn R1 R2 (or_introl H0) Hl) as [x Hx].
  set (w := mkvar v (upgrade e o_env) true false false false false v_export x) in *.
  assert (O : own_name n = false).
  { destruct (own_name n) eqn:E; [apply (proj1 (own_name_iff n)) in E; destruct E as [E|[E|E]]; contradiction|reflexivity]. }
  assert (F : first_in n c id w).
  { exists inner, (mknode id s1 false), outer. split; [exact Ec|]. split; [reflexivity|]. split; [exact Hx|exact Hi]. }
  assert (X : exported all s1 n w).
  { exists v_export. split; [|left; reflexivity]. left. split; [reflexivity|]. intros [? _]; discriminate. }
  destruct (env_entry_of ftab fuel all sh s1 c level pid file env n (id, w) T O (table_first all sh s1 c n id w OK F X)) as [s [J1 J2]].
  assert (s = v).
  { unfold env_entry in J2. assert (G : env_origin (v_origin w) = true) by (unfold w; cbn [v_origin]; destruct e; reflexivity).
    rewrite G, andb_false_r in J2. inversion J2; reflexivity. }
  subst s. split; [exact J1|]. intros u Hu. destruct (env_names ftab fuel all sh s1 c level pid file env T) as [D _].
  clear - D J1 Hu. induction env as [|[m y] env IH]; [destruct J1|]. cbn [map fst] in D. inversion D; subst.
  destruct J1 as [J1|J1], Hu as [Hu|Hu].
  - congruence.
  - inversion J1; subst. exfalso. apply H1. change n with (fst (n, u)). apply in_map. exact Hu.
  - inversion Hu; subst. exfalso. apply H1. change n with (fst (n, v)). apply in_map. exact J1.
  - apply IH; assumption.
Qed.
Print Assumptions C45_environment_passes_through.

Example C45_example :
  exists s1 sh env, import_env false [s2l "A=$(B) x=y"; s2l "SHELL=/bin/csh"; s2l "B=2"] [] None = Some (s1, sh) /\
  target_environment real 10 false sh s1 [mknode 1 [] true; mknode 0 s1 false] 0 7 (s2l "t") = XOk env /\
  In (s2l "A", s2l "$(B) x=y") env /\ In (s2l "SHELL", s2l "/bin/csh") env.
Proof.
  eexists _, _, _. split; [vm_compute; reflexivity|]. split; [vm_compute; reflexivity|]. split; vm_compute; tauto.
Qed.

(** An entry without an equals sign, which the code means to ignore, is read past its end. *)
Theorem C45_malformed_entry_refuted : exists envp, import_env false envp [] None = None.
Proof. exists [s2l "X"]. reflexivity. Qed.
Print Assumptions C45_malformed_entry_refuted.
