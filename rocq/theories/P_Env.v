From Verif Require Import Base M_Text M_Var S_Var P_Var M_Expand S_Expand P_Expand S_Text S_Eval P_Eval M_Env S_Env.
Open Scope nat_scope.

Lemma own_name_iff : forall n, own_name n = true <-> n = n_MAKELEVEL \/ n = n_MAKEPARENT_PID \/ n = n_MAKEPARENT_TARGET.
Proof. intros n. unfold own_name. rewrite !orb_true_iff, !str_eqb_eq. tauto. Qed.
Section Out.
  Variable ftab : str -> option fent.
  Variable fuel : nat.
  Variable export_all : bool.
  Variable shell_value : option str.
  Variable global : vset.
  Local Notation cand := (env_candidate export_all shell_value global).
  Local Notation table := (env_table export_all shell_value global).

  Lemma setting_unique : forall n v x, export_setting global n v x -> x = eff_export global n v.
  Proof.
    intros n v x H. unfold eff_export. destruct H as [[-> H]|[H1 [H2 H]]].
    - destruct (v_per_target v); [|reflexivity]. destruct (v_exp v); try reflexivity. exfalso. apply H. auto.
    - rewrite H1, H2. cbn. destruct H as [[gv [-> ->]]|[-> ->]]; reflexivity.
  Qed.
  Lemma setting_total : forall n v, export_setting global n v (eff_export global n v).
  Proof.
    intros n v. unfold eff_export, export_setting. destruct (v_per_target v) eqn:P; cbn [andb].
    - destruct (v_exp v) eqn:E; cbn [vexport_eqb]; try (left; split; [reflexivity|intros [_ ?]; discriminate]).
      right. split; [reflexivity|]. split; [reflexivity|]. destruct (set_find n global) as [gv|]; [left; eauto|right; auto].
    - left. split; [reflexivity|]. intros [? _]; discriminate.
  Qed.

  Lemma oeqb : forall a b, origin_eqb a b = true <-> a = b.
  Proof. intros a b. unfold origin_eqb. rewrite Nat.eqb_eq. split; [|intros ->; reflexivity]. destruct a, b; intros H; try reflexivity; discriminate. Qed.
  Lemma oneqb : forall a b, origin_eqb a b = false <-> a <> b.
  Proof. intros a b. rewrite <- Bool.not_true_iff_false, oeqb. reflexivity. Qed.

  Lemma exported_cand : forall n v, exported export_all global n v -> cand n v = Some v.
  Proof.
    intros n v [x [Hx H]]. apply setting_unique in Hx. subst x. unfold env_candidate.
    destruct H as [H|[[H H1]|[H [H1 [H2 [H3 H4]]]]]]; rewrite H; [reflexivity| |].
    - apply oneqb in H1. rewrite H1. reflexivity.
    - apply oneqb in H1. apply oneqb in H2. rewrite H1, H2, H3. cbn [orb negb].
      destruct export_all; [reflexivity|]. destruct H4 as [H4|[H4|[H4|H4]]]; [discriminate| | |]; rewrite H4; reflexivity.
  Qed.
  Lemma cand_exported : forall n v w, n <> n_SHELL -> cand n v = Some w -> w = v /\ exported export_all global n v.
  Proof.
    intros n v w Hn H. unfold env_candidate in H. unfold exported.
    pose proof (setting_total n v) as T. destruct (eff_export global n v) eqn:E.
    - inversion H; subst. split; [reflexivity|]. eexists. split; [exact T|]. left. reflexivity.
    - destruct (str_eqb n n_SHELL) eqn:S; [apply str_eqb_eq in S; contradiction|discriminate].
    - destruct (origin_eqb (v_origin v) o_default) eqn:O; [discriminate|]. inversion H; subst. split; [reflexivity|].
      eexists. split; [exact T|]. right. left. split; [reflexivity|]. apply oneqb. exact O.
    - destruct (origin_eqb (v_origin v) o_default) eqn:O1; [discriminate|]. cbn [orb] in H.
      destruct (origin_eqb (v_origin v) o_automatic) eqn:O2; [discriminate|].
      destruct (v_exportable v) eqn:X; [|discriminate]. cbn [negb] in H.
      destruct (negb export_all && negb (origin_eqb (v_origin v) o_command) && negb (origin_eqb (v_origin v) o_env) && negb (origin_eqb (v_origin v) o_env_override)) eqn:A; [discriminate|].
      inversion H; subst. split; [reflexivity|]. eexists. split; [exact T|]. right. right. split; [reflexivity|].
      apply oneqb in O1. apply oneqb in O2. split; [exact O1|]. split; [exact O2|]. split; [reflexivity|].
      destruct export_all; [left; reflexivity|]. cbn [negb andb] in A.
      destruct (origin_eqb (v_origin w) o_command) eqn:P1; [right; left; apply oeqb; exact P1|].
      destruct (origin_eqb (v_origin w) o_env) eqn:P2; [right; right; left; apply oeqb; exact P2|].
      destruct (origin_eqb (v_origin w) o_env_override) eqn:P3; [right; right; right; apply oeqb; exact P3|discriminate].
  Qed.

  Lemma tfind_in : forall n (t : list (str * (nat * var))) x, tfind n t = Some x -> In (n, x) t.
  Proof.
    intros n t x H. unfold tfind in H. destruct (find _ t) as [y|] eqn:F; [|discriminate]. inversion H; subst.
    apply find_some in F. destruct F as [F1 F2]. apply str_eqb_eq in F2. subst n. destruct y. exact F1.
  Qed.
  Lemma tfind_none : forall n (t : list (str * (nat * var))), tfind n t = None -> ~ In n (map fst t).
  Proof.
    intros n t H Hi. apply in_map_iff in Hi. destruct Hi as [y [Y1 Y2]]. unfold tfind in H.
    destruct (find _ t) eqn:F; [discriminate|]. pose proof (find_none _ _ F y Y2) as G. simpl in G.
    subst n. assert (str_eqb (fst y) (fst y) = true) by (apply str_eqb_eq; reflexivity). congruence.
  Qed.

  Lemma table_first : forall c n id v, sets_ok c -> first_in n c id v -> exported export_all global n v ->
    In (n, (id, v)) (table [] c).
  Proof.
    intros c n id v OK [pre [nd [post [E [Hid [Hf Hpre]]]]]] X. apply tfind_in. rewrite table_find by exact OK. cbn [tfind find].
    assert (F : find (fun nd => match set_find n (n_set nd) with Some v => match cand n v with Some _ => true | None => false end | None => false end) c = Some nd).
    { subst c. clear OK. induction pre as [|x pre IH]; cbn [app find].
      - rewrite Hf, (exported_cand n v X). reflexivity.
      - rewrite (Hpre x) by (left; reflexivity). apply IH. intros y Hy. apply Hpre. right. exact Hy. }
    unfold tfind. cbn [find]. rewrite F, Hf, (exported_cand n v X), Hid. reflexivity.
  Qed.
  Lemma table_absent : forall c n, sets_ok c -> n <> n_SHELL ->
    (forall nd v, In nd c -> set_find n (n_set nd) = Some v -> ~ exported export_all global n v) ->
    ~ In n (map fst (table [] c)).
  Proof.
    intros c n OK Hn H. apply tfind_none. rewrite table_find by exact OK. unfold tfind. cbn [find].
    destruct (find _ c) as [nd|] eqn:F; [|reflexivity]. apply find_some in F. destruct F as [F1 F2].
    destruct (set_find n (n_set nd)) as [v|] eqn:S; [|discriminate]. destruct (cand n v) as [w|] eqn:C; [|discriminate].
    exfalso. apply (H nd v F1 S). apply (cand_exported n v w Hn C).
  Qed.

  Lemma entries_spec : forall c t l, env_entries ftab fuel c t = XOk l ->
    map fst l = map fst t /\ (forall n x, In (n, x) t -> exists s, In (n, s) l /\ env_entry ftab fuel c (n, x) = XOk (n, s)).
  Proof.
    intros c. induction t as [|[n [id v]] t IH]; intros l H; cbn [env_entries] in H.
    - inversion H; subst. split; [reflexivity|]. intros n x [].
    - destruct (env_entry ftab fuel c (n, (id, v))) as [e| |] eqn:E; cbn [xbind] in H; try discriminate.
      destruct (env_entries ftab fuel c t) as [l'| |] eqn:R; cbn [xbind] in H; try discriminate. inversion H; subst.
      destruct (IH l' eq_refl) as [I1 I2].
      assert (N : exists s, e = (n, s)).
      { clear - E. unfold env_entry in E. destruct (v_recursive v && _).
        - destruct (recursively_expand _ _ _ _ _ _ _) as [[st s]| |]; inversion E; subst. exists s. reflexivity.
        - inversion E; subst. exists (v_value v). reflexivity. }
      destruct N as [s ->]. cbn [map fst]. split; [f_equal; exact I1|]. intros m x [Hx|Hx].
      + inversion Hx; subst. exists s. split; [left; reflexivity|exact E].
      + destruct (I2 m x Hx) as [s' [J1 J2]]. exists s'. split; [right; exact J1|exact J2].
  Qed.

  (** The value of the entry is that of a reference to the variable. *)
  Lemma entry_reference : forall c n id v s, lookup_variable n c = Some (id, v) ->
    (v_recursive v = false \/ env_origin (v_origin v) = false) -> plain_name c_rparen n ->
    env_entry ftab fuel c (n, (id, v)) = XOk (n, s) ->
    exists st, expand ftab true (S fuel) c st0 (c_dollar :: c_lparen :: n ++ [c_rparen]) = XOk (st, s).
  Proof.
    intros c n id v s L HR [N1 [N2 [N3 N4]]] H.
    rewrite (step_ref ftab true fuel c st0 c_lparen c_rparen n []);
      [|left; split; reflexivity|apply no_function; [exact N1|reflexivity|reflexivity]|exact N3|exact N2].
    rewrite full_plain by exact N4. unfold reference_variable. rewrite L. unfold env_entry in H.
    assert (W : forall st r, XOk (st, r) = XOk (st, s) -> exists st', xbind (XOk (st, r)) (fun '(st, s) => prefixed s (expand ftab true (S fuel) c st [])) = XOk (st', s)).
    { intros st r E. inversion E; subst. cbn [xbind]. rewrite X_nil. cbn [prefixed]. rewrite app_nil_r. eauto. }
    destruct (v_recursive v) eqn:R.
    - destruct HR as [HR|HR]; [discriminate|]. rewrite HR in H. cbn [negb andb] in H.
      destruct (recursively_expand true (expand ftab true fuel) c st0 id n v) as [[st r]| |] eqn:E; try discriminate.
      inversion H; subst. destruct (v_value v) as [|y l] eqn:V.
      + destruct (v_append v) eqn:A; [apply W; reflexivity|].
        (* an empty recursive value *)
        unfold recursively_expand in E. rewrite A, V in E. cbn [busy x_busy st0 existsb] in E.
        destruct fuel as [|f]; [discriminate|]. rewrite X_nil in E. cbn [xbind] in E. inversion E; subst. apply W. reflexivity.
      + apply W. reflexivity.
    - cbn [andb] in H. inversion H; subst. destruct (v_value v) as [|y l] eqn:V; [|apply W; reflexivity].
      destruct (v_append v); apply W; reflexivity.
  Qed.

  Lemma env_names : forall c ml pid file l, target_environment ftab fuel export_all shell_value global c ml pid file = XOk l ->
    NoDup (map fst l) /\ forall n, In n (map fst l) <-> (own_name n = true \/ (own_name n = false /\ In n (map fst (table [] c)))).
  Proof.
    intros c ml pid file l H. unfold target_environment in H.
    set (t := filter (fun x => negb (own_name (fst x))) (table [] c)) in *.
    destruct (env_entries ftab fuel c t) as [l'| |] eqn:E; cbn [xbind] in H; try discriminate.
    injection H as H. subst l. destruct (entries_spec c t l' E) as [I1 _].
    assert (T : forall n, In n (map fst t) <-> own_name n = false /\ In n (map fst (table [] c))).
    { intros n. unfold t. rewrite !in_map_iff. split.
      - intros [x [X1 X2]]. apply filter_In in X2. destruct X2 as [X2 X3]. apply negb_true_iff in X3. subst n. split; [exact X3|]. exists x. auto.
      - intros [H1 [x [X1 X2]]]. exists x. split; [exact X1|]. apply filter_In. split; [exact X2|]. rewrite X1, H1. reflexivity. }
    assert (ND : NoDup (map fst t)).
    { pose proof (table_nodup export_all shell_value global c [] (NoDup_nil _)) as N. unfold t.
      clear - N. revert N. generalize (table [] c). induction l as [|x l IH]; intros N; [constructor|]. cbn [filter map] in *. inversion N; subst.
      destruct (negb (own_name (fst x))); [|apply IH; assumption]. cbn [map]. constructor; [|apply IH; assumption].
      intros Hi. apply H1. apply in_map_iff in Hi. destruct Hi as [y [Y1 Y2]]. apply filter_In in Y2. apply in_map_iff. exists y. tauto. }
    rewrite map_app, I1. split.
    - cbn [map fst]. apply (Permutation_NoDup (l := [n_MAKELEVEL; n_MAKEPARENT_PID; n_MAKEPARENT_TARGET] ++ map fst t)); [apply Permutation_app_comm|].
      cbn [app]. repeat (constructor; [intros K; cbn [In] in K; repeat (destruct K as [K|K]; [discriminate|]); apply T in K; destruct K as [K _]; discriminate|]).
      exact ND.
    - intros n. rewrite in_app_iff, T, own_name_iff. cbn [map fst In]. intuition congruence.
  Qed.
  Lemma env_entry_of : forall c ml pid file l n x, target_environment ftab fuel export_all shell_value global c ml pid file = XOk l ->
    own_name n = false -> In (n, x) (table [] c) -> exists s, In (n, s) l /\ env_entry ftab fuel c (n, x) = XOk (n, s).
  Proof.
    intros c ml pid file l n x H Ho Hx. unfold target_environment in H.
    destruct (env_entries ftab fuel c _) as [l'| |] eqn:E; cbn [xbind] in H; try discriminate. injection H as H. subst l.
    destruct (entries_spec c _ l' E) as [_ I2]. destruct (I2 n x) as [s [J1 J2]].
    - apply filter_In. split; [exact Hx|]. cbn [fst]. rewrite Ho. reflexivity.
    - exists s. split; [apply in_or_app; left; exact J1|exact J2].
  Qed.
End Out.

(** ** Import *)
Lemma set_find_put : forall n m v s, set_find n (set_put m v s) = if str_eqb n m then Some v else set_find n s.
Proof.
  intros n m v s. destruct (str_eqb n m) eqn:E.
  - apply str_eqb_eq in E. subst m. apply find_put_same.
  - apply find_put_other. intros ->. rewrite (proj2 (str_eqb_eq m m)) in E by reflexivity. discriminate.
Qed.
Section In_.
  Variable e : bool.
  Definition imported (n val : str) (s : vset) : Prop :=
    exists x, set_find n s = Some (mkvar val (upgrade e o_env) true false false false false v_export x).

  Lemma cut_eq : forall n v, ~ In c_eq n -> cut_at c_eq (n ++ c_eq :: v) = Some (n, v).
  Proof. intros n v H. rewrite cut_at_prefix by exact H. cbn [cut_at]. rewrite eqc_refl, app_nil_r. reflexivity. Qed.
  Lemma cut_inv : forall x n v, cut_at c_eq x = Some (n, v) -> x = n ++ c_eq :: v /\ ~ In c_eq n.
  Proof. intros x n v H. apply cut_at_spec in H. exact H. Qed.

  Lemma define_other : forall n m t v o r s, n <> m -> set_find n (fst (define_in_set e m t v o r s)) = set_find n s.
  Proof.
    intros n m t v o r s H. unfold define_in_set. destruct (set_find m s); cbn [fst]; rewrite set_find_put;
      (destruct (str_eqb n m) eqn:E; [apply str_eqb_eq in E; contradiction|reflexivity]).
  Qed.

  Lemma step_other : forall entry l s sh s' sh' n, import_env e (entry :: l) s sh = Some (s', sh') ->
    (forall v, entry <> n ++ c_eq :: v \/ In c_eq n) ->
    exists s1 sh1, set_find n s1 = set_find n s /\ import_env e l s1 sh1 = Some (s', sh').
  Proof.
    intros entry l s sh s' sh' n H Hn. cbn [import_env] in H. destruct (cut_at c_eq entry) as [[m val]|] eqn:C; [|discriminate].
    apply cut_inv in C. destruct C as [-> C].
    assert (N : n <> m).
    { intros ->. destruct (Hn val) as [K|K]; [apply K; reflexivity|contradiction]. }
    set (val' := if str_eqb m n_MAKE_RESTARTS then _ else val) in H. cbv zeta in H.
    destruct (define_in_set e m (c_eq :: val') val' o_env true s) as [s2 v2] eqn:D.
    eexists _, _. split; [|exact H]. rewrite set_find_put. destruct (str_eqb n m) eqn:E; [apply str_eqb_eq in E; contradiction|].
    pose proof (define_other n m (c_eq :: val') val' o_env true s N) as G. rewrite D in G. exact G.
  Qed.

  Lemma import_other : forall l s sh s' sh' n, import_env e l s sh = Some (s', sh') ->
    (forall x v, In x l -> x <> n ++ c_eq :: v \/ In c_eq n) -> set_find n s' = set_find n s.
  Proof.
    induction l as [|x l IH]; intros s sh s' sh' n H Hn.
    - cbn [import_env] in H. inversion H; subst. reflexivity.
    - destruct (step_other _ _ _ _ _ _ n H) as [s1 [sh1 [E R]]]; [intros v; apply Hn; left; reflexivity|].
      rewrite <- E. apply (IH _ _ _ _ _ R). intros y v Hy. apply Hn. right. exact Hy.
  Qed.

  Lemma step_same : forall n v l s sh s' sh', import_env e ((n ++ c_eq :: v) :: l) s sh = Some (s', sh') ->
    ~ In c_eq n -> n <> n_MAKE_RESTARTS -> n <> n_SHELL ->
    (set_find n s = None \/ exists v0, imported n v0 s) ->
    exists s1 sh1, imported n v s1 /\ import_env e l s1 sh1 = Some (s', sh').
  Proof.
    intros n v l s sh s' sh' H Hn R1 R2 Hs. cbn [import_env] in H. rewrite cut_eq in H by exact Hn.
    assert (E1 : str_eqb n n_MAKE_RESTARTS = false) by (destruct (str_eqb n n_MAKE_RESTARTS) eqn:E; [apply str_eqb_eq in E; contradiction|reflexivity]).
    assert (E2 : str_eqb n n_SHELL = false) by (destruct (str_eqb n n_SHELL) eqn:E; [apply str_eqb_eq in E; contradiction|reflexivity]).
    rewrite E1, E2 in H. cbn [orb] in H. cbv zeta in H. unfold define_in_set in H.
    assert (P : forall v' s0, set_find n (set_put n v' s0) = Some v').
    { intros. rewrite set_find_put. assert (X : str_eqb n n = true) by (apply str_eqb_eq; reflexivity). rewrite X. reflexivity. }
    destruct Hs as [Hs|[v0 [x0 Hs]]]; rewrite Hs in H.
    - eexists _, _. split; [|exact H]. eexists. rewrite P. reflexivity.
    - cbn [v_origin v_value] in H. assert (U : upgrade e (upgrade e o_env) = upgrade e o_env) by (destruct e; reflexivity). rewrite U in H.
      rewrite Nat.leb_refl in H. eexists _, _. split; [|exact H]. eexists. rewrite P. reflexivity.
  Qed.

  Lemma import_value : forall l1 n v l2 s sh s' sh', import_env e (l1 ++ (n ++ c_eq :: v) :: l2) s sh = Some (s', sh') ->
    ~ In c_eq n -> n <> n_MAKE_RESTARTS -> n <> n_SHELL ->
    (set_find n s = None \/ exists v0, imported n v0 s) ->
    (forall x w, In x l2 -> x <> n ++ c_eq :: w) -> imported n v s'.
  Proof.
    induction l1 as [|x l1 IH]; intros n v l2 s sh s' sh' H Hn R1 R2 Hs Hl; cbn [app] in H.
    - destruct (step_same _ _ _ _ _ _ _ H Hn R1 R2 Hs) as [s1 [sh1 [I R]]].
      destruct I as [x I]. exists x. rewrite <- I. apply (import_other _ _ _ _ _ _ R). intros y w Hy. left. apply Hl. exact Hy.
    - destruct (cut_at c_eq x) as [[m w]|] eqn:C; [|cbn [import_env] in H; rewrite C in H; discriminate].
      pose proof (cut_inv _ _ _ C) as [-> Cm]. destruct (str_eqb n m) eqn:E.
      + apply str_eqb_eq in E. subst m. destruct (step_same _ _ _ _ _ _ _ H Hn R1 R2 Hs) as [s1 [sh1 [I R]]].
        apply (IH _ _ _ _ _ _ _ R Hn R1 R2); [right; exists w; exact I|exact Hl].
      + destruct (step_other _ _ _ _ _ _ n H) as [s1 [sh1 [Es R]]].
        { intros u. left. intros K. assert (n = m); [|subst; rewrite (proj2 (str_eqb_eq m m)) in E by reflexivity; discriminate].
          pose proof (cut_eq m w Cm) as Q. rewrite K, (cut_eq n u Hn) in Q. congruence. }
        apply (IH _ _ _ _ _ _ _ R Hn R1 R2); [|exact Hl].
        destruct Hs as [Hs|[v0 [x0 Hs]]]; [left; congruence|right; exists v0, x0; congruence].
  Qed.
End In_.
