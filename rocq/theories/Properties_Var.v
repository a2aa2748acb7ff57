From Verif Require Import Base M_Var S_Var P_Var.
Open Scope string_scope.
Open Scope list_scope.
Open Scope nat_scope.

(** What a name has been through: what it was to begin with, and then the operations on it. *)
Definition past (n : str) (s : vset) (ops : list vop) : list event :=
  match set_find n s with
  | Some v => [Def (v_origin v) (v_value v) (v_recursive v)]
  | None => []
  end ++ history n ops.

(** C14.  After any definitions and undefinitions in any set, with or without -e, the value and
    flavour of every name are those of the definition that stands after its past, and there is
    none exactly when no definition stands. *)
Theorem C14_strongest_definition_stands :
  forall (e : bool) (s : vset) (ops : list vop) (n : str),
  (forall v, set_find n (vrun e s ops) = Some v ->
     exists o, stands_after e (past n s ops) o (v_value v) (v_recursive v) /\ rank e o = rank e (v_origin v)) /\
  (forall o value r, stands_after e (past n s ops) o value r ->
     exists v, set_find n (vrun e s ops) = Some v /\ v_value v = value /\ v_recursive v = r /\
               rank e (v_origin v) = rank e o).
Proof.
  intros e s ops n.
  assert (S : osame e (cur_def n (vrun e s ops)) (fold_left (ev_step e) (past n s ops) None)).
  { rewrite vrun_history. unfold past. rewrite fold_left_app.
    assert (H : osame e (cur_def n s) (fold_left (ev_step e)
       match set_find n s with Some v => [Def (v_origin v) (v_value v) (v_recursive v)] | None => [] end None)).
    { unfold cur_def. destruct (set_find n s) as [v|]; simpl; [|exact I].
      unfold same_def. simpl. rewrite rank_rank. auto. }
    revert H. generalize (cur_def n s), (fold_left (ev_step e)
      match set_find n s with Some v => [Def (v_origin v) (v_value v) (v_recursive v)] | None => [] end None).
    induction (history n ops) as [|x h IH]; intros a b H; [exact H|]. cbn [fold_left]. apply IH. apply ev_step_same. exact H. }
  unfold cur_def in S. split.
  - intros v Hv. rewrite Hv in S. simpl in S.
    destruct (fold_left (ev_step e) (past n s ops) None) as [[[o w] r]|] eqn:R; [|destruct S].
    destruct S as [S1 [S2 S3]]. simpl in *. destruct (run_stands _ _ _ _ _ R) as [o' [_ [P2 P3]]].
    exists o'. rewrite S1, S2. split; [exact P3|congruence].
  - intros o w r H. destruct (stands_run _ _ _ _ _ H) as [o' [R1 R2]]. rewrite R1 in S.
    destruct (set_find n (vrun e s ops)) as [v|]; simpl in S; [|destruct S].
    destruct S as [S1 [S2 S3]]. simpl in *. exists v. repeat split; congruence.
Qed.
Print Assumptions C14_strongest_definition_stands.

(** So a definition weaker than the one in force changes neither value nor flavour; and one at
    least as strong is in force afterwards. *)
Theorem C14_weaker_definition_changes_nothing :
  forall e s n tail value o r v, set_find n s = Some v ->
  exists v', set_find n (vrun e s [VDef n tail value o r]) = Some v' /\
    (rank e o < rank e (v_origin v) -> v_value v' = v_value v /\ v_recursive v' = v_recursive v) /\
    (rank e (v_origin v) <= rank e o -> v_value v' = value /\ v_recursive v' = r).
Proof.
  intros e s n tail value o r v H. cbn [vrun fold_left vapply]. unfold define_in_set. rewrite H, !rank_upgrade. cbn [fst].
  rewrite find_put_same. eexists. split; [reflexivity|].
  destruct (Nat.leb_spec (rank e (v_origin v)) (rank e o)); split; intros; try lia; split; reflexivity.
Qed.
Print Assumptions C14_weaker_definition_changes_nothing.

Example C14_example :
  (* environment, makefile, command line, makefile again, undefined by the makefile (no effect),
     override, undefined by override, then the makefile *)
  let X := s2l "X" in
  map (fun k => option_map (fun v => v_value v) (set_find X (vrun false [] (firstn k
    [VDef X [] (s2l "env") o_env true; VDef X [] (s2l "mk") o_file true; VDef X [] (s2l "cmd") o_command false;
     VDef X [] (s2l "mk2") o_file true; VUndef X o_file; VDef X [] (s2l "ov") o_override true;
     VUndef X o_override; VDef X [] (s2l "mk3") o_file false]))))
    (seq 1 8)
  = [Some (s2l "env"); Some (s2l "mk"); Some (s2l "cmd"); Some (s2l "cmd"); Some (s2l "cmd"); Some (s2l "ov");
     None; Some (s2l "mk3")].
Proof. vm_compute. reflexivity. Qed.

Example C14_example_e :
  (* with -e the environment is stronger than the makefile *)
  let X := s2l "X" in
  option_map (fun v => v_value v)
    (set_find X (vrun true [] [VDef X [] (s2l "env") o_env true; VDef X [] (s2l "mk") o_file true]))
  = Some (s2l "env").
Proof. vm_compute. reflexivity. Qed.

Example C14_example_spec :
  stands_after true [Def o_env (s2l "env") true; Def o_file (s2l "mk") true] o_env (s2l "env") true.
Proof.
  exists [], [Def o_file (s2l "mk") true]. split; [reflexivity|]. split.
  - intros x [<-|[]]. simpl. lia.
  - intros [|? ?]; discriminate.
Qed.

(** C15.  Whatever the chain of scopes, a reference gets the definition of the innermost scope
    that shows the name, and nothing exactly when no scope shows it. *)
Theorem C15_innermost_visible_definition :
  forall c n, sets_ok c ->
  (forall id v, lookup_variable n c = Some (id, v) ->
     exists i nd, nth_error c i = Some nd /\ n_id nd = id /\ shows c n i v /\
       forall j v', shows c n j v' -> i <= j) /\
  (forall i v, shows c n i v -> (forall j v', shows c n j v' -> i <= j) ->
     exists nd, nth_error c i = Some nd /\ lookup_variable n c = Some (n_id nd, v)) /\
  (lookup_variable n c = None <-> forall i v, ~ shows c n i v).
Proof.
  intros c n OK. split; [intros id v; exact (lookup_shows c n id v OK)|]. split; [|exact (lookup_none c n OK)].
  intros i v Hs Hm. destruct (lookup_variable n c) as [[id w]|] eqn:L.
  - destruct (lookup_shows c n id w OK L) as [j [nd [A1 [A2 [A3 A4]]]]].
    assert (i = j) by (pose proof (Hm _ _ A3); pose proof (A4 _ _ Hs); lia). subst j.
    exists nd. split; [exact A1|]. destruct Hs as [nd' [B1 [B2 _]]]. destruct A3 as [nd'' [B3 [B4 _]]].
    assert (nd' = nd) by congruence. assert (nd'' = nd) by congruence. subst nd' nd''.
    pose proof (OK nd (nth_error_In _ _ A1)) as N.
    pose proof (set_find_nodup _ _ _ N B2). pose proof (set_find_nodup _ _ _ N B4). congruence.
  - exfalso. apply ((proj1 (lookup_none c n OK)) L i v Hs).
Qed.
Print Assumptions C15_innermost_visible_definition.

(** Entering a scope, doing anything in it (definitions, nested scopes) and leaving it again
    restores every scope, hence every lookup; while inside, the outer scopes are untouched
    below the new one. *)
Theorem C15_leaving_a_scope_restores :
  forall e s l, gl s <> [] -> inner l ->
  exists u, srun e (Some s) (Push :: l ++ [Pop]) = Some u /\ cur u = cur s /\ gl u = gl s /\
    (forall n, lookup_variable n (cur_chain u) = lookup_variable n (cur_chain s)).
Proof.
  intros e s l G I. unfold srun. cbn [fold_left sstep]. rewrite fold_left_app.
  destruct (inner_one e l I s (push_scope s) G (push_one s)) as [t [T1 T2]].
  unfold srun in T1. rewrite T1. cbn [fold_left sstep].
  destruct (pop_one s t G T2) as [u [U1 [U2 U3]]]. exists u. split; [exact U1|]. split; [exact U2|]. split; [exact U3|].
  intros n. unfold cur_chain. rewrite U2, U3. reflexivity.
Qed.
Print Assumptions C15_leaving_a_scope_restores.

Theorem C15_inner_scope_hides_only :
  forall e s l, gl s <> [] -> inner l ->
  exists u nd, srun e (Some s) (Push :: l) = Some u /\ cur_chain u = nd :: cur_chain s.
Proof.
  intros e s l G I. unfold srun. cbn [fold_left sstep].
  destruct (inner_one e l I s (push_scope s) G (push_one s)) as [t [T1 [nd T2]]].
  exists t, nd. split; [exact T1|]. unfold cur_chain.
  destruct (cur s) as [|c0 c]; destruct T2 as [T2 T3]; rewrite T2, T3; reflexivity.
Qed.
Print Assumptions C15_inner_scope_hides_only.

Definition xv (value : str) (priv : bool) : var :=
  mkvar value o_file true false false true priv v_default true.
Example C15_example :
  (* target scope, then (a step to a parent target) the parent's scope with a private X, then
     the global scope *)
  let c := [mknode 2 [] true; mknode 1 [(s2l "X", xv (s2l "private") true); (s2l "Y", xv (s2l "parent") false)] false;
            mknode 0 [(s2l "X", xv (s2l "global") false); (s2l "Y", xv (s2l "global") false)] false] in
  (lookup_variable (s2l "X") c, lookup_variable (s2l "Y") c, lookup_variable (s2l "X") (tl c))
  = (Some (0, xv (s2l "global") false), Some (1, xv (s2l "parent") false), Some (1, xv (s2l "private") true)).
Proof. vm_compute. reflexivity. Qed.

Example C15_example_scopes :
  let d v := Define (s2l "X") [] (s2l v) o_automatic false in
  let s := mkscopes [] [mknode 0 [(s2l "X", xv (s2l "g") false)] false] 1 in
  (option_map (fun u => lookup_variable (s2l "X") (cur_chain u)) (srun false (Some s) [Push; d "a"; Push; d "b"; Pop]),
   option_map (fun u => lookup_variable (s2l "X") (cur_chain u)) (srun false (Some s) [Push; d "a"; Push; d "b"; Pop; Pop]))
  = (Some (Some (1, mkvar (s2l "a") o_automatic false false false false false v_default true)),
     Some (Some (0, xv (s2l "g") false))).
Proof. vm_compute. reflexivity. Qed.

(** C17.  The pattern-specific definitions applied to a target are exactly the matching ones,
    with shorter patterns first and in order of definition among equal lengths. *)
Theorem C17_matching_definitions_in_order :
  forall ps target,
  exists l, pattern_vars_for (create_all ps) target = l /\
    Permutation l (filter (fun p => pv_matches p target) ps) /\
    (forall p, In p l <-> In p ps /\ pat_matches p target) /\
    srt l /\
    (forall k, filter (fun p => pv_len p =? k) l
               = filter (fun p => pv_len p =? k) (filter (fun p => pv_matches p target) ps)).
Proof.
  intros ps target. eexists. split; [reflexivity|]. unfold pattern_vars_for.
  destruct (create_all_ins ps) as [E [_ _]]. rewrite E. fold (isorted ps). rewrite filter_isorted.
  split; [apply isorted_perm|]. split; [|split; [apply isorted_srt|]].
  - intros p. split.
    + intros H. apply (Permutation_in _ (isorted_perm _)) in H. apply filter_In in H. destruct H as [H1 H2].
      split; [exact H1|]. apply pv_matches_iff. exact H2.
    + intros [H1 H2]. apply (Permutation_in _ (Permutation_sym (isorted_perm _))). apply filter_In.
      split; [exact H1|]. apply pv_matches_iff. exact H2.
  - intros k. rewrite filter_isorted. generalize (filter (fun p => pv_matches p target) ps). intros l.
    (* patterns of one length are inserted at the end *)
    assert (G : forall m, (forall p, In p m -> pv_len p = k) -> isorted m = m).
    { induction m as [|p m IH] using rev_ind; intros Hm; [reflexivity|].
      unfold isorted in *. rewrite fold_left_app. cbn [fold_left].
      rewrite IH by (intros q Hq; apply Hm; apply in_or_app; left; exact Hq).
      assert (Hp : pv_len p = k) by (apply Hm; apply in_or_app; right; left; reflexivity).
      clear IH. induction m as [|q m IHm]; [reflexivity|]. simpl.
      assert (pv_len q = k) by (apply Hm; left; reflexivity).
      destruct (Nat.ltb_spec (pv_len p) (pv_len q)); [lia|]. f_equal. apply IHm.
      intros r Hr. apply Hm. right. exact Hr. }
    apply G. intros p Hp. apply filter_In in Hp. destruct Hp as [_ Hp]. apply Nat.eqb_eq in Hp. exact Hp.
Qed.
Print Assumptions C17_matching_definitions_in_order.

(** So among definitions of one name made with the same authority, the value a target gets is
    that of the longest matching pattern, the latest one among equals. *)
Theorem C17_most_specific_wins :
  forall e ps target n o,
  (forall p, In p ps -> pat_matches p target -> pv_name p = n -> pv_origin p = o) ->
  (exists p, In p ps /\ pat_matches p target /\ pv_name p = n) ->
  exists pre p post v, ps = pre ++ p :: post /\ pat_matches p target /\ pv_name p = n /\
    set_find n (pat_set e (create_all ps) target) = Some v /\
    v_value v = pv_value p /\ v_recursive v = pv_rec p /\
    (forall q, In q pre -> pat_matches q target -> pv_name q = n -> pv_len q <= pv_len p) /\
    (forall q, In q post -> pat_matches q target -> pv_name q = n -> pv_len q < pv_len p).
Proof.
  intros e ps target n o Ho [p0 [P1 [P2 P3]]].
  pose proof (vrun_history e n (map pv_op (pattern_vars_for (create_all ps) target)) []) as V.
  rewrite <- pat_set_run, history_pv in V. unfold cur_def in V at 2. cbn [set_find] in V.
  unfold pattern_vars_for in V. destruct (create_all_ins ps) as [E [_ _]]. rewrite E in V. fold (isorted ps) in V.
  rewrite !filter_isorted in V.
  set (m := filter (fun p => str_eqb n (pv_name p)) (filter (fun p => pv_matches p target) ps)) in *.
  assert (Hm : forall p, In p m <-> In p ps /\ pat_matches p target /\ pv_name p = n).
  { intros p. unfold m. rewrite !filter_In, pv_matches_iff, str_eqb_eq. intuition congruence. }
  assert (Nm : m <> []).
  { intros Em. assert (H : In p0 m) by (apply Hm; auto). rewrite Em in H. exact H. }
  destruct (isorted_last m p0 Nm) as [pre [post [A1 [A2 A3]]]]. set (p := last (isorted m) p0) in *.
  assert (Ni : isorted m <> []).
  { intros Ei. pose proof (isorted_perm m) as Pm. rewrite Ei in Pm. apply Permutation_nil in Pm. auto. }
  destruct (run_one_origin e o (isorted m) p0 Ni) as [o' [R1 R2]].
  { intros q Hq. apply (Permutation_in _ (isorted_perm m)) in Hq. apply Hm in Hq. destruct Hq as [Q1 [Q2 Q3]]. eauto. }
  rewrite R1 in V. fold p in V. unfold cur_def in V.
  destruct (set_find n (pat_set e (create_all ps) target)) as [v|] eqn:F; [|discriminate]. inversion V as [[V1 V2 V3]].
  assert (Hp : In p m) by (rewrite A1; apply in_or_app; right; left; reflexivity).
  (* split ps at the occurrence of p *)
  assert (Sp : forall f (l : list pvar) a x b, filter f l = a ++ x :: b ->
     exists c d, l = c ++ x :: d /\ filter f c = a /\ filter f d = b).
  { clear. intros f. induction l as [|y l IH]; intros a x b H; [destruct a; discriminate|].
    cbn [filter] in H. destruct (f y) eqn:Fy.
    - destruct a as [|z a]; inversion H; subst.
      + exists [], l. split; [reflexivity|]. split; reflexivity.
      + destruct (IH _ _ _ H2) as [c [d [-> [I2 I3]]]]. exists (z :: c), d. split; [reflexivity|].
        cbn [filter]. rewrite Fy, I2. split; [reflexivity|exact I3].
    - destruct (IH _ _ _ H) as [c [d [-> [I2 I3]]]]. exists (y :: c), d. split; [reflexivity|].
      cbn [filter]. rewrite Fy. split; assumption. }
  destruct (Sp _ _ _ _ _ A1) as [c [d [S1 [S2 S3]]]]. destruct (Sp _ _ _ _ _ S1) as [c' [d' [T1 [T2 T3]]]].
  apply Hm in Hp. destruct Hp as [Q1 [Q2 Q3]].
  exists c', p, d', v. split; [exact T1|]. split; [exact Q2|]. split; [exact Q3|]. split; [reflexivity|].
  split; [exact V2|]. split; [exact V3|]. split.
  - intros q H1 H2 H3. apply A2. rewrite <- S2. apply filter_In. split; [|apply str_eqb_eq; congruence].
    rewrite <- T2. apply filter_In. split; [exact H1|apply pv_matches_iff; exact H2].
  - intros q H1 H2 H3. apply A3. rewrite <- S3. apply filter_In. split; [|apply str_eqb_eq; congruence].
    rewrite <- T3. apply filter_In. split; [exact H1|apply pv_matches_iff; exact H2].
Qed.
Print Assumptions C17_most_specific_wins.

Example C17_example :
  let p pre suf v := mkpvar (s2l pre) (s2l suf) (s2l "X") (s2l v) o_file true in
  let st := create_all [p "lib/" ".o" "lib"; p "" ".o" "any"; p "" "" "all"; p "" ".c" "c"; p "lib" ".o" "lib2"; p "" ".o" "any2"] in
  (map pv_value (pattern_vars_for st (s2l "lib/a.o")),
   option_map v_value (set_find (s2l "X") (pat_set false st (s2l "lib/a.o"))),
   option_map v_value (set_find (s2l "X") (pat_set false st (s2l "b.o"))))
  = ([s2l "all"; s2l "any"; s2l "any2"; s2l "lib2"; s2l "lib"], Some (s2l "lib"), Some (s2l "any2")).
Proof. vm_compute. reflexivity. Qed.
