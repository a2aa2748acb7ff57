(** C63: the default goal. *)
From Verif Require Import Base M_Text M_Quote M_Var M_Seq S_Quote S_Seq P_Var P_Quote P_Seq Properties_Seq M_Goal S_Goal P_Goal.
Open Scope string_scope.
Open Scope list_scope.
Open Scope nat_scope.

(** A makefile may set the variable. *)
Definition settable (e : bool) (vars : vset) : Prop :=
  match set_find n_goal vars with Some v => onum (upgrade e (v_origin v)) <= onum o_file | None => True end.

Lemma start_holds e vars l : settable e vars -> exists v, holds (start e vars l) v /\ v_value v = [] /\ v_origin v = o_file /\ v_recursive v = false /\ g_suffixes (start e vars l) = l.
Proof.
  intros SE. unfold start, define, define_in_set, settable in *. cbn [g_set]. change (upgrade e o_file) with (if e && false then o_env_override else o_file). rewrite andb_false_r.
  destruct (set_find n_goal vars) as [v|].
  - apply Nat.leb_le in SE. rewrite SE. cbn [fst]. eexists. split; [split; [reflexivity|cbn [g_set]; apply find_put_same]|]. split; [reflexivity|split; [reflexivity|split; reflexivity]].
  - cbn [fst]. eexists. split; [split; [reflexivity|cbn [g_set]; apply find_put_same]|]. split; [reflexivity|split; [reflexivity|split; reflexivity]].
Qed.
Lemma goal_of_value expand tilde glob members known s v : holds s v -> v_recursive v = false -> v_value v <> [] -> known (v_value v) = true -> clean (v_value v) = v_value v ->
  default_goal expand tilde glob members known s = Goal (v_value v).
Proof.
  intros [AL SF] R NE K C. unfold default_goal, value. rewrite AL, SF, R. destruct (v_value v) as [|c n] eqn:E; [congruence|]. rewrite strip_clean by lia. rewrite C, K. reflexivity.
Qed.
Lemma no_goal expand tilde glob members known s v : holds s v -> v_recursive v = false -> v_value v = [] -> default_goal expand tilde glob members known s = No_targets.
Proof. intros [AL SF] R E. unfold default_goal, value. rewrite AL, SF, R, E. reflexivity. Qed.

(** If no makefile mentions .DEFAULT_GOAL: the first candidate of the first rule that has one; none if there is none. *)
Theorem C63_first :
  forall e vars suffixes evs, settable e vars -> Forall silent evs ->
  exists s, run e evs (start e vars suffixes) = Some s /\
  forall expand tilde glob members known,
  (forall n, n <> [] -> first_rule suffixes evs n -> known n = true -> clean n = n -> default_goal expand tilde glob members known s = Goal n) /\
  (no_rule suffixes evs -> default_goal expand tilde glob members known s = No_targets).
Proof.
  intros e vars suffixes evs SE F. destruct (start_holds e vars suffixes SE) as (v & HV & V & O & R & SU).
  destruct (search e evs F _ v HV V) as (s' & v' & RU & HV' & A & B); [rewrite O; unfold upgrade; cbn; rewrite andb_false_r; cbn; lia|].
  exists s'. split; [exact RU|]. intros expand tilde glob members known. rewrite SU in A, B. split.
  - intros n NE FR K C. destruct (A n NE FR) as [V' R']. rewrite (goal_of_value _ _ _ _ _ s' v' HV' R'); [rewrite V'; reflexivity|congruence|congruence|congruence].
  - intros N. rewrite (B N) in HV'. exact (no_goal _ _ _ _ _ s' v HV' R V).
Qed.
Print Assumptions C63_first.

(** Setting it to nothing starts the search again, whatever was before. *)
Theorem C63_again :
  forall e s v r evs, holds s v -> onum (upgrade e (v_origin v)) <= onum o_file -> Forall silent evs ->
  exists s', run e (Define n_goal [] o_file r :: evs) s = Some s' /\
  forall expand tilde glob members known, expand [] = [] ->
  (forall n, n <> [] -> first_rule (g_suffixes s) evs n -> known n = true -> clean n = n -> default_goal expand tilde glob members known s' = Goal n) /\
  (no_rule (g_suffixes s) evs -> default_goal expand tilde glob members known s' = No_targets).
Proof.
  intros e s v r evs [AL SF] OR F. cbn [run step].
  assert (D : exists v1, holds (define e n_goal [] o_file r s) v1 /\ v_value v1 = [] /\ v_origin v1 = o_file).
  { unfold define, define_in_set. rewrite SF. change (upgrade e o_file) with (if e && false then o_env_override else o_file). rewrite andb_false_r. apply Nat.leb_le in OR. rewrite OR. cbn [fst].
    eexists. split; [split; [exact AL|cbn [g_set]; apply find_put_same]|]. split; reflexivity. }
  destruct D as (v1 & HV & V & O).
  destruct (search e evs F _ v1 HV V) as (s' & v' & RU & HV' & A & B); [rewrite O; unfold upgrade; cbn; rewrite andb_false_r; cbn; lia|].
  exists s'. split; [exact RU|]. intros expand tilde glob members known EX. split.
  - intros n NE FR K C. destruct (A n NE FR) as [V' R']. rewrite (goal_of_value _ _ _ _ _ s' v' HV' R'); [rewrite V'; reflexivity|congruence|congruence|congruence].
  - intros N. rewrite (B N) in HV'. destruct HV' as [AL' SF']. unfold default_goal, value. rewrite AL', SF', V, EX. destruct (v_recursive v1); reflexivity.
Qed.
Print Assumptions C63_again.

(** A value set by the user stays, and is the goal: a file make knows, or else exactly one name. *)
Theorem C63_user :
  forall e s v x o r evs, holds s v -> onum (upgrade e (v_origin v)) <= onum (upgrade e o) -> x <> [] -> Forall silent evs ->
  exists s', run e (Define n_goal x o r :: evs) s = Some s' /\
  forall expand tilde glob members known, let p : str := if r then expand x else x in let result := default_goal expand tilde glob members known s' in
  (p = [] -> result = No_targets) /\
  (p <> [] -> known (clean p) = true -> result = Goal (clean p)) /\
  (forall ws ns, p <> [] -> known (clean p) = false -> reads no_stop isblank p ws [] -> grouped (map clean ws) ns -> Forall ordinary ns ->
     result = match ns with [] => No_targets | [n] => Goal n | _ => Too_many end).
Proof.
  intros e s v x o r evs [AL SF] OR NE F. cbn [run step].
  assert (D : exists v1, holds (define e n_goal x o r s) v1 /\ v_value v1 = x /\ v_recursive v1 = r).
  { unfold define, define_in_set. rewrite SF. apply Nat.leb_le in OR. rewrite OR. cbn [fst]. eexists. split; [split; [exact AL|cbn [g_set]; apply find_put_same]|]. split; reflexivity. }
  destruct D as (v1 & HV & V & R). destruct (kept e evs F _ v1 HV ltac:(congruence)) as (s' & RU & AL' & SF').
  exists s'. split; [exact RU|]. intros expand tilde glob members known. cbv zeta. unfold default_goal, value. rewrite AL', SF', V, R.
  destruct (if r then expand x else x) as [|c q]; [split; [reflexivity|split; [congruence|intros ws ns NP; congruence]]|].
  rewrite strip_clean by lia. split; [discriminate|]. split; [intros _ K; rewrite K; reflexivity|].
  intros ws ns _ K RD GR O. rewrite K.
  destruct (C58_names no_stop false false false false false false None tilde glob members (c :: q) ws [] (conj eq_refl (fun _ _ => eq_refl)) RD) as (ns' & G & E).
  - left. intros a y b _. reflexivity.
  - cbn beta iota in G. rewrite (grouped_unique _ _ G _ GR) in E. rewrite E by (right; split; [reflexivity|exact O]). rewrite map_id. destruct ns as [|n [|m ns]]; reflexivity.
Qed.
Print Assumptions C63_user.

(** An empty value from the command line, "override" or the environment with -e is never filled in. *)
Theorem C63_strong :
  forall e s v evs, holds s v -> v_value v = [] -> v_recursive v = false -> onum o_file < onum (upgrade e (v_origin v)) -> Forall silent evs ->
  exists s', run e evs s = Some s' /\ forall expand tilde glob members known, default_goal expand tilde glob members known s' = No_targets.
Proof.
  intros e s v evs HV V R O F. revert s v HV V R O. induction F as [|ev evs SI F IH]; intros s v HV V R O; cbn [run].
  { exists s. split; [reflexivity|]. intros. exact (no_goal _ _ _ _ _ s v HV R V). }
  destruct HV as [AL SF].
  assert (D : (exists ts, ev = Rule_line true ts) \/ forall ts, ev <> Rule_line true ts) by (destruct ev as [[] ts| | |]; [left; exists ts; reflexivity|right; discriminate..]).
  destruct D as [(ts & ->)|NR].
  - cbn [step]. unfold value. rewrite AL, SF, V. destruct (choose (g_suffixes s) ts) as [n|]; [|exact (IH s v (conj AL SF) V R O)].
    unfold define, define_in_set. rewrite SF. change (upgrade e o_file) with (if e && false then o_env_override else o_file). rewrite andb_false_r.
    assert (X : (onum (upgrade e (v_origin v)) <=? onum o_file) = false) by (apply Nat.leb_gt; exact O). rewrite X. cbn [fst].
    eapply IH; [split; [exact AL|cbn [g_set]; apply find_put_same]|exact V|exact R|].
    cbn [v_origin]. unfold upgrade in *. destruct (e && origin_eqb (v_origin v) o_env) eqn:Q; [|rewrite Q; exact O]. cbn. rewrite andb_false_r. exact O.
  - destruct (silent_step e ev s SI AL NR) as (s1 & -> & AL' & SF' & _). eapply IH; [split; [exact AL'|rewrite SF'; exact SF]|exact V|exact R|exact O].
Qed.
Print Assumptions C63_strong.

(** Unless the variable is undefined, no freed memory is read. *)
Theorem C63_safe :
  forall e vars suffixes evs, (forall o, ~ In (Undefine n_goal o) evs) ->
  exists s, run e evs (start e vars suffixes) = Some s /\ forall expand tilde glob members known, default_goal expand tilde glob members known s <> Freed.
Proof.
  intros e vars suffixes evs NU.
  assert (G : forall s, g_alive s = true -> (exists v, set_find n_goal (g_set s) = Some v) -> exists s', run e evs s = Some s' /\ g_alive s' = true /\ exists v, set_find n_goal (g_set s') = Some v).
  { induction evs as [|ev evs IH]; intros s AL EX; cbn [run]; [exists s; auto|].
    assert (NU' : forall o, ~ In (Undefine n_goal o) evs) by (intros o I; apply (NU o); right; exact I).
    assert (DF : forall n v o r, exists v', set_find n_goal (g_set (define e n v o r s)) = Some v').
    { intros n v o r. destruct (str_eqb n_goal n) eqn:E; [apply str_eqb_eq in E; subst n|].
      - unfold define, define_in_set. destruct (set_find n_goal (g_set s)); cbn [fst g_set]; rewrite find_put_same; eexists; reflexivity.
      - rewrite define_find; [exact EX|]. intros X. rewrite X, str_eqb_refl in E. discriminate. }
    destruct ev as [sets ts|l|n v o r|n o]; cbn [step].
    - destruct sets; [|apply IH; assumption]. unfold value. rewrite AL. destruct EX as (v & EX). rewrite EX. destruct (v_value v); [|apply IH; [exact NU'|exact AL|exists v; exact EX]].
      destruct (choose (g_suffixes s) ts) as [n|]; [|apply IH; [exact NU'|exact AL|exists v; exact EX]]. apply IH; [exact NU'|exact AL|apply DF].
    - apply IH; [exact NU'|exact AL|exact EX].
    - apply IH; [exact NU'|exact AL|apply DF].
    - assert (NG : n <> n_goal) by (intros ->; apply (NU o); left; reflexivity).
      assert (E : str_eqb n n_goal = false) by (destruct (str_eqb n n_goal) eqn:E; [apply str_eqb_eq in E; congruence|reflexivity]). rewrite E. cbn [andb negb]. apply IH; [exact NU'|cbn [g_alive]; rewrite AL; reflexivity|].
      cbn [g_set]. unfold undefine_in_set. destruct (set_find n (g_set s)) as [v|]; [|exact EX]. match goal with |- context [if ?b then _ else _] => destruct b end; [rewrite find_remove_other by congruence; exact EX|rewrite find_put_other by congruence; exact EX]. }
  destruct (G (start e vars suffixes) eq_refl) as (s' & R & AL & v & SF).
  - unfold start, define, define_in_set. cbn [g_set]. destruct (set_find n_goal vars); cbn [fst g_set]; rewrite find_put_same; eexists; reflexivity.
  - exists s'. split; [exact R|]. intros expand tilde glob members known. unfold default_goal, value. rewrite AL, SF. destruct (if v_recursive v then expand (v_value v) else v_value v) as [|c p]; [discriminate|].
    destruct (known (or_dot (strip_dots (length (c :: p)) (c :: p)))); [discriminate|]. destruct (parse_file_seq no_stop false false false false false false None tilde glob members (c :: p)) as [[|n [|m l]] q| | |]; discriminate.
Qed.
Print Assumptions C63_safe.

(** ** Where it goes wrong *)
(** After "undefine .DEFAULT_GOAL" the next rule, or the end of the makefiles, reads freed memory. *)
Theorem C63_undefine_refuted :
  run false [Undefine n_goal o_file; Rule_line true [s2l "all"]] (start false [] []) = None /\
  exists s, run false [Rule_line true [s2l "all"]; Undefine n_goal o_file; Define n_goal (s2l "all") o_file false] (start false [] []) = Some s /\
    forall expand tilde glob members known, default_goal expand tilde glob members known s = Freed.
Proof.
  split; [vm_compute; reflexivity|]. eexists. split; [vm_compute; reflexivity|]. intros. reflexivity.
Qed.
Print Assumptions C63_undefine_refuted.

(** A target whose name has a (quoted) percent sign is never the default goal, and hides the targets behind it. *)
Theorem C63_percent_refuted :
  exists ts rest s, candidate [] (s2l "all") /\ ts = [s2l "100\%"; s2l "all"] /\ rest = [s2l "clean"] /\
    run false [Rule_line true ts; Rule_line true rest] (start false [] []) = Some s /\
    forall expand tilde glob members known, known (s2l "clean") = true -> default_goal expand tilde glob members known s = Goal (s2l "clean").
Proof.
  eexists. eexists. eexists. split; [|split; [reflexivity|split; [reflexivity|split; [vm_compute; reflexivity|]]]].
  - split; [intros (r & E); discriminate|]. split; [intros [[] _]|intros (a & b & [] & _)].
  - intros expand tilde glob members known K. cbv in K |- *. rewrite K. reflexivity.
Qed.
Print Assumptions C63_percent_refuted.

(** ** Examples *)
Definition evs_ex : list event :=
  [Rule_line true [s2l ".PHONY"]; Rule_line false [s2l "early"]; Suffixes [s2l ".c"; s2l ".o"; s2l "tex"]; Rule_line true [s2l "tex"]; Rule_line true [s2l "%.o"];
   Rule_line true [s2l ".hidden"; s2l "all"; s2l "x"]; Rule_line true [s2l "y"]].
Example C63_first_ex : settable false [] /\ Forall silent evs_ex /\ first_rule [] evs_ex (s2l "all").
Proof.
  split; [exact I|]. split; [repeat constructor|].
  exists [Rule_line true [s2l ".PHONY"]; Rule_line false [s2l "early"]; Suffixes [s2l ".c"; s2l ".o"; s2l "tex"]; Rule_line true [s2l "tex"]; Rule_line true [s2l "%.o"]], [s2l ".hidden"; s2l "all"; s2l "x"], [Rule_line true [s2l "y"]].
  split; [reflexivity|]. split; [apply choose_some; vm_compute; reflexivity|].
  intros a ts b E. apply choose_none. destruct a as [|x0 a]; [injection E as <- _; vm_compute; reflexivity|]. injection E as <- E.
  destruct a as [|x1 a]; [discriminate|]. injection E as <- E. destruct a as [|x2 a]; [discriminate|]. injection E as <- E.
  destruct a as [|x3 a]; [injection E as <- _; vm_compute; reflexivity|]. injection E as <- E. destruct a as [|x4 a]; [injection E as <- _; vm_compute; reflexivity|]. injection E as <- E. destruct a; discriminate.
Qed.
Example C63_none_ex : no_rule [] [Rule_line true [s2l ".PHONY"]; Rule_line true [s2l "%.o"]].
Proof.
  intros a ts b E. apply choose_none. destruct a as [|x0 a]; [injection E as <- _; vm_compute; reflexivity|]. injection E as <- E. destruct a as [|x1 a]; [injection E as <- _; vm_compute; reflexivity|]. injection E as <- E. destruct a; discriminate.
Qed.
Example C63_state_ex : exists s v, run false evs_ex (start false [] []) = Some s /\ holds s v /\ v_value v = s2l "all" /\ onum (upgrade false (v_origin v)) <= onum o_file.
Proof. eexists. eexists. split; [vm_compute; reflexivity|]. split; [split; vm_compute; reflexivity|]. split; [reflexivity|]. cbn. lia. Qed.
Example C63_strong_ex : exists v, holds (define false n_goal [] o_override false (start false [] [])) v /\ v_value v = [] /\ v_recursive v = false /\ onum o_file < onum (upgrade false (v_origin v)).
Proof. eexists. split; [split; vm_compute; reflexivity|]. split; [reflexivity|]. split; [reflexivity|]. cbn. lia. Qed.
