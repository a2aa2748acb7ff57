(** What -n, -q and -t leave alone: for every makefile, double-colon rules and circles included. *)
From Verif Require Import Base M_Build.

Section Quiet.
  Variable phony is_target cmds blank double : nat -> bool.
  Variable base : nat -> nat.
  Variable chain : nat -> list nat.
  Variable keep_going always : bool.
  Variable how : mode.
  Variable world : nat -> tick.
  Variable P : state -> Prop.
  Definition kept {A} (r : res A) : Prop := match r with Ok _ st | Die st => P st | Out => True end.
  Hypothesis P_upd : forall f g st, P st -> P (upd f g st).
  Hypothesis P_drop : forall f d st, P st -> P (emit (Drop f d) st).
  Hypothesis P_norule : forall f st, P st -> P (emit (NoRule f) st).
  Hypothesis P_pass : forall p st, P st -> P (mkstate (s_files st) (s_disk st) (s_jobs st) (s_clock st) (s_trace st) p).
  Hypothesis P_touch : forall f st, how = Touch -> cmds f = true -> phony f = false -> P st -> let t := world (s_clock st) in
    P (mkstate (s_files st) (if t_ok t then t_effect t f (s_disk st) else s_disk st) (s_jobs st) (S (s_clock st)) (s_trace st) (s_pass st)).
  Hypothesis P_dry : forall f st, how = Dry -> cmds f = true -> P st -> P (emit (Finish f true) (emit (Start f) st)).
  Hypothesis P_normal : how <> Normal.
  Hypothesis P_jobs : forall st, P st -> s_jobs st = [].

  Lemma modes : how = Dry \/ how = Touch \/ how = Ask.
  Proof. clear - P_normal. destruct how; auto. destruct (P_normal eq_refl). Qed.
  Lemma kept_bind : forall A B (r : res A) (k : A -> state -> res B), kept r -> (forall a st, P st -> kept (k a st)) -> kept (bind r k).
  Proof. intros A B [a st|st|] k H K; cbn in *; auto. Qed.
  Lemma upd_all_P : forall l g st, P st -> P (upd_all l g st).
  Proof. intros l g. unfold upd_all. induction l as [|e l IH]; intros st H; cbn [fold_left]; auto. Qed.
  Lemma mtime_P : forall f st, P st -> P (snd (file_mtime base chain f st)).
  Proof. intros f st H. unfold file_mtime. destruct (f_mtime (s_files st f)); [exact H|]. cbn [snd]. unfold fetch. cbv zeta. apply upd_all_P. exact H. Qed.
  Lemma notice_P : forall f st, P st -> P (notice_finished_file phony is_target cmds double base chain how world f st).
  Proof.
    intros f st H. unfold notice_finished_file. cbv zeta.
    set (st1 := upd f _ st). assert (H1 : P st1) by (apply P_upd; exact H). clearbody st1.
    set (tc := _ && _ && _ && _). set (st2 := if tc then _ else st1).
    assert (H2 : P st2).
    { subst st2. destruct tc eqn:T; [|exact H1]. apply P_upd. subst tc. apply andb_true_iff in T as [T C]. apply andb_true_iff in T as [T PH]. apply andb_true_iff in T as [T _].
      apply (P_touch f st1); [destruct modes as [HW|[HW|HW]]; rewrite HW in T |- *; reflexivity || discriminate|exact C|destruct (phony f); [discriminate|reflexivity]|exact H1]. }
    clearbody st2 tc. set (st3 := if _ || _ then _ else st2). assert (H3 : P st3) by (subst st3; destruct (_ || _); auto). clearbody st3.
    set (st4 := if double f then _ else st3). assert (H4 : P st4) by (subst st4; destruct (double f); [|exact H3]; destruct (forallb _ _); [apply upd_all_P|]; exact H3). clearbody st4.
    destruct (us_rank _ =? 1); auto.
  Qed.
  Lemma reaps_P : forall n st, P st -> kept (reaps phony is_target cmds double base chain keep_going how world n st).
  Proof. induction n as [|n IH]; intros st H; cbn [reaps]; [exact H|]. unfold reap1. rewrite (P_jobs st H). cbn [bind]. apply IH. exact H. Qed.
  Lemma remake_P : forall f st, P st -> kept (remake_file phony is_target cmds blank double base chain keep_going how world f st).
  Proof.
    intros f st H. unfold remake_file. destruct (cmds f) eqn:C.
    - assert (K : how <> Touch -> kept (execute_file_commands phony is_target cmds blank double base chain keep_going how world f st)).
      { intros NT. unfold execute_file_commands. destruct (blank f); [cbn; apply notice_P, P_upd; exact H|]. destruct modes as [HW|[HW|HW]]; [|contradiction|]; rewrite HW; cbn [kept]; rewrite <- HW.
        - apply notice_P, P_upd. apply P_dry; auto.
        - apply notice_P, P_upd. exact H. }
      destruct modes as [HW|[HW|HW]].
      + assert (NT : how <> Touch) by congruence. rewrite HW in K |- *. apply K. rewrite HW in NT. exact NT.
      + rewrite HW. cbn [kept]. rewrite <- HW. apply notice_P, P_upd. exact H.
      + assert (NT : how <> Touch) by congruence. rewrite HW in K |- *. apply K. rewrite HW in NT. exact NT.
    - destruct (phony f || is_target f); [cbn; apply notice_P, P_upd; exact H|]. destruct keep_going; cbn; [apply notice_P, P_upd|]; apply P_norule; exact H.
  Qed.

  Definition good1 (one : nat -> state -> res us) : Prop := forall f st, P st -> kept (one f st).
  Definition good2 (check : nat -> time -> bool -> state -> res (us * bool)) : Prop := forall f t b st, P st -> kept (check f t b st).
  Section Open.
    Variable one : nat -> state -> res us.
    Variable check : nat -> time -> bool -> state -> res (us * bool).
    Hypothesis ONE : good1 one.
    Hypothesis CHECK : good2 check.
    Lemma entries_P : forall l s st, P st -> kept (entries_loop keep_going one l s st).
    Proof.
      induction l as [|e l IH]; intros s st H; cbn [entries_loop]; [exact H|]. apply kept_bind; [apply ONE, P_upd; exact H|].
      intros a st' K. destruct (_ && _); [exact K|]. destruct (busy e st'); [exact K|]. apply IH. exact K.
    Qed.
    Lemma update_P : forall f st, P st -> kept (update_file base chain keep_going one f st).
    Proof. intros f st H. unfold update_file. cbv zeta. destruct (_ =? _); [exact H|]. apply entries_P. exact H. Qed.
    Lemma loop1_P : forall f this ds kp must dst running st, P st -> kept (loop1 base chain keep_going check f this ds kp must dst running st).
    Proof.
      intros f this ds. induction ds as [|d ds IH]; intros kp must dst running st H; cbn [loop1]; [exact H|].
      pose proof (mtime_P (d_file d) st H) as H1. destruct (file_mtime base chain (d_file d) st) as [mt st1]. cbn [snd] in H1.
      destruct (is_updating base (d_file d) st1); [apply IH, P_drop; exact H1|]. apply kept_bind; [apply CHECK; exact H1|]. intros [new maybe] st2 H2. cbv zeta.
      destruct (_ && _); [exact H2|]. destruct (_ || _); [apply IH; exact H2|].
      pose proof (mtime_P (d_file d) st2 H2) as H3. destruct (file_mtime base chain (d_file d) st2) as [mt' st3]. apply IH. exact H3.
    Qed.
    Lemma loop2_P : forall f ds kp dst running st, P st -> kept (loop2 phony cmds base chain keep_going one f ds kp dst running st).
    Proof.
      intros f ds. induction ds as [|d ds IH]; intros kp dst running st H; cbn [loop2]; [exact H|].
      destruct (f_intermediate _); [|apply IH; exact H].
      pose proof (mtime_P (d_file d) st H) as H1. destruct (file_mtime base chain (d_file d) st) as [mt st1]. cbn [snd] in H1.
      apply kept_bind; [apply update_P, P_upd; exact H1|]. intros new st2 H2. cbv zeta.
      destruct (_ && _); [exact H2|]. destruct (_ || _); [apply IH; exact H2|].
      pose proof (mtime_P (d_file d) st2 H2) as H3. destruct (file_mtime base chain (d_file d) st2) as [mt' st3]. apply IH. exact H3.
    Qed.
    Lemma loop3_P : forall this ds kp must changed st, P st -> P (snd (loop3 base chain this ds kp must changed st)).
    Proof.
      intros this ds. induction ds as [|d ds IH]; intros kp must changed st H; cbn [loop3]; [exact H|].
      pose proof (mtime_P (d_file d) st H) as H1. destruct (file_mtime base chain (d_file d) st) as [mt st1]. apply IH. exact H1.
    Qed.
    Lemma decide_P : forall f this must dst running st, P st -> kept (decide phony is_target cmds blank double base chain keep_going always how world f this must dst running st).
    Proof.
      intros f this must dst running st H. unfold decide. destruct running; [cbn; apply P_upd; exact H|]. destruct (bad dst); [cbn; apply notice_P, P_upd; exact H|]. cbv zeta.
      set (st1 := if cs_eqb _ _ then _ else st). assert (H1 : P st1) by (subst st1; destruct (cs_eqb _ _); auto). clearbody st1.
      pose proof (loop3_P this (f_deps (s_files st1 f)) [] must false st1 H1) as H2. destruct (loop3 _ _ _ _ _ _ _ _) as [[[ds mu] ch] st2]. cbn [snd] in H2.
      set (mk := if _ && _ then _ else _). destruct mk; [|cbn; apply notice_P, P_upd; exact H2]. apply kept_bind; [apply remake_P, P_upd; exact H2|].
      intros _ st3 H3. destruct (cs_eqb _ _); cbn; auto.
    Qed.
    Lemma update_1_P : good1 (update_file_1 phony is_target cmds blank double base chain keep_going always how world one check).
    Proof.
      intros f st H. unfold update_file_1. cbv zeta. destruct (f_updated _); [exact H|]. destruct (f_state _); try exact H.
      all: pose proof (mtime_P f (set_updating base f true st) (P_upd _ _ _ H)) as H1; destruct (file_mtime base chain f _) as [this st1]; cbn [snd] in H1;
        (set (st2 := if _ && _ then _ else st1); assert (H2 : P st2) by (subst st2; destruct (_ && _); auto)); clearbody st2;
        (apply kept_bind; [apply loop1_P; exact H2|]); intros [[[ds must] dst] running] st3 H3;
        (apply kept_bind; [destruct (must || always); [|cbn; apply P_upd; exact H3]|intros r st4 H4; apply decide_P, P_upd; exact H4]);
        (apply kept_bind; [apply loop2_P, P_upd; exact H3|]); intros [[ds' dst'] running'] st4 H4; cbn; apply P_upd; exact H4.
    Qed.
    Lemma check_loop_P : forall f this ds kp must dst running st, P st -> kept (check_loop base keep_going check f this ds kp must dst running st).
    Proof.
      intros f this ds. induction ds as [|d ds IH]; intros kp must dst running st H; cbn [check_loop]; [exact H|].
      destruct (is_updating base (d_file d) st); [apply IH, P_drop; exact H|]. apply kept_bind; [apply CHECK; exact H|]. intros [new maybe] st2 H2. cbv zeta.
      destruct (_ && _); [exact H2|]. apply IH. exact H2.
    Qed.
    Lemma check_P : good2 (check_dep phony cmds base chain keep_going one check).
    Proof.
      intros f this must st H. unfold check_dep. cbv zeta. destruct (_ || _).
      - apply kept_bind; [apply update_P, P_upd; exact H|]. intros new st1 H1. pose proof (mtime_P f st1 H1) as H2. destruct (file_mtime base chain f st1) as [mt st2]. cbn. apply P_upd. exact H2.
      - set (st1 := if negb (cmds f) then _ else _). assert (H1 : P st1) by (subst st1; destruct (negb _); unfold set_updating; auto). clearbody st1.
        pose proof (mtime_P f st1 H1) as H2. destruct (file_mtime base chain f st1) as [mt st2]. cbn [snd] in H2. destruct (_ && _); [cbn; apply P_upd; exact H2|].
        set (st3 := match f_state _ with NotStarted => _ | DepsRunning => _ | Running => _ | Finished => _ end). assert (H3 : P st3) by (subst st3; destruct (f_state _); auto). clearbody st3.
        apply kept_bind; [apply check_loop_P; exact H3|]. intros [[[ds mu] dst] running] st4 H4. cbn. apply P_upd. destruct running; auto.
    Qed.
  End Open.
  Lemma engine_P : forall fuel, good1 (fst (engine phony is_target cmds blank double base chain keep_going always how world fuel)) /\
    good2 (snd (engine phony is_target cmds blank double base chain keep_going always how world fuel)).
  Proof.
    induction fuel as [|n [A B]]; cbn [engine fst snd]; [split; unfold good1, good2; intros; exact Logic.I|]. split; [apply update_1_P; assumption|apply check_P; assumption].
  Qed.

  Lemma entries2_P : forall fuel l s u st, P st -> kept (goal_entries phony is_target cmds blank double base chain keep_going always how world fuel l s u st).
  Proof.
    intros fuel l. induction l as [|e l IH]; intros s u st H; cbn [goal_entries]; [exact H|]. apply kept_bind; [apply update_P; [apply engine_P|exact H]|].
    intros fail st1 H1. cbv zeta. destruct (_ && _); [exact H1|apply IH; exact H1].
  Qed.
  Lemma goals_P : forall fuel gs s st, P st -> kept (goals_pass phony is_target cmds blank double base chain keep_going always how world fuel gs s st).
  Proof.
    intros fuel gs. induction gs as [|g gs IH]; intros s st H; cbn [goals_pass]; [exact H|]. apply kept_bind; [apply entries2_P; exact H|].
    intros [[s1 u] stop] st1 H1. destruct stop; [exact H1|]. apply kept_bind; [apply IH; exact H1|]. intros [[s2 rest] stop2] st2 H2. exact H2.
  Qed.
  Lemma update_goals_P : forall passes fuel gs s st, P st -> kept (update_goals phony is_target cmds blank double base chain keep_going always how world passes fuel gs s st).
  Proof.
    induction passes as [|n IH]; intros fuel gs s st H; destruct gs as [|g gs]; cbn [update_goals]; try exact H; [exact Logic.I|].
    apply kept_bind; [apply reaps_P; exact H|]. intros _ st1 H1. apply kept_bind; [apply goals_P; exact H1|]. intros [[s2 rest] stop] st2 H2. cbv zeta. apply IH. destruct stop; [exact H2|apply P_pass; exact H2].
  Qed.
  Lemma chain_P : forall passes fuel gs st, P st -> kept (update_goal_chain phony is_target cmds blank double base chain keep_going always how world passes fuel gs st).
  Proof. intros passes fuel gs st H. apply update_goals_P, P_pass. exact H. Qed.
End Quiet.
