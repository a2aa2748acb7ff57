(** A file that was there before the build, and the mark of intermediate files. *)
From Verif Require Import Base M_Build S_Build M_Clean S_Clean.

(** Walks of the engine for the files without double-colon chains, for one file [f0]. *)
Section Old.
  Variable phony is_target cmds blank double : nat -> bool.
  Variable always : bool.
  Variable how : mode.
  Variable world : nat -> tick.
  Variable f0 : nat.
  Notation base := (fun f : nat => f).
  Notation chain := (fun f : nat => [f]).
  (** [Old]: the file was there before. *)
  Variable Old : Prop.
  Hypothesis SPARED : Old -> forall c g D, g <> f0 -> D f0 <> Absent -> t_effect (world c) g D f0 <> Absent.
  Hypothesis RECIPE : Old -> cmds f0 = true.

  (** The mark is gone; or nobody has looked at the file yet. *)
  Definition cleared (st : state) : Prop := f_intermediate (s_files st f0) = false.
  Definition asleep (x : file) : Prop := f_mtime x = None /\ f_state x = NotStarted /\ f_status x = NoAttempt /\ f_tried x = false.
  Definition P (st : state) : Prop := cleared st \/ (Old /\ asleep (s_files st f0) /\ s_disk st f0 <> Absent /\ ~ In f0 (s_jobs st)).
  Definition step (st st' : state) : Prop := P st' /\ (cleared st -> cleared st').
  Definition kept {A} (st : state) (r : res A) : Prop := match r with Ok _ st' | Die st' => step st st' | Out => True end.

  Lemma step_refl : forall st, P st -> step st st.
  Proof. intros st H. split; auto. Qed.
  Lemma step_trans : forall a b c, step a b -> step b c -> step a c.
  Proof. intros a b c [A B] [C D]. split; auto. Qed.
  Lemma kept_step : forall A a b (r : res A), step a b -> kept b r -> kept a r.
  Proof. intros A a b [x st|st|] H K; cbn in *; auto; exact (step_trans _ _ _ H K). Qed.
  Lemma kept_bind : forall A B st0 (r : res A) (k : A -> state -> res B), kept st0 r -> (forall a st, step st0 st -> kept st (k a st)) -> kept st0 (bind r k).
  Proof. intros A B st0 [a st|st|] k H K; cbn in *; auto. exact (kept_step _ _ _ _ H (K a st H)). Qed.
  (** [seen f st]: if [f] is our file, its mark is gone. *)
  Definition seen (f : nat) (st : state) : Prop := f = f0 -> cleared st.
  Lemma seen_step : forall f st st', seen f st -> step st st' -> seen f st'.
  Proof. intros f st st' H [_ K] E. auto. Qed.
  Definition calm (h : file -> file) : Prop := forall x, f_intermediate x = false -> f_intermediate (h x) = false.
  Definition soft (h : file -> file) : Prop := calm h /\ forall x, asleep x -> asleep (h x).
  Lemma upd_calm : forall g h st, calm h -> seen g st -> P st -> step st (upd g h st).
  Proof.
    intros g h st C SE H. unfold seen, step, P, cleared in *. cbn [upd s_files s_disk s_jobs]. destruct (f0 =? g) eqn:E.
    - apply Nat.eqb_eq in E. symmetry in E. split; [left|intros _]; apply C, SE; exact E.
    - split; [exact H|auto].
  Qed.
  Lemma upd_soft : forall g h st, soft h -> P st -> step st (upd g h st).
  Proof.
    intros g h st [C K] H. unfold step, P, cleared in *. cbn [upd s_files s_disk s_jobs]. destruct (f0 =? g) eqn:E; [|split; [exact H|auto]].
    split; [|apply C]. destruct H as [H|(O & A & B)]; [left; apply C; exact H|right; split; [exact O|split; [apply K; exact A|exact B]]].
  Qed.
  Lemma soft_considered : forall n, soft (with_considered n). Proof. intros n. split; intros x H; exact H. Qed.
  Lemma soft_updating : forall n, soft (with_updating n). Proof. intros n. split; intros x H; exact H. Qed.
  Lemma soft_deps : forall n, soft (with_deps n). Proof. intros n. split; intros x H; exact H. Qed.
  Lemma emit_step : forall e st, P st -> step st (emit e st).
  Proof. intros e st H. split; [exact H|auto]. Qed.

  Lemma mtime_step : forall f st, P st -> step st (snd (file_mtime base chain f st)) /\ seen f (snd (file_mtime base chain f st)).
  Proof.
    intros f st H. unfold file_mtime. destruct (f_mtime (s_files st f)) as [m|] eqn:M; cbn [snd].
    - split; [apply step_refl; exact H|]. intros ->. destruct H as [H|(_ & (A & _) & _)]; [exact H|congruence].
    - unfold fetch, upd_all. cbv zeta. cbn [fold_left]. unfold seen, step, P, cleared. cbn [upd s_files s_disk s_jobs]. destruct (f0 =? f) eqn:E.
      + apply Nat.eqb_eq in E. subst f. set (b := _ && _ && _ && f_intermediate _).
        assert (U : f_updated (if b then with_intermediate false (s_files st f0) else s_files st f0) = f_updated (s_files st f0)) by (destruct b; reflexivity).
        rewrite U, Bool.eqb_reflx. cbn [f_intermediate with_mtime]. clear U.
        assert (Z : f_intermediate (if b then with_intermediate false (s_files st f0) else s_files st f0) = false); [|rewrite Z; split; [split; [left; reflexivity|intros _; reflexivity]|intros _; reflexivity]].
        destruct b eqn:B; [reflexivity|]. subst b. destruct H as [H|(_ & (_ & B1 & _ & D) & E & _)]; [exact H|].
        assert (Z : time_eqb (s_disk st f0) Absent = false) by (destruct (s_disk st f0); [congruence|reflexivity|reflexivity]).
        rewrite Z, B1, D in B. exact B.
      + split; [split; [exact H|auto]|]. intros ->. rewrite Nat.eqb_refl in E. discriminate.
  Qed.
  Lemma notice_step : forall f st, seen f st -> P st -> step st (notice_finished_file phony is_target cmds double base chain how world f st).
  Proof.
    intros f st SE H. unfold notice_finished_file. cbv zeta.
    set (st1 := upd f _ st). assert (H1 : step st st1) by (apply upd_calm; [intros x I; exact I|exact SE|exact H]). clearbody st1.
    set (tc := _ && _ && _ && _). set (st2 := if tc then _ else st1).
    assert (H2 : step st st2).
    { subst st2. destruct tc; [|exact H1]. eapply step_trans; [exact H1|].
      set (st1' := mkstate _ _ _ _ _ _). assert (H1' : step st1 st1').
      { split; [|auto]. destruct (proj1 H1) as [Z|(O & A & B & C)]; [left; exact Z|]. destruct (Nat.eq_dec f f0) as [E|E]; [left; exact (seen_step f st st1 SE H1 E)|].
        right. split; [exact O|]. split; [exact A|]. split; [|exact C]. subst st1'. cbn [s_disk]. destruct (t_ok _); [apply (SPARED O); assumption|exact B]. }
      eapply step_trans; [exact H1'|]. apply upd_calm; [intros x I; exact I| |exact (proj1 H1')]. intros E. apply (proj2 H1'). exact (seen_step f st st1 SE H1 E). }
    clearbody st2. set (st3 := if _ || _ then _ else st2).
    assert (H3 : step st st3). { subst st3. destruct (_ || _); [|exact H2]. eapply step_trans; [exact H2|]. apply upd_calm; [intros x I; exact I|exact (seen_step f st st2 SE H2)|exact (proj1 H2)]. }
    clearbody st3. set (st4 := if double f then _ else st3).
    assert (H4 : step st st4).
    { subst st4. destruct (double f); [|exact H3]. cbn [forallb]. rewrite Bool.andb_true_r. destruct (f_updated _); [|exact H3]. unfold upd_all. cbn [fold_left].
      eapply step_trans; [exact H3|]. apply upd_calm; [intros x I; exact I|exact (seen_step f st st3 SE H3)|exact (proj1 H3)]. }
    clearbody st4. destruct (us_rank _ =? 1); [|exact H4]. eapply step_trans; [exact H4|]. apply upd_calm; [intros x I; exact I|exact (seen_step f st st4 SE H4)|exact (proj1 H4)].
  Qed.
  Lemma reap1_kept : forall kg st, P st -> kept st (reap1 phony is_target cmds double base chain kg how world st).
  Proof.
    intros kg st H. unfold reap1. destruct (s_jobs st) as [|j js] eqn:J; [apply step_refl; exact H|]. rewrite <- J. cbv zeta.
    set (t := world (s_clock st)). set (f := nth _ (s_jobs st) j).
    assert (IN : In f (s_jobs st)). { apply nth_In. apply Nat.mod_upper_bound. rewrite J. discriminate. }
    assert (SF : seen f st). { intros ->. destruct H as [H|(_ & _ & _ & N)]; [exact H|contradiction]. }
    set (st1 := mkstate _ _ _ _ _ _).
    assert (H1 : step st st1).
    { split; [|auto]. destruct (Nat.eq_dec f f0) as [E|E]; [left; exact (SF E)|]. destruct H as [H|(O & A & B & C)]; [left; exact H|right]. split; [exact O|]. split; [exact A|]. split; [apply (SPARED O); assumption|].
      subst st1. cbn [s_jobs]. intros K. apply in_remove in K. destruct K as [K _]. contradiction. }
    assert (H2 : step st (upd f (with_status (if t_ok t then Success else Failed)) st1)).
    { eapply step_trans; [exact H1|]. apply upd_calm; [intros x I; exact I|exact (seen_step f st st1 SF H1)|exact (proj1 H1)]. }
    assert (H3 : step st (notice_finished_file phony is_target cmds double base chain how world f (upd f (with_status (if t_ok t then Success else Failed)) st1))).
    { eapply step_trans; [exact H2|]. apply notice_step; [exact (seen_step f st _ SF H2)|exact (proj1 H2)]. }
    destruct (t_ok t || kg); exact H3.
  Qed.
  Lemma reaps_kept : forall kg n st, P st -> kept st (reaps phony is_target cmds double base chain kg how world n st).
  Proof.
    intros kg. induction n as [|n IH]; intros st H; cbn [reaps]; [apply step_refl; exact H|]. apply kept_bind; [apply reap1_kept; exact H|]. intros _ st1 K. apply IH. exact (proj1 K).
  Qed.

  Variable keep_going : bool.
  Lemma remake_kept : forall f st, seen f st -> P st -> kept st (remake_file phony is_target cmds blank double base chain keep_going how world f st).
  Proof.
    intros f st SE H.
    assert (NT : forall h, calm h -> forall st', step st st' -> step st (notice_finished_file phony is_target cmds double base chain how world f (upd f h st'))).
    { intros h C st' K. assert (K1 : step st (upd f h st')) by (eapply step_trans; [exact K|]; apply upd_calm; [exact C|exact (seen_step f st st' SE K)|exact (proj1 K)]).
      eapply step_trans; [exact K1|]. apply notice_step; [exact (seen_step f st _ SE K1)|exact (proj1 K1)]. }
    pose proof (step_refl st H) as R0.
    assert (EX : kept st (execute_file_commands phony is_target cmds blank double base chain keep_going how world f st)).
    { unfold execute_file_commands. destruct (blank f); [cbn; apply NT; [intros x I; exact I|exact R0]|].
      assert (RUN : kept st (bind (reaps phony is_target cmds double base chain keep_going how world (t_before (world (s_clock st))) st) (fun _ st1 =>
          let st1 := emit (Start f) (upd f (with_state Running) st1) in
          reaps phony is_target cmds double base chain keep_going how world (t_after (world (s_clock st))) (mkstate (s_files st1) (s_disk st1) (s_jobs st1 ++ [f]) (S (s_clock st1)) (s_trace st1) (s_pass st1))))).
      { apply kept_bind; [apply reaps_kept; exact H|]. intros _ st1 K1. cbv zeta. set (st2 := mkstate _ _ _ _ _ _).
        pose proof (seen_step f st st1 SE K1) as S1.
        assert (U : step st1 (upd f (with_state Running) st1)) by (apply upd_calm; [intros x I; exact I|exact S1|exact (proj1 K1)]).
        assert (K2 : step st1 st2).
        { split; [|exact (proj2 U)]. destruct (Nat.eq_dec f f0) as [E|E]; [left; exact (proj2 U (S1 E))|]. destruct (proj1 U) as [Z|(O & A & B & C)]; [left; exact Z|right]. split; [exact O|]. split; [exact A|]. split; [exact B|].
          subst st2. cbn [s_jobs emit upd]. intros K. apply in_app_iff in K. destruct K as [K|[K|[]]]; [exact (C K)|congruence]. }
        eapply kept_step; [exact K2|]. apply reaps_kept. exact (proj1 K2). }
      assert (CASES : kept st (match how with
        | Ask => Ok tt (notice_finished_file phony is_target cmds double base chain how world f (upd f (with_status Question) st))
        | Dry => Ok tt (notice_finished_file phony is_target cmds double base chain how world f (upd f (fun x => with_status Success (with_state Running x)) (emit (Finish f true) (emit (Start f) st))))
        | _ => bind (reaps phony is_target cmds double base chain keep_going how world (t_before (world (s_clock st))) st) (fun _ st1 =>
          let st1 := emit (Start f) (upd f (with_state Running) st1) in
          reaps phony is_target cmds double base chain keep_going how world (t_after (world (s_clock st))) (mkstate (s_files st1) (s_disk st1) (s_jobs st1 ++ [f]) (S (s_clock st1)) (s_trace st1) (s_pass st1)))
        end)).
      { assert (D1 : step st (notice_finished_file phony is_target cmds double base chain how world f (upd f (fun x => with_status Success (with_state Running x)) (emit (Finish f true) (emit (Start f) st))))) by (apply NT; [intros x I; exact I|split; [exact H|auto]]).
        assert (D2 : step st (notice_finished_file phony is_target cmds double base chain how world f (upd f (with_status Question) st))) by (apply NT; [intros x I; exact I|exact R0]).
        clear - RUN D1 D2. destruct how; assumption. }
      exact CASES. }
    unfold remake_file. destruct (cmds f).
    - assert (D1 : step st (notice_finished_file phony is_target cmds double base chain how world f (upd f (with_status Success) st))) by (apply NT; [intros x I; exact I|exact R0]).
      clear - EX D1. destruct how; assumption.
    - destruct (phony f || is_target f); [cbn; apply NT; [intros x I; exact I|exact R0]|]. destruct keep_going; cbn; [apply NT; [intros x I; exact I|]|]; split; try exact H; auto.
  Qed.

  Definition good1 (one : nat -> state -> res us) : Prop := forall f st, P st -> kept st (one f st).
  Definition good2 (check : nat -> time -> bool -> state -> res (us * bool)) : Prop := forall f t b st, P st -> kept st (check f t b st).
  Section Open.
    Variable one : nat -> state -> res us.
    Variable check : nat -> time -> bool -> state -> res (us * bool).
    Hypothesis ONE : good1 one.
    Hypothesis CHECK : good2 check.
    Lemma update_kept : forall f st, P st -> kept st (update_file base chain keep_going one f st).
    Proof.
      intros f st H. unfold update_file. cbv zeta. destruct (_ =? _); [apply step_refl; exact H|]. cbn [entries_loop].
      pose proof (upd_soft f (with_considered (s_pass st)) st (soft_considered _) H) as K. eapply kept_step; [exact K|].
      apply kept_bind; [apply ONE; exact (proj1 K)|]. intros a st' K'. destruct (_ && _); [apply step_refl; exact (proj1 K')|]. destruct (busy f st'); apply step_refl; exact (proj1 K').
    Qed.
    Lemma loop1_kept : forall f this ds kp must dst running st, P st -> kept st (loop1 base chain keep_going check f this ds kp must dst running st).
    Proof.
      intros f this ds. induction ds as [|d ds IH]; intros kp must dst running st H; cbn [loop1]; [apply step_refl; exact H|].
      pose proof (proj1 (mtime_step (d_file d) st H)) as H1. destruct (file_mtime base chain (d_file d) st) as [mt st1]. cbn [snd] in H1. eapply kept_step; [exact H1|].
      destruct (is_updating base (d_file d) st1); [eapply kept_step; [apply emit_step; exact (proj1 H1)|]; apply IH; exact (proj1 H1)|]. apply kept_bind; [apply CHECK; exact (proj1 H1)|]. intros [new maybe] st2 H2. cbv zeta.
      destruct (bad _ && _); [apply step_refl; exact (proj1 H2)|]. destruct (_ || _); [apply IH; exact (proj1 H2)|].
      pose proof (proj1 (mtime_step (d_file d) st2 (proj1 H2))) as H3. destruct (file_mtime base chain (d_file d) st2) as [mt' st3]. cbn [snd] in H3. eapply kept_step; [exact H3|]. apply IH. exact (proj1 H3).
    Qed.
    Lemma loop2_kept : forall f ds kp dst running st, P st -> kept st (loop2 phony cmds base chain keep_going one f ds kp dst running st).
    Proof.
      intros f ds. induction ds as [|d ds IH]; intros kp dst running st H; cbn [loop2]; [apply step_refl; exact H|].
      destruct (f_intermediate _); [|apply IH; exact H].
      pose proof (proj1 (mtime_step (d_file d) st H)) as H1. destruct (file_mtime base chain (d_file d) st) as [mt st1]. cbn [snd] in H1. eapply kept_step; [exact H1|].
      pose proof (upd_soft (d_file d) (with_considered 0) st1 (soft_considered _) (proj1 H1)) as H1'. eapply kept_step; [exact H1'|].
      apply kept_bind; [apply update_kept; exact (proj1 H1')|]. intros new st2 H2. cbv zeta.
      destruct (bad _ && _); [apply step_refl; exact (proj1 H2)|]. destruct (_ || _); [apply IH; exact (proj1 H2)|].
      pose proof (proj1 (mtime_step (d_file d) st2 (proj1 H2))) as H3. destruct (file_mtime base chain (d_file d) st2) as [mt' st3]. cbn [snd] in H3. eapply kept_step; [exact H3|]. apply IH. exact (proj1 H3).
    Qed.
    Lemma loop3_kept : forall this ds kp must changed st, P st -> step st (snd (loop3 base chain this ds kp must changed st)).
    Proof.
      intros this ds. induction ds as [|d ds IH]; intros kp must changed st H; cbn [loop3]; [apply step_refl; exact H|].
      pose proof (proj1 (mtime_step (d_file d) st H)) as H1. destruct (file_mtime base chain (d_file d) st) as [mt st1]. cbn [snd] in H1. eapply step_trans; [exact H1|]. apply IH. exact (proj1 H1).
    Qed.
    Lemma decide_kept : forall f this must dst running st, seen f st -> P st -> kept st (decide phony is_target cmds blank double base chain keep_going always how world f this must dst running st).
    Proof.
      intros f this must dst running st SE H.
      assert (UP : forall h, calm h -> forall st', step st st' -> step st (upd f h st')).
      { intros h C st' K. eapply step_trans; [exact K|]. apply upd_calm; [exact C|exact (seen_step f st st' SE K)|exact (proj1 K)]. }
      assert (NT : forall st', step st st' -> step st (notice_finished_file phony is_target cmds double base chain how world f st')).
      { intros st' K. eapply step_trans; [exact K|]. apply notice_step; [exact (seen_step f st _ SE K)|exact (proj1 K)]. }
      pose proof (step_refl st H) as R0. unfold decide. destruct running; [cbn; apply UP; [intros x I; exact I|exact R0]|].
      destruct (bad dst); [cbn; apply NT, UP; [intros x I; exact I|exact R0]|]. cbv zeta.
      set (st1 := if cs_eqb _ _ then _ else st). assert (H1 : step st st1) by (subst st1; destruct (cs_eqb _ _); [apply UP; [intros x I; exact I|exact R0]|exact R0]). clearbody st1.
      pose proof (loop3_kept this (f_deps (s_files st1 f)) [] must false st1 (proj1 H1)) as H2. destruct (loop3 _ _ _ _ _ _ _ _) as [[[ds mu] ch] st2]. cbn [snd] in H2.
      pose proof (step_trans _ _ _ H1 H2) as H2'. clear H2. assert (H3 : step st (upd f (with_deps ds) st2)) by (apply UP; [intros x I; exact I|exact H2']).
      set (mk := if _ && _ then _ else _). destruct mk; [|cbn; apply NT; exact H3]. eapply kept_step; [exact H3|].
      apply kept_bind; [apply remake_kept; [exact (seen_step f _ _ SE H3)|exact (proj1 H3)]|].
      intros _ st3 H4. destruct (cs_eqb _ _); cbn; [|apply step_refl; exact (proj1 H4)]. apply upd_calm; [intros x I; exact I|exact (seen_step f _ _ (seen_step f _ _ SE H3) H4)|exact (proj1 H4)].
    Qed.
    Lemma update_1_kept : good1 (update_file_1 phony is_target cmds blank double base chain keep_going always how world one check).
    Proof.
      intros f st H. unfold update_file_1. cbv zeta. destruct (f_updated _); [apply step_refl; exact H|].
      assert (GO : kept st (let '(this, st) := file_mtime base chain f (set_updating base f true st) in
            let st := if negb (phony f) && negb (cmds f) then upd f (with_tried true) st else st in
            bind (loop1 base chain keep_going check f this (f_deps (s_files st f)) [] (time_eqb this Absent) Success false st) (fun r st =>
            let '(ds, must, dst, running) := r in
            let st := upd f (with_deps ds) st in
            bind
              (if must || always then
                 bind (loop2 phony cmds base chain keep_going one f ds [] dst running st) (fun r st => let '(ds, dst, running) := r in Ok (dst, running) (upd f (with_deps ds) st))
               else Ok (dst, running) st) (fun r st =>
            decide phony is_target cmds blank double base chain keep_going always how world f this must (fst r) (snd r) (set_updating base f false st))))).
      { pose proof (upd_soft f (with_updating true) st (soft_updating _) H) as H0. eapply kept_step; [exact H0|]. unfold set_updating at 1.
        destruct (mtime_step f _ (proj1 H0)) as [H1 S1]. destruct (file_mtime base chain f _) as [this st1]. cbn [snd] in H1, S1. eapply kept_step; [exact H1|]. cbv zeta.
        set (st2 := if _ && _ then _ else st1).
        assert (H2 : step st1 st2). { subst st2. destruct (_ && _); [|apply step_refl; exact (proj1 H1)]. apply upd_calm; [intros x I; exact I|exact S1|exact (proj1 H1)]. }
        pose proof (seen_step f _ _ S1 H2) as S2. clearbody st2. eapply kept_step; [exact H2|]. 
        apply kept_bind; [apply loop1_kept; exact (proj1 H2)|]. intros [[[ds must] dst] running] st3 H3. pose proof (seen_step f _ _ S2 H3) as S3.
        pose proof (upd_soft f (with_deps ds) st3 (soft_deps _) (proj1 H3)) as H3'. eapply kept_step; [exact H3'|].
        apply kept_bind.
        - destruct (must || always); [|cbn; apply step_refl; exact (proj1 H3')].
          apply kept_bind; [apply loop2_kept; exact (proj1 H3')|]. intros [[ds' dst'] running'] st4 H4. cbn. apply upd_soft; [apply soft_deps|exact (proj1 H4)].
        - intros r st4 H4. pose proof (upd_soft f (with_updating false) st4 (soft_updating _) (proj1 H4)) as H5. eapply kept_step; [exact H5|]. apply decide_kept; [|exact (proj1 H5)].
          exact (seen_step f _ _ (seen_step f _ _ (seen_step f _ _ S3 H3') H4) H5). }
      destruct (f_state _); [exact GO|exact GO|apply step_refl; exact H|apply step_refl; exact H].
    Qed.
    Lemma check_loop_kept : forall f this ds kp must dst running st, P st -> kept st (check_loop base keep_going check f this ds kp must dst running st).
    Proof.
      intros f this ds. induction ds as [|d ds IH]; intros kp must dst running st H; cbn [check_loop]; [apply step_refl; exact H|].
      destruct (is_updating base (d_file d) st); [eapply kept_step; [apply emit_step; exact H|]; apply IH; exact H|]. apply kept_bind; [apply CHECK; exact H|]. intros [new maybe] st2 H2. cbv zeta.
      destruct (_ && _); [apply step_refl; exact (proj1 H2)|]. apply IH. exact (proj1 H2).
    Qed.
    Lemma check_kept : good2 (check_dep phony cmds base chain keep_going one check).
    Proof.
      intros f this must st H. unfold check_dep. cbv zeta.
      pose proof (upd_soft f (with_updating true) st (soft_updating _) H) as H0. change (step st (set_updating base f true st)) in H0. eapply kept_step; [exact H0|]. set (st0 := set_updating base f true st) in *. clearbody st0.
      destruct (_ || _).
      - apply kept_bind; [apply update_kept; exact (proj1 H0)|]. intros new st1 H1. pose proof (proj1 (mtime_step f st1 (proj1 H1))) as H2. destruct (file_mtime base chain f st1) as [mt st2]. cbn [snd] in H2. cbn.
        eapply step_trans; [exact H2|]. apply upd_soft; [apply soft_updating|exact (proj1 H2)].
      - set (st1 := if negb (cmds f) then _ else _).
        assert (H1 : step st0 st1).
        { subst st1. destruct (cmds f) eqn:C; cbn [negb]; [apply step_refl; exact (proj1 H0)|].
          destruct (proj1 H0) as [Z|(O & Z)]; [apply upd_calm; [intros x I; exact I|intros _; exact Z|exact (proj1 H0)]|].
          assert (NE : f0 =? f = false) by (apply Nat.eqb_neq; intros ->; rewrite (RECIPE O) in C; discriminate).
          split; unfold P, cleared; cbn [upd s_files s_disk s_jobs]; rewrite NE; [exact (proj1 H0)|auto]. }
        clearbody st1. eapply kept_step; [exact H1|].
        destruct (mtime_step f st1 (proj1 H1)) as [H2 S2]. destruct (file_mtime base chain f st1) as [mt st2]. cbn [snd] in H2, S2. eapply kept_step; [exact H2|].
        destruct (_ && _); [cbn; apply upd_soft; [apply soft_updating|exact (proj1 H2)]|].
        set (st3 := match f_state _ with NotStarted => _ | DepsRunning => _ | Running => _ | Finished => _ end).
        assert (H3 : step st2 st3). { subst st3. destruct (f_state _); try (apply upd_calm; [intros x I; exact I|exact S2|exact (proj1 H2)]). apply step_refl; exact (proj1 H2). }
        clearbody st3. eapply kept_step; [exact H3|]. pose proof (seen_step f _ _ S2 H3) as S3.
        apply kept_bind; [apply check_loop_kept; exact (proj1 H3)|]. intros [[[ds mu] dst] running] st4 H4. cbn. pose proof (seen_step f _ _ S3 H4) as S4.
        pose proof (upd_soft f (with_deps ds) st4 (soft_deps _) (proj1 H4)) as H5. pose proof (seen_step f _ _ S4 H5) as S5.
        assert (H6 : step st4 (if running then upd f (with_state DepsRunning) (upd f (with_deps ds) st4) else upd f (with_deps ds) st4)).
        { destruct running; [|exact H5]. eapply step_trans; [exact H5|]. apply upd_calm; [intros x I; exact I|exact S5|exact (proj1 H5)]. }
        eapply step_trans; [exact H6|]. apply upd_soft; [apply soft_updating|exact (proj1 H6)].
    Qed.
  End Open.
  Lemma engine_kept : forall fuel, good1 (fst (engine phony is_target cmds blank double base chain keep_going always how world fuel)) /\
    good2 (snd (engine phony is_target cmds blank double base chain keep_going always how world fuel)).
  Proof.
    induction fuel as [|n [A B]]; cbn [engine fst snd]; [split; unfold good1, good2; intros; exact Logic.I|]. split; [apply update_1_kept; assumption|apply check_kept; assumption].
  Qed.
  Lemma goals_kept : forall fuel gs s st, P st -> kept st (goals_pass phony is_target cmds blank double base chain keep_going always how world fuel gs s st).
  Proof.
    intros fuel gs. induction gs as [|g gs IH]; intros s st H; cbn [goals_pass]; [apply step_refl; exact H|]. apply kept_bind.
    - cbn [goal_entries]. apply kept_bind; [apply update_kept; [apply engine_kept|exact H]|]. intros fail st1 H1. cbv zeta. destruct (_ && _); apply step_refl; exact (proj1 H1).
    - intros [[s1 u] stop] st1 H1. destruct stop; [apply step_refl; exact (proj1 H1)|]. apply kept_bind; [apply IH; exact (proj1 H1)|]. intros [[s2 rest] stop2] st2 H2. apply step_refl; exact (proj1 H2).
  Qed.
  Lemma update_goals_kept : forall passes fuel gs s st, P st -> kept st (update_goals phony is_target cmds blank double base chain keep_going always how world passes fuel gs s st).
  Proof.
    induction passes as [|n IH]; intros fuel gs s st H; destruct gs as [|g gs]; cbn [update_goals]; try (apply step_refl; exact H); [exact Logic.I|].
    apply kept_bind; [apply reaps_kept; exact H|]. intros _ st1 H1. apply kept_bind; [apply goals_kept; exact (proj1 H1)|]. intros [[s2 rest] stop] st2 H2. cbv zeta.
    destruct stop; [apply IH; exact (proj1 H2)|]. eapply kept_step; [|apply IH; exact (proj1 H2)]. split; [exact (proj1 H2)|auto].
  Qed.
End Old.

(** The whole of a build, and the wait for the children at its end. *)
Lemma die_kept : forall m k f0 (Old : Prop) err st r st', (Old -> spared m f0) -> P f0 Old st -> die m k err st = Ok r st' -> step f0 Old st st' /\ r = remove_intermediates false (m_how m) k st'.
Proof.
  intros m k f0 Old err st r st' SP H E. unfold die in E.
  pose proof (reaps_kept (m_phony m) (m_target m) (m_cmds m) (m_double m) (m_how m) (m_world m) f0 Old SP (m_keep m || err) (length (s_jobs st)) st H) as K.
  destruct (reaps _ _ _ _ _ _ _ _ _ _ st) as [u st1|st1|]; cbn [bind] in E; try discriminate E. injection E as <- <-. split; [exact K|reflexivity].
Qed.
Lemma whole_kept : forall m k disk clock passes fuel goals f0 (Old : Prop) r st, (Old -> spared m f0) -> (Old -> m_cmds m f0 = true) ->
  P f0 Old (initial (m_deps m) (m_phony m) (m_inter m) (m_tried m) disk clock) -> whole m k disk clock passes fuel goals = Ok r st ->
  P f0 Old st /\ (m_inter m f0 = false -> f_intermediate (s_files st f0) = false) /\ r = remove_intermediates false (m_how m) k st.
Proof.
  intros m k disk clock passes fuel goals f0 Old r st SP RC H E. unfold whole, build, update_goal_chain in E.
  set (st0 := mkstate _ _ _ _ _ _) in E. assert (H0 : P f0 Old st0) by exact H.
  pose proof (update_goals_kept (m_phony m) (m_target m) (m_cmds m) (m_blank m) (m_double m) (m_always m) (m_how m) (m_world m) f0 Old SP RC (m_keep m) passes fuel goals NoAttempt st0 H0) as K.
  destruct (update_goals _ _ _ _ _ _ _ _ _ _ _ _ _ _ _ _) as [s st1|st1|]; try discriminate E.
  all: destruct (die_kept m k f0 Old _ st1 r st SP (proj1 K) E) as [[A B] C]; split; [exact A|]; split; [|exact C]; intros I; apply B, (proj2 K); exact I.
Qed.
