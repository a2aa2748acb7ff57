(** C68: remaking makefiles and running make again. *)
From Coq Require Import Lia String List.
From Verif Require Import Base M_Text M_Var M_Expand M_Def M_Flags P_Flags3 M_Restart S_Restart P_Restart P_Restart2 P_Restart3 P_Restart4.
Open Scope string_scope.
Open Scope list_scope.
Open Scope nat_scope.

(** ** The goals *)
(** The goals of a chain are different and nothing was done for them yet. *)
Definition new_goals (l : list goal) : Prop := NoDup (map g_id l) /\ Forall (fun g => g_changed g = false) l.
Lemma chain_all rb kg user upd n l s h : new_goals l -> update_goal_chain rb kg user upd n l = Some (s, h) ->
  result rb h s /\ Forall (right_modes rb user) h /\ (forall g, In g l -> done rb kg h g /\ visited h g).
Proof.
  intros [ND C] H. apply chain_spec in H; auto.
  - destruct H as (H1 & H2 & _ & H3). auto.
  - constructor.
  - intros g I. unfold fair. rewrite Forall_forall in C. rewrite (C g I). split; [discriminate|]. intros (e & [] & _).
Qed.
(** What is returned is the first failure or question that was met, else the last thing that was said by a goal; it is determined by the calls. *)
Theorem C68_result : forall rb kg user upd n l s h, new_goals l -> update_goal_chain rb kg user upd n l = Some (s, h) ->
  result rb h s /\ forall s', result rb h s' -> s' = s.
Proof. intros rb kg user upd n l s h N H. apply chain_all in H; auto. destruct H as (R & _). split; [exact R|]. intros s' R'. eapply result_unique; eauto. Qed.
(** Makefiles are remade in spite of -n, -q and -t, but for those that are goals on the command line too. *)
Theorem C68_modes : forall kg user upd n l s h e, new_goals l -> update_goal_chain true kg user upd n l = Some (s, h) -> In e h ->
  (e_cmd e = true -> e_modes e = user) /\ (e_cmd e = false -> k_touch (e_modes e) = false /\ k_question (e_modes e) = false /\ k_print (e_modes e) = false).
Proof.
  intros kg user upd n l s h e N H I. apply chain_all in H; auto. destruct H as (_ & M & _). rewrite Forall_forall in M. specialize (M e I). unfold right_modes in M. rewrite M. split; intros ->; auto.
Qed.
(** All goals are looked at and done with. *)
Theorem C68_done : forall rb kg user upd n l s h g, new_goals l -> update_goal_chain rb kg user upd n l = Some (s, h) -> In g l ->
  done rb kg h g /\ (g_entries g <> [] -> exists e, In e h /\ g_id (e_goal e) = g_id g).
Proof. intros rb kg user upd n l s h g N H I. apply chain_all in H; auto. destruct H as (_ & _ & F). apply F, I. Qed.

(** The calls go in passes; in each they are in the order of the goals and of their entries, and a goal that was up to date in a pass is not looked at again.
    What is known of a call is what update_file gave, after the calls before it. *)
Theorem C68_order : forall rb kg user upd n l s h, new_goals l -> update_goal_chain rb kg user upd n l = Some (s, h) ->
  (exists ps, rev h = concat ps /\ length ps <= n /\ Forall (fun p => sub (map call_of p) (calls l)) ps /\ no_repeat ps) /\ honest upd h.
Proof.
  intros rb kg user upd n l s h [N _] H. apply chain_order in H; auto. destruct H as (ps & -> & H1 & H2 & H3 & H4 & _). rewrite app_nil_r in *. split.
  - exists ps. rewrite rev_involutive. auto.
  - apply H3. intros h1 e h2 Q. destruct h1; discriminate.
Qed.

(** If everything is updated after some number of calls then the goals come to an end. *)
Theorem C68_ends : forall rb kg user upd m n l, (forall h f k, m <= length h -> o_updated (upd h f k) = true) -> m + length l <= n -> update_goal_chain rb kg user upd n l <> None.
Proof. intros rb kg user upd m n l H L. unfold update_goal_chain. apply (chain_ends rb kg user upd m H). cbn [length]. lia. Qed.

(** ** What is done then *)
Definition kept (l : list makefile) : list makefile := filter (fun m => negb (m_loops m)) l.
Lemma select_spec time l : select time l = (kept l, map (fun m => time (m_goal m)) (kept l)).
Proof. induction l as [| m l IH]; [reflexivity|]. unfold kept in *. cbn [select filter]. rewrite IH. destruct (m_loops m); reflexivity. Qed.
Lemma time_eqb_eq a b : time_eqb a b = true <-> a = b.
Proof. destruct a, b; cbn; split; try discriminate; try reflexivity; [rewrite Nat.eqb_eq; congruence|]. intros H. injection H as ->. apply Nat.eqb_refl. Qed.
(** A makefile that has changed, of those that were brought up to date or that one cares for. *)
Definition remade (before : goal -> option nat) (res : goal -> after) (m : makefile) : Prop :=
  a_updated (res (m_goal m)) = true /\ a_time (res (m_goal m)) <> before (m_goal m) /\
  (a_result (res (m_goal m)) = u_success \/ (m_dontcare m = false /\ a_time (res (m_goal m)) <> None)).
Definition missing (res : goal -> after) (m : makefile) : Prop := a_updated (res (m_goal m)) = false /\ m_dontcare m = false /\ m_included m = false.
Definition spoilt (res : goal -> after) (m : makefile) : Prop := a_updated (res (m_goal m)) = true /\ a_result (res (m_goal m)) <> u_success /\ m_dontcare m = false.
Lemma look_spec before res l r f b : look l res (map (fun m => before (m_goal m)) l) = (r, f, b) ->
  (r = true <-> exists m, In m l /\ remade before res m) /\ (f = true <-> exists m, In m l /\ missing res m) /\ (b = true <-> exists m, In m l /\ spoilt res m).
Proof.
  revert r f b. induction l as [| m l IH]; intros r f b H; cbn [look map] in H.
  { injection H as <- <- <-. repeat split; try discriminate; intros (x & [] & _). }
  destruct (look l res _) as [[r1 f1] b1] eqn:E. destruct (IH _ _ _ eq_refl) as (I1 & I2 & I3). clear IH E.
  assert (EX : forall (P : makefile -> Prop), (exists x, In x (m :: l) /\ P x) <-> P m \/ exists x, In x l /\ P x).
  { intros P. split; [intros (x & [<-|I] & X); eauto|intros [X | (x & I & X)]; [exists m|exists x]; cbn; auto]. }
  rewrite !EX, <- I1, <- I2, <- I3. unfold remade, missing, spoilt. clear EX I1 I2 I3. set (a := res (m_goal m)) in *. set (t := before (m_goal m)) in *.
  pose proof (time_eqb_eq (a_time a) t) as TE. destruct (a_updated a).
  - destruct (a_result a) eqn:AR.
    + injection H as <- <- <-. rewrite orb_true_iff, negb_true_iff. destruct (time_eqb (a_time a) t); intuition congruence.
    + destruct (m_dontcare m); injection H as <- <- <-; [intuition congruence|]. destruct (a_time a) eqn:AT; rewrite orb_true_iff, ?negb_true_iff; [destruct (time_eqb _ t)|]; intuition congruence.
    + destruct (m_dontcare m); injection H as <- <- <-; [intuition congruence|]. destruct (a_time a) eqn:AT; rewrite orb_true_iff, ?negb_true_iff; [destruct (time_eqb _ t)|]; intuition congruence.
    + destruct (m_dontcare m); injection H as <- <- <-; [intuition congruence|]. destruct (a_time a) eqn:AT; rewrite orb_true_iff, ?negb_true_iff; [destruct (time_eqb _ t)|]; intuition congruence.
  - destruct (m_dontcare m), (m_included m); injection H as <- <- <-; intuition congruence.
Qed.
(** Make is run again, dies or goes on exactly so; makefiles that would loop are not touched. *)
Theorem C68_next : forall kg user upd n before res l step h, new_goals (map m_goal (kept l)) ->
  remake_makefiles kg user upd n before res l = Some (step, h) ->
  (exists s, result true h s /\
    (step = Again <-> s = u_success \/ (s = u_failed /\ exists m, In m (kept l) /\ remade before (res h) m)) /\
    (step = Die <-> s = u_failed /\ (forall m, In m (kept l) -> ~ remade before (res h) m) /\ exists m, In m (kept l) /\ missing (res h) m) /\
    (step = Continue true <-> s = u_failed /\ (forall m, In m (kept l) -> ~ remade before (res h) m /\ ~ missing (res h) m) /\ exists m, In m (kept l) /\ spoilt (res h) m)) /\
  (forall m, In m (kept l) -> done true kg h (m_goal m)).
Proof.
  intros kg user upd n before res l step h N H. unfold remake_makefiles in H. rewrite select_spec in H. destruct (update_goal_chain _ _ _ _ _ _) as [[s h1]|] eqn:E; [|discriminate]. injection H as <- <-.
  apply chain_all in E; auto. destruct E as (R & _ & DN). split; [|intros m I; apply DN, in_map, I]. exists s. split; [exact R|]. unfold decide. destruct s.
  - split; [split; auto|]. split; (split; [discriminate|]; intros (E & _); discriminate).
  - split; [split; [discriminate|]; intros [E|(E & _)]; discriminate|]. split; (split; [discriminate|]; intros (E & _); discriminate).
  - split; [split; [discriminate|]; intros [E|(E & _)]; discriminate|]. split; (split; [discriminate|]; intros (E & _); discriminate).
  - destruct (look _ _ _) as [[r f] b] eqn:LK. apply look_spec in LK. destruct LK as (L1 & L2 & L3).
    assert (NR : r = false -> forall m, In m (kept l) -> ~ remade before (res h1) m) by (intros -> m I Y; assert (false = true) by (apply L1; eauto); discriminate).
    assert (NM : f = false -> forall m, In m (kept l) -> ~ missing (res h1) m) by (intros -> m I Y; assert (false = true) by (apply L2; eauto); discriminate).
    destruct r; [|destruct f].
    + split; [split; [|reflexivity]; intros _; right; split; [reflexivity|]; apply L1; reflexivity|]. destruct (proj1 L1 eq_refl) as (m & I & Y). split; (split; [discriminate|]).
      * intros (_ & X & _). destruct (X m I Y).
      * intros (_ & X & _). destruct (X m I) as [X' _]. destruct (X' Y).
    + split; [split; [discriminate|]; intros [E|(_ & E)]; [discriminate|]; apply L1 in E; discriminate|]. destruct (proj1 L2 eq_refl) as (m & I & Y). split; split.
      * intros _. split; [reflexivity|]. split; [exact (NR eq_refl)|]. eauto.
      * reflexivity.
      * discriminate.
      * intros (_ & X & _). destruct (X m I) as [_ X']. destruct (X' Y).
    + split; [split; [discriminate|]; intros [E|(_ & E)]; [discriminate|]; apply L1 in E; discriminate|]. split; split.
      * discriminate.
      * intros (_ & _ & E). apply L2 in E. discriminate.
      * intros E. injection E as ->. split; [reflexivity|]. split; [intros m I; split; [apply (NR eq_refl); exact I|apply (NM eq_refl); exact I]|]. apply L3. reflexivity.
      * intros (_ & _ & E). f_equal. apply L3. exact E.
Qed.
(** Make is only run again if some makefile was really remade: its time is new; with -n or -q this is not said of one that is a goal. *)
Theorem C68_changed : forall kg user upd n before res l h, new_goals (map m_goal (kept l)) ->
  remake_makefiles kg user upd n before res l = Some (Again, h) ->
  (exists h1 e h2, h = h1 ++ e :: h2 /\ o_updated (e_obs e) = true /\ o_status (e_obs e) = u_success /\ o_newtime (e_obs e) = true /\ worked (e_goal e) (e :: h2) /\
     k_print (e_modes e) = false /\ k_question (e_modes e) = false) \/
  (exists m, In m (kept l) /\ remade before (res h) m).
Proof.
  intros kg user upd n before res l h N H. destruct (C68_next _ _ _ _ _ _ _ _ _ N H) as [(s & R & A & _) _]. destruct (proj1 A eq_refl) as [-> | (-> & M)]; [left|right; exact M].
  apply result_success in R. destruct R as (h1 & e & h2 & -> & S). exists h1, e, h2. inversion S as [X1 X2 X3 | X1 X2 X3 X4 X5]; [congruence|]. destruct (X5 eq_refl). repeat split; auto.
Qed.

(** ** The command line *)
Section Argv.
  Variable D : Type.
  Variable atof : str -> D.
  Variable minus_one : D.
  Variable tilde : str -> option str.
  Notation decode := (decode_switches D atof minus_one tilde false).
  Definition files_of (d : dstate D) : list str := as_list D (d_opts D d "makefiles").
  (** The same options and goals, but for the makefiles. *)
  Definition same_but_files (d e : dstate D) : Prop := d_args D d = d_args D e /\ forall p, p <> "makefiles" -> d_opts D d p = d_opts D e p.
  Lemma argv_core : forall argv fs d0 d names, aligned argv fs -> files_of d0 = [] -> decode argv d0 = Some d ->
    length names = length (files_of d) -> (forall m, In m names -> m <> [] /\ expand_command_line_file tilde m = Some m) ->
    exists argv' d', (forall o, next_argv names o argv = Some (argv' ++ match o with Some n => [s2l "-o" ++ n] | None => [] end)) /\ renamed argv names argv' /\ decode argv' d0 = Some d' /\ same_but_files d d' /\ files_of d' = names.
  Proof.
    intros argv fs d0 d names A E H L G. unfold decode_switches in *.
    assert (LF : length names = length fs).
    { destruct (refile_spec argv fs A fs [] eq_refl) as (w & _ & R). pose proof A as A'.
      assert (X : forall n ws fs d d1, aligned ws fs -> decode_loop D atof minus_one tilde false n ws d = Some d1 -> length (files_of d1) = length (files_of d) + length fs).
      { clear. induction n as [| n IH]; intros ws fs d d1 A H; [discriminate|].
        assert (ST : forall w ws b x (f : list str -> dstate D -> option (dstate D * list str)) d' q, takes w = Some b ->
          ((f = cluster D atof minus_one tilde false x /\ short_takes x = Some b) \/ (f = long_opt D atof minus_one tilde false x /\ long_takes x = Some b)) ->
          f ws d = Some (d', q) -> forall r, (b = false -> ws = r) -> (b = true -> exists a, ws = a :: r) -> aligned r fs -> files_of d' = files_of d /\ aligned q fs).
        { intros w ws0 b x f d' q T F FD r B1 B2 AR. assert (SD : sim D d d) by (split; auto).
          assert (ALK : alike r r) by (destruct r; cbn; auto).
          assert (SL : step_like D r r d d d' q (f ws0 d)).
          { destruct b; [destruct (B2 eq_refl) as (a & ->)|rewrite (B1 eq_refl) in *]; destruct F as [(-> & F) | (-> & F)].
            - apply (proj2 (cluster_like D atof minus_one tilde x _ (a :: r) d d d' q SD FD) a r r F); auto.
            - apply (proj2 (long_like D atof minus_one tilde x _ (a :: r) d d d' q SD FD) a r r F); auto.
            - apply (proj1 (cluster_like D atof minus_one tilde x r r d d d' q SD FD) F); auto.
            - apply (proj1 (long_like D atof minus_one tilde x r r d d d' q SD FD) F); auto. }
          destruct SL as (e' & _ & M1 & _ & [(-> & _) | (y & r2 & EQ & _ & ND & _)]); [auto|]. split; [exact M1|]. subst r. eapply aligned_inv; eauto. }
        destruct A as [| w ws fs N A | ws N | m ws fs A | m ws fs NE A | w ws fs T A | w a ws fs T N A].
        - injection H as <-. cbn. lia.
        - rewrite word_step in H by auto. apply (IH _ _ _ _ A) in H. destruct (words_sim D [w] d d ltac:(split; auto)) as (_ & M & _). cbn [fold_left] in M. unfold files_of, mk in *. rewrite M in H. exact H.
        - cbn in H. injection H as <-. destruct (words_sim D ws d d ltac:(split; auto)) as (_ & M & _). unfold files_of, mk in *. rewrite M. cbn. lia.
        - change (decode_loop D atof minus_one tilde false (S n) (s2l "-f" :: m :: ws) d) with (match cluster D atof minus_one tilde false (s2l "f") (m :: ws) d with Some (d', ws'') => decode_loop D atof minus_one tilde false n ws'' d' | None => None end) in H.
          rewrite cluster_f in H. destruct (put D tilde d ws m) as [[d' q]|] eqn:PD; [|discriminate]. apply put_sim in PD. destruct PD as (-> & _ & f & _ & F2). apply (IH _ _ _ _ A) in H. unfold files_of, mk in *. rewrite F2, app_length in H. cbn [length] in *. lia.
        - change (decode_loop D atof minus_one tilde false (S n) ((s2l "-f" ++ m) :: ws) d) with (match cluster D atof minus_one tilde false ("f"%char :: m) ws d with Some (d', ws'') => decode_loop D atof minus_one tilde false n ws'' d' | None => None end) in H.
          rewrite cluster_fn in H by auto. destruct (put D tilde d ws m) as [[d' q]|] eqn:PD; [|discriminate]. apply put_sim in PD. destruct PD as (-> & _ & f & _ & F2). apply (IH _ _ _ _ A) in H. unfold files_of, mk in *. rewrite F2, app_length in H. cbn [length] in *. lia.
        - destruct (option_step D atof minus_one tilde n w false T) as (x & f & DF & F). rewrite DF in H. destruct (f ws d) as [[d' q]|] eqn:FD; [|discriminate]. destruct (ST w ws false x f d' q T F FD ws) as (M & AQ); auto; [discriminate|]. apply (IH _ _ _ _ AQ) in H. rewrite M in H. exact H.
        - destruct (option_step D atof minus_one tilde n w true T) as (x & f & DF & F). rewrite DF in H. destruct (f (a :: ws) d) as [[d' q]|] eqn:FD; [|discriminate]. destruct (ST w (a :: ws) true x f d' q T F FD ws) as (M & AQ); auto; [discriminate|eauto|]. apply (IH _ _ _ _ AQ) in H. rewrite M in H. exact H. }
      apply (X _ _ _ _ _ A) in H. rewrite E in H. cbn in H. lia. }
    destruct (refile_spec argv fs A names [None] LF) as (argv' & R1 & R2). exists argv'.
    destruct (decode_like D atof minus_one tilde (S (length argv)) argv fs argv' names d0 d0 d A R2 LF) as (d' & D1 & D2 & D3 & _); auto; [apply Forall_forall; exact G|split; auto|].
    exists d'. split; [intros o|split; [exact R2|split; [rewrite <- (renamed_length _ _ _ R2); exact D1|]]].
    - assert (U : forall l, until_null (map Some l ++ match o with Some n => [Some (s2l "-o" ++ n)] | None => [] end) = l ++ match o with Some n => [s2l "-o" ++ n] | None => [] end).
      { clear. induction l as [| x l IH]; [destruct o; reflexivity|]. cbn [map app until_null]. rewrite IH. reflexivity. }
      unfold next_argv. destruct names as [| n names].
      + rewrite U. do 2 f_equal. destruct fs; [|discriminate LF]. clear - R2. remember [] as names. induction R2; try discriminate; auto. f_equal. auto.
      + rewrite R1, U. reflexivity.
    - split; [exact D2|]. unfold files_of, mk in *. rewrite D3, E. reflexivity.
  Qed.
  Lemma renamed_stop ws names ws' : renamed ws names ws' -> ~ In (s2l "--") ws -> ~ In (s2l "--") names -> ~ In (s2l "--") ws'.
  Proof.
    induction 1 as [| w ws ws' fs N R IH | n m ws ws' fs R IH | n m ws ws' fs NE R IH]; intros A B; auto.
    - intros [-> | I]; [apply A; left; reflexivity|]. revert I. apply IH; auto. intros I. apply A. right. exact I.
    - intros [Q | [-> | I]]; [discriminate Q|apply B; left; reflexivity|]. revert I. apply IH; [intros I; apply A; right; right; exact I|intros I; apply B; right; exact I].
    - intros [Q | I]; [discriminate Q|]. revert I. apply IH; [intros I; apply A; right; exact I|intros I; apply B; right; exact I].
  Qed.
  (** Make is run again with the same options and goals, and with the names in its list as makefiles (in which - has become
      the name of a temporary file), if the only words that begin with -f are those that give makefiles. *)
  Theorem C68_argv : forall argv fs d0 d names, aligned argv fs -> files_of d0 = [] -> decode argv d0 = Some d ->
    length names = length (files_of d) -> (forall m, In m names -> m <> [] /\ expand_command_line_file tilde m = Some m) ->
    exists argv' d', next_argv names None argv = Some argv' /\ decode argv' d0 = Some d' /\ same_but_files d d' /\ files_of d' = names.
  Proof.
    intros argv fs d0 d names A E H L G. destruct (argv_core argv fs d0 d names A E H L G) as (argv' & d' & N & _ & R). exists argv', d'. split; [|exact R]. rewrite (N None), app_nil_r. reflexivity.
  Qed.
  (** With a makefile from the standard input the temporary file is one that is not to be remade, if no -- is given. *)
  Theorem C68_stdin : forall argv fs d0 d names nm, aligned argv fs -> ~ In (s2l "--") argv -> ~ In (s2l "--") names -> files_of d0 = [] -> decode argv d0 = Some d ->
    length names = length (files_of d) -> (forall m, In m names -> m <> [] /\ expand_command_line_file tilde m = Some m) ->
    expand_command_line_file tilde nm = Some nm ->
    exists argv' d', next_argv names (Some nm) argv = Some argv' /\ decode argv' d0 = Some d' /\ files_of d' = names /\ d_args D d' = d_args D d /\
      as_list D (d_opts D d' "old_files") = as_list D (d_opts D d "old_files") ++ [nm] /\
      (forall p, p <> "makefiles" -> p <> "old_files" -> d_opts D d' p = d_opts D d p).
  Proof.
    intros argv fs d0 d names nm A NS NS' E H L G X. destruct (argv_core argv fs d0 d names A E H L G) as (argv' & d1 & N & R & N2 & (N3 & N4) & N5).
    destruct nm as [| c nm]; [discriminate X|]. specialize (N (Some (c :: nm))). pose proof (renamed_stop _ _ _ R NS NS') as NS2.
    set (d2 := set_d D d1 "old_files" (VList D (as_list D (d_opts D d1 "old_files") ++ [c :: nm]))). exists (argv' ++ [s2l "-o" ++ c :: nm]), d2.
    split; [exact N|]. split; [|split; [|split; [|split]]].
    - unfold decode_switches in *. rewrite app_length, Nat.add_comm. cbn [length Nat.add]. change (s2l "-o" ++ c :: nm) with (c_minus :: ("o"%char :: c :: nm)). apply (decode_end D atof minus_one tilde ("o"%char :: c :: nm)) with (d1 := d1); auto; [discriminate|discriminate|].
      change (cluster D atof minus_one tilde false ("o"%char :: c :: nm) [] d1) with (match expand_command_line_file tilde (c :: nm) with Some f => Some (set_d D d1 "old_files" (VList D (as_list D (d_opts D d1 "old_files") ++ [f])), @nil str) | None => None end). unfold str in *. rewrite X. reflexivity.
    - exact N5.
    - symmetry. exact N3.
    - rewrite (N4 "old_files") by discriminate. reflexivity.
    - intros p P1 P2. unfold d2. cbn [set_d d_opts]. unfold set_opt. replace (String.eqb p "old_files") with false by (symmetry; apply String.eqb_neq; auto). symmetry. apply N4, P1.
  Qed.
End Argv.

(** ** What one may expect but is not so *)
Definition one (i : nat) (cmd dontcare : bool) : goal := mkgoal i [(i, cmd)] dontcare false.
Definition no_tilde (s : str) : option str := None.
Definition start : dstate nat := mkds nat (o_init nat 0) [].
Definition dec (ws : list string) : option (dstate nat) := decode_switches nat (fun _ => 0) 0 no_tilde false (map s2l ws) start.
Definition files (o : option (dstate nat)) : option (list str) := option_map (files_of nat) o.
Definition words (o : option (dstate nat)) : option (list str) := option_map (d_args nat) o.
Definition again (names : list string) (nm : option string) (argv : list string) : option (list str) := next_argv (map s2l names) (option_map s2l nm) (map s2l argv).
Definition next_files (o : option (list str)) : option (list str) := match o with Some argv => option_map (files_of nat) (decode_switches nat (fun _ => 0) 0 no_tilde false argv start) | None => None end.
Definition next_words (o : option (list str)) : option (list str) := match o with Some argv => option_map (d_args nat) (decode_switches nat (fun _ => 0) 0 no_tilde false argv start) | None => None end.
(** With --file=a -f b (or -kf a -f b) make reads a and b, and the next make reads a twice and b never. *)
Theorem C68_long_refuted : exists argv d names argv' d', decode_switches nat (fun _ => 0) 0 no_tilde false argv start = Some d /\ files_of nat d = names /\
  next_argv names None argv = Some argv' /\ decode_switches nat (fun _ => 0) 0 no_tilde false argv' start = Some d' /\
  names = [s2l "a"; s2l "b"] /\ files_of nat d' = [s2l "a"; s2l "a"].
Proof. exists (map s2l ["--file=a"; "-f"; "b"]%string). eexists _, _, _, _. split; [vm_compute; reflexivity|]. split; [reflexivity|]. repeat split; vm_compute; reflexivity. Qed.
(** With -C -fdir the name of a directory is taken for a makefile, and there is no name for it: a null pointer is read. *)
Theorem C68_crash_refuted : exists argv d, decode_switches nat (fun _ => 0) 0 no_tilde false argv start = Some d /\ files_of nat d = [s2l "a"] /\
  as_list nat (d_opts nat d "directories") = [s2l "-fdir"] /\ next_argv (files_of nat d) None argv = None.
Proof. exists (map s2l ["-f"; "a"; "-C"; "-fdir"]%string). eexists. repeat split; vm_compute; reflexivity. Qed.
(** Goals after -- are lost if -f is among them. *)
Theorem C68_goals_refuted : exists argv d argv' d', decode_switches nat (fun _ => 0) 0 no_tilde false argv start = Some d /\ next_argv (files_of nat d) None argv = Some argv' /\
  decode_switches nat (fun _ => 0) 0 no_tilde false argv' start = Some d' /\ d_args nat d = [s2l "-f"; s2l "b"; s2l "all"] /\ d_args nat d' = [s2l "-f"].
Proof. exists (map s2l ["-f"; "a"; "--"; "-f"; "b"; "all"]%string). eexists _, _, _. repeat split; vm_compute; reflexivity. Qed.
(** With a makefile from the standard input and --, the option for the temporary file is taken for a goal. *)
Theorem C68_stdin_refuted : exists argv d names argv' d', decode_switches nat (fun _ => 0) 0 no_tilde false argv start = Some d /\ names = from_stdin (s2l "/tmp/x") (files_of nat d) /\
  next_argv names (Some (s2l "/tmp/x")) argv = Some argv' /\ decode_switches nat (fun _ => 0) 0 no_tilde false argv' start = Some d' /\
  files_of nat d' = [s2l "/tmp/x"] /\ d_args nat d = [s2l "all"] /\ d_args nat d' = [s2l "all"; s2l "-o/tmp/x"].
Proof. exists (map s2l ["-f"; "-"; "--"; "all"]%string). eexists _, _, _, _. split; [vm_compute; reflexivity|]. split; [reflexivity|]. repeat split; vm_compute; reflexivity. Qed.
(** A makefile that was remade is not read again: with -q, a makefile that is a goal and out of date makes the answer; what another one was
    remade to is then not looked at. *)
Theorem C68_question_refuted : exists user upd before res l h e m, new_goals (map m_goal (kept l)) /\
  remake_makefiles false user upd 1 before res l = Some (Continue false, h) /\
  In e h /\ o_updated (e_obs e) = true /\ o_status (e_obs e) = u_success /\ o_newtime (e_obs e) = true /\ o_started (e_obs e) = true /\ k_question (e_modes e) = false /\
  In m (kept l) /\ g_id (e_goal e) = g_id (m_goal m) /\ remade before (res h) m.
Proof.
  exists (mkmodes false true false), (fun _ f _ => if f =? 0 then mkobs true true u_question false false else mkobs false true u_success true true), (fun _ => Some 1),
    (fun _ g => mkafter true (if g_id g =? 0 then u_question else u_success) (Some (if g_id g =? 0 then 1 else 2))),
    [mkmakefile (one 0 true false) false false false; mkmakefile (one 1 false false) false false false].
  eexists _, _, _. split; [|split; [vm_compute; reflexivity|]].
  - split; [repeat constructor; cbn; intuition discriminate|repeat constructor].
  - split; [left; reflexivity|]. repeat split; try reflexivity; [right; left; reflexivity|reflexivity|discriminate|left; reflexivity].
Qed.
(** "If we want to remake only one of the goals, or with -q, stop": the goals behind are updated nevertheless, in the next pass. *)
Theorem C68_stop_refuted : exists user upd l s h e1 e2, new_goals l /\ update_goal_chain false false user upd 2 l = Some (s, h) /\ k_question user = true /\
  h = [e2; e1] /\ stops false false e1 /\ e_file e2 <> e_file e1 /\ s = u_question.
Proof.
  exists (mkmodes false true false), (fun _ f _ => mkobs true true u_question false false), [one 0 true false; one 1 true false]. eexists _, _, _, _. split; [|split; [vm_compute; reflexivity|]].
  - split; [repeat constructor; cbn; intuition discriminate|repeat constructor].
  - split; [reflexivity|]. split; [reflexivity|]. split; [|split; [discriminate|reflexivity]]. split; [left; reflexivity|]. right. repeat split; discriminate.
Qed.

Print Assumptions C68_result.
Print Assumptions C68_modes.
Print Assumptions C68_done.
Print Assumptions C68_order.
Print Assumptions C68_ends.
Print Assumptions C68_next.
Print Assumptions C68_changed.
Print Assumptions C68_argv.
Print Assumptions C68_stdin.
Print Assumptions C68_long_refuted.
Print Assumptions C68_crash_refuted.
Print Assumptions C68_goals_refuted.
Print Assumptions C68_stdin_refuted.
Print Assumptions C68_question_refuted.
Print Assumptions C68_stop_refuted.

(** ** Cases *)
(** Two makefiles: the first is remade in the second pass, the second is up to date; -n is given. *)
Definition upd1 (h : list event) (f : nat) (k : modes) : obs :=
  if f =? 0 then (if Nat.ltb (length h) 2 then mkobs false false u_none true false else mkobs false true u_success false true) else mkobs false true u_success false false.
Definition two : list makefile := [mkmakefile (one 0 false false) false false false; mkmakefile (one 1 true false) false false false; mkmakefile (one 2 false false) true false false].
Definition res1 (h : list event) (g : goal) : after := mkafter true u_success (Some (if g_id g =? 0 then 5 else 1)).
Definition ran (o : option (next_step * list event)) : option (next_step * list (nat * bool)) := option_map (fun p => (fst p, rev (map (fun e => (e_file e, k_print (e_modes e))) (snd p)))) o.
Example ex68_again : new_goals (map m_goal (kept two)) /\ ran (remake_makefiles false (mkmodes false false true) upd1 2 (fun _ => Some 1) res1 two) = Some (Again, [(0, false); (1, true); (0, false)]).
Proof. split; [|vm_compute; reflexivity]. split; [repeat constructor; cbn; intuition discriminate|repeat constructor]. Qed.
(** A makefile that cannot be made and was not included: make dies; if it was included, make goes on. *)
Definition fails (h : list event) (f : nat) (k : modes) : obs := mkobs true true u_failed false false.
Example ex68_die : ran (remake_makefiles false (mkmodes false false false) fails 1 (fun _ => None) (fun _ _ => mkafter false u_failed None) [mkmakefile (one 0 false false) false false false]) = Some (Die, [(0, false)]).
Proof. vm_compute. reflexivity. Qed.
Example ex68_go_on : ran (remake_makefiles false (mkmodes false false false) fails 1 (fun _ => None) (fun _ _ => mkafter false u_failed None) [mkmakefile (one 0 false false) false false true]) = Some (Continue false, [(0, false)]).
Proof. vm_compute. reflexivity. Qed.
Example ex68_spoilt : ran (remake_makefiles false (mkmodes false false false) fails 1 (fun _ => Some 1) (fun _ _ => mkafter true u_failed (Some 1)) [mkmakefile (one 0 false false) false false true]) = Some (Continue true, [(0, false)]).
Proof. vm_compute. reflexivity. Qed.
(** A makefile that was changed by a recipe that failed is read again. *)
Example ex68_failed_again : ran (remake_makefiles false (mkmodes false false false) fails 1 (fun _ => Some 1) (fun _ _ => mkafter true u_failed (Some 2)) [mkmakefile (one 0 false false) false false true]) = Some (Again, [(0, false)]).
Proof. vm_compute. reflexivity. Qed.
(** A command line that C68_argv is about, with a joined name, an option with an argument, and -- *)
Example ex68_argv : exists fs, aligned (map s2l ["-k"; "-f"; "./a"; "x=1"; "-C"; "d"; "-fb"; "--jobs=2"; "all"; "--"; "-k"]%string) fs /\ length fs = 2 /\
  files (dec ["-k"; "-f"; "./a"; "x=1"; "-C"; "d"; "-fb"; "--jobs=2"; "all"; "--"; "-k"]%string) = Some [s2l "a"; s2l "b"] /\
  again ["a"; "b"]%string None ["-k"; "-f"; "./a"; "x=1"; "-C"; "d"; "-fb"; "--jobs=2"; "all"; "--"; "-k"]%string = Some (map s2l ["-k"; "-f"; "a"; "x=1"; "-C"; "d"; "-fb"; "--jobs=2"; "all"; "--"; "-k"]%string).
Proof.
  exists (map s2l ["./a"; "b"]%string). split; [|repeat split; vm_compute; reflexivity]. cbn [map].
  apply al_option; [vm_compute; reflexivity|]. apply al_file. apply al_word; [vm_compute; intuition discriminate|]. apply al_argument; [vm_compute; reflexivity|intros s Q; discriminate|].
  change (s2l "-fb") with (s2l "-f" ++ s2l "b"). apply al_joined; [discriminate|]. apply al_option; [vm_compute; reflexivity|]. apply al_word; [vm_compute; intuition discriminate|]. apply al_stop. repeat constructor; intros s Q; discriminate.
Qed.
Example ex68_stdin : again ["/tmp/x"; "b"]%string (Some "/tmp/x"%string) ["-f"; "-"; "-fb"; "all"]%string = Some (map s2l ["-f"; "/tmp/x"; "-fb"; "all"; "-o/tmp/x"]%string).
Proof. vm_compute. reflexivity. Qed.
