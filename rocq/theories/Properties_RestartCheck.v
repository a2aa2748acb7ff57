(** The tests of S_RestartCheck succeed for all inputs, by the theorems of C68; so those of W_Restart must. *)
From Coq Require Import Lia String List NArith.
From Verif Require Import Base M_Text M_Var M_Expand M_Flags M_Ar S_Ar P_Flags3 M_Restart M_RestartEnv S_Restart P_Restart P_Restart2 P_Restart4 Properties_Restart Properties_RestartEnv S_RestartCheck W_Random W_Restart.
Open Scope string_scope.
Open Scope list_scope.
Open Scope nat_scope.

Lemma ust_eqb_eq a b : ust_eqb a b = true <-> a = b.
Proof. destruct a, b; cbn; split; congruence. Qed.
Lemma ust_eqb_ne a b : ust_eqb a b = false <-> a <> b.
Proof. rewrite <- ust_eqb_eq. destruct (ust_eqb a b); split; congruence. Qed.
Lemma workedb_eq g h : workedb g h = true <-> worked g h.
Proof.
  unfold workedb, worked. rewrite existsb_exists. split; intros (e & I & H); exists e; split; auto.
  - apply andb_true_iff in H. destruct H as [A B]. apply Nat.eqb_eq in A. auto.
  - destruct H as [A B]. rewrite A, B, Nat.eqb_refl. reflexivity.
Qed.
Lemma say_says rb h e s : say rb h e = Some s <-> says rb h e s.
Proof.
  unfold say. destruct ((o_fail (e_obs e) || o_updated (e_obs e)) && negb (ust_eqb (o_status (e_obs e)) u_success)) eqn:A.
  - apply andb_true_iff in A. destruct A as [A B]. apply orb_true_iff in A. apply negb_true_iff, ust_eqb_ne in B. split.
    + intros H. injection H as <-. apply says_bad; auto.
    + intros H. destruct H; congruence.
  - split.
    + intros H. destruct (_ && _ && _ && _ && _) eqn:C in H; [|discriminate]. injection H as <-. rewrite !andb_true_iff in C. destruct C as ((((C1 & C2) & C3) & C4) & C5). apply ust_eqb_eq in C2. apply workedb_eq in C4. apply says_done; auto.
      intros ->. cbn [negb orb] in C5. apply andb_true_iff in C5. destruct C5 as [P Q]. apply negb_true_iff in P. apply negb_true_iff in Q. auto.
    + intros H. destruct H as [H1 H2 | H1 H2 H3 H4 H5].
      * apply orb_true_iff in H1. apply ust_eqb_ne in H2. rewrite H1, H2 in A. discriminate.
      * apply workedb_eq in H4. apply ust_eqb_eq in H2. rewrite H1, H2, H3, H4. cbn [andb]. destruct rb; [|reflexivity]. destruct (H5 eq_refl) as [-> ->]. reflexivity.
Qed.
Lemma result_of_spec rb h : result rb h (result_of rb h).
Proof.
  induction h as [| e h IH]; [constructor|]. cbn [result_of]. destruct (ust_eqb (result_of rb h) u_question || ust_eqb (result_of rb h) u_failed) eqn:E.
  - apply res_fixed; auto. apply orb_true_iff in E. rewrite !ust_eqb_eq in E. exact E.
  - assert (LOW : result_of rb h = u_success \/ result_of rb h = u_none) by (destruct (result_of rb h); cbn in E; auto; discriminate). destruct (say rb h e) as [s|] eqn:S.
    + apply res_says with (s := result_of rb h); auto. apply say_says. exact S.
    + apply res_silent; auto. intros s' H. apply say_says in H. congruence.
Qed.
Lemma result_is rb h s : result rb h s -> s = result_of rb h.
Proof. intros H. eapply result_unique; eauto using result_of_spec. Qed.
Lemma obs_refl o : obs_eqb o o = true.
Proof. unfold obs_eqb. rewrite !eqb_reflx. replace (ust_eqb (o_status o) (o_status o)) with true by (symmetry; apply ust_eqb_eq; reflexivity). reflexivity. Qed.
Lemma honest_ok upd h : honest upd h -> honestb upd h = true.
Proof.
  induction h as [| e h IH]; intros H; [reflexivity|]. cbn [honestb]. rewrite <- (H [] e h eq_refl), obs_refl. apply IH. intros h1 x h2 E. apply (H (e :: h1) x h2). rewrite E. reflexivity.
Qed.
Lemma done_ok rb kg h g : done rb kg h g -> doneb rb kg h g = true.
Proof.
  intros [A | (e & I & E & (S1 & S2))]; unfold doneb; apply orb_true_iff; [left|right].
  - apply forallb_forall. intros [f cmd] I. destruct (A f cmd I) as (e & J & E1 & E2 & E3). apply existsb_exists. exists e. split; auto. cbn [fst]. rewrite E1, E2, E3, !Nat.eqb_refl. reflexivity.
  - apply existsb_exists. exists e. split; auto. rewrite E, Nat.eqb_refl. unfold stopsb. apply orb_true_iff in S1. rewrite S1. cbn [andb]. destruct S2 as [(-> & -> & S3 & ->) | (-> & -> & -> & S3)].
    + apply ust_eqb_eq in S3. rewrite S3. reflexivity.
    + apply ust_eqb_ne in S3. rewrite S3. reflexivity.
Qed.
Lemma history_ok rb kg user upd n l s h : new_goals l -> update_goal_chain rb kg user upd n l = Some (s, h) -> s = result_of rb h /\ t_history rb kg user upd l h = true.
Proof.
  intros N H. destruct (chain_all _ _ _ _ _ _ _ _ N H) as (R & M & _). split; [apply result_is; exact R|]. unfold t_history. rewrite !andb_true_iff. split; [split|].
  - apply forallb_forall. intros e I. rewrite Forall_forall in M. specialize (M e I). unfold right_modes in M. unfold modesb. rewrite M. destruct rb, (e_cmd e); cbn [andb negb]; unfold modes_eqb; rewrite !eqb_reflx; reflexivity.
  - apply forallb_forall. intros g I. apply done_ok. apply (proj1 (C68_done _ _ _ _ _ _ _ _ g N H I)).
  - apply honest_ok. apply (proj2 (C68_order _ _ _ _ _ _ _ _ N H)).
Qed.
Definition settled (upd : list event -> nat -> modes -> obs) (m : nat) : Prop := forall h f k, m <= length h -> o_updated (upd h f k) = true.
Theorem C68_check_chain : forall rb kg user upd m n l, new_goals l -> settled upd m -> m + length l <= n -> t_chain rb kg user upd n l = true.
Proof.
  intros rb kg user upd m n l N S L. unfold t_chain. destruct (update_goal_chain rb kg user upd n l) as [[s h]|] eqn:E.
  - destruct (history_ok _ _ _ _ _ _ _ _ N E) as [R T]. rewrite T, andb_true_r. apply ust_eqb_eq. exact R.
  - destruct (C68_ends rb kg user upd m n l S L E).
Qed.
Lemma time_same_eq a b : time_same a b = true <-> a = b.
Proof. destruct a, b; cbn; split; try discriminate; try reflexivity; [rewrite Nat.eqb_eq; congruence|]. intros H. injection H as ->. apply Nat.eqb_refl. Qed.
Lemma remadeb_eq before res m : remadeb before res m = true <-> remade before res m.
Proof.
  unfold remadeb, remade. rewrite !andb_true_iff, orb_true_iff, andb_true_iff, !negb_true_iff, ust_eqb_eq. pose proof (time_same_eq (a_time (res (m_goal m))) (before (m_goal m))) as T. destruct (time_same _ _); destruct (a_time (res (m_goal m))); cbn [is_there]; intuition congruence.
Qed.
Lemma missingb_eq res m : missingb res m = true <-> missing res m.
Proof. unfold missingb, missing. rewrite !andb_true_iff, !negb_true_iff. tauto. Qed.
Lemma spoiltb_eq res m : spoiltb res m = true <-> spoilt res m.
Proof. unfold spoiltb, spoilt. rewrite !andb_true_iff, !negb_true_iff, ust_eqb_ne. tauto. Qed.
Lemma ex_eq {A} (p : A -> bool) (P : A -> Prop) l : (forall a, p a = true <-> P a) -> (existsb p l = true <-> exists a, In a l /\ P a).
Proof. intros H. rewrite existsb_exists. split; intros (a & I & X); exists a; split; auto; apply H; auto. Qed.
Lemma ex_not {A} (p : A -> bool) (P : A -> Prop) l : (forall a, p a = true <-> P a) -> (existsb p l = false <-> forall a, In a l -> ~ P a).
Proof.
  intros H. pose proof (ex_eq p P l H) as E. destruct (existsb p l); split; try congruence.
  - intros X. destruct (proj1 E eq_refl) as (a & I & Y). destruct (X a I Y).
  - intros _ a I Y. assert (false = true) by (apply E; eauto). discriminate.
Qed.
Theorem C68_check_next : forall kg user upd m n before res l, new_goals (map m_goal (kept l)) -> settled upd m -> m + length l <= n -> t_next kg user upd n before res l = true.
Proof.
  intros kg user upd m n before res l N S L. unfold t_next. fold (kept l). destruct (remake_makefiles kg user upd n before res l) as [[step h]|] eqn:E.
  - destruct (C68_next _ _ _ _ _ _ _ _ _ N E) as ((s & R & A & D & C) & _). unfold remake_makefiles in E. rewrite select_spec in E.
    destruct (update_goal_chain _ _ _ _ _ _) as [[s1 h1]|] eqn:U; [|discriminate]. injection E as ES <-. destruct (history_ok _ _ _ _ _ _ _ _ N U) as [RS T]. rewrite T, andb_true_r. clear T.
    rewrite <- (result_is _ _ _ R). assert (s = s1) by (rewrite RS; apply result_is; exact R). subst s1. unfold step_of.
    assert (Q : step = match s with u_success => Again | u_failed => if existsb (remadeb before (res h1)) (kept l) then Again else if existsb (missingb (res h1)) (kept l) then Die else Continue (existsb (spoiltb (res h1)) (kept l)) | _ => Continue false end).
    { destruct s.
      - apply A. auto.
      - rewrite <- H in ES. symmetry. exact ES.
      - rewrite <- H in ES. symmetry. exact ES.
      - destruct (existsb (remadeb before (res h1)) (kept l)) eqn:X1; [apply A; right; split; auto; revert X1; apply ex_eq, remadeb_eq|].
        pose proof (proj1 (ex_not _ _ _ (remadeb_eq before (res h1))) X1) as N1. destruct (existsb (missingb (res h1)) (kept l)) eqn:X2; [apply D; split; auto; split; auto; revert X2; apply ex_eq, missingb_eq|].
        pose proof (proj1 (ex_not _ _ _ (missingb_eq (res h1))) X2) as N2. destruct (existsb (spoiltb (res h1)) (kept l)) eqn:X3; [apply C; split; auto; split; [split; auto|]; revert X3; apply ex_eq, spoiltb_eq|].
        pose proof (proj1 (ex_not _ _ _ (spoiltb_eq (res h1))) X3) as N3. destruct step as [[|]| |]; [|reflexivity| |].
        + destruct (proj1 C eq_refl) as (_ & _ & m0 & I & Y). destruct (N3 m0 I Y).
        + destruct (proj1 A eq_refl) as [Y | (_ & m0 & I & Y)]; [discriminate|destruct (N1 m0 I Y)].
        + destruct (proj1 D eq_refl) as (_ & _ & m0 & I & Y). destruct (N2 m0 I Y). }
    rewrite <- Q. destruct step as [b| |]; cbn; auto. apply eqb_reflx.
  - unfold remake_makefiles in E. rewrite select_spec in E. destruct (update_goal_chain _ _ _ _ _ _) as [[s1 h1]|] eqn:U; [discriminate|]. apply (C68_ends true kg user upd m n (map m_goal (kept l)) S) in U; [destruct U|]. rewrite map_length. unfold kept.
    assert (length (filter (fun m => negb (m_loops m)) l) <= length l); [|lia]. clear. induction l as [| a l IH]; cbn [filter length]; [lia|]. destruct (negb (m_loops a)); cbn [length]; lia.
Qed.

(** ** Words *)
Lemma starts_f w : starts_with (s2l "-f") w = true <-> exists s, w = s2l "-f" ++ s.
Proof. apply starts_with_iff. Qed.
Lemma not_fb_ok w : not_fb w = true -> not_f w.
Proof. unfold not_fb, not_f. intros H s E. assert (X : starts_with (s2l "-f") w = true) by (apply starts_f; eauto). rewrite X in H. discriminate. Qed.
Lemma no_dashb_ok w : no_dashb w = true -> no_dash w.
Proof.
  unfold no_dash. destruct w as [| a [| b w]]; cbn [no_dashb]; intros H.
  - right. intros s E. discriminate.
  - destruct (a =?c c_minus) eqn:E; [left; apply eqc_true in E; subst; reflexivity|right]. intros s Q. injection Q as -> _. discriminate.
  - right. intros s Q. injection Q as -> _. discriminate.
Qed.
Lemma align_ok n : forall ws, align n ws = true -> exists fs, aligned ws fs.
Proof.
  induction n as [| n IH]; intros [| w r] H; cbn [align] in H; try discriminate; try (exists []; apply al_end).
  destruct (no_dashb w) eqn:ND. { destruct (IH _ H) as (fs & A). exists fs. apply al_word; auto. apply no_dashb_ok. exact ND. }
  destruct (str_eqb w (s2l "--")) eqn:E1. { apply str_eqb_eq in E1. subst w. exists []. apply al_stop. apply Forall_forall. intros x I. rewrite forallb_forall in H. apply not_fb_ok, H, I. }
  destruct (str_eqb w (s2l "-f")) eqn:E2. { apply str_eqb_eq in E2. subst w. destruct r as [| m r]; [discriminate|]. destruct (IH _ H) as (fs & A). exists (m :: fs). apply al_file. exact A. }
  destruct (starts_with (s2l "-f") w) eqn:E3. { apply starts_f in E3. destruct E3 as (s & ->). destruct (IH _ H) as (fs & A). exists (s :: fs). apply al_joined; auto. intros ->. discriminate E2. }
  destruct (takes w) as [[|]|] eqn:T; [|destruct (IH _ H) as (fs & A); exists fs; apply al_option; auto|discriminate].
  destruct r as [| a r]; [discriminate|]. apply andb_true_iff in H. destruct H as [H1 H2]. destruct (IH _ H2) as (fs & A). exists fs. apply al_argument; auto. apply not_fb_ok. exact H1.
Qed.
Lemma strs_refl l : strs_eqb l l = true.
Proof. induction l as [| a l IH]; [reflexivity|]. cbn [strs_eqb]. rewrite IH, andb_true_r. apply str_eqb_eq. reflexivity. Qed.
Lemma oval_refl v : oval_eqb v v = true.
Proof. destruct v as [z | d | [s|] | l]; cbn [oval_eqb]; auto using Z.eqb_refl, Nat.eqb_refl, strs_refl. apply str_eqb_eq. reflexivity. Qed.
Lemma goodb_ok n : goodb n = true -> n <> [] /\ expand_command_line_file (fun _ => None) n = Some n.
Proof. unfold goodb. destruct n as [| c n]; [discriminate|]. intros H. split; [discriminate|]. destruct (expand_command_line_file _ (c :: n)) as [m|]; [|discriminate]. apply str_eqb_eq in H. congruence. Qed.
Theorem C68_check_words : forall argv names, t_words argv names = true.
Proof.
  intros argv names. unfold t_words. destruct (d_read argv) as [d|] eqn:R; [|reflexivity]. destruct (align (length argv) argv && (length names =? length (d_files d)) && forallb goodb names) eqn:G; [|reflexivity].
  rewrite !andb_true_iff, Nat.eqb_eq, forallb_forall in G. destruct G as ((G1 & G2) & G3). destruct (align_ok _ _ G1) as (fs & A).
  destruct (C68_argv nat (fun _ => 0) 0 (fun _ => None) argv fs d_start d names A eq_refl R G2) as (argv' & d' & N1 & N2 & (N3 & N4) & N5); [intros m I; apply goodb_ok, G3, I|].
  rewrite N1. unfold d_read. rewrite N2. unfold d_files. unfold files_of in N5. rewrite N5, <- N3, !strs_refl. cbn [andb]. apply forallb_forall. intros p _. destruct (String.eqb p "makefiles") eqn:P; [reflexivity|]. cbn [orb]. apply String.eqb_neq in P. rewrite (N4 p P). apply oval_refl.
Qed.
Theorem C68_check_stdin : forall argv names nm, t_stdin argv names nm = true.
Proof.
  intros argv names nm. unfold t_stdin. destruct (d_read argv) as [d|] eqn:R; [|reflexivity]. match goal with |- (if ?b then _ else _) = true => destruct b eqn:G; [|reflexivity] end.
  rewrite !andb_true_iff, Nat.eqb_eq, forallb_forall, negb_true_iff in G. destruct G as ((((G1 & G2) & G3) & G4) & G5). destruct (align_ok _ _ G1) as (fs & A).
  assert (NS : forall l, (forall x, In x l -> In x (argv ++ names)) -> ~ In (s2l "--") l).
  { intros l INC I. assert (X : existsb (str_eqb (s2l "--")) (argv ++ names) = true) by (apply existsb_exists; exists (s2l "--"); split; [apply INC, I|reflexivity]). rewrite X in G5. discriminate. }
  destruct (C68_stdin nat (fun _ => 0) 0 (fun _ => None) argv fs d_start d names nm A) as (argv' & d' & N1 & N2 & N3 & N4 & N5 & _); auto.
  - apply NS. intros x I. apply in_or_app. auto.
  - apply NS. intros x I. apply in_or_app. auto.
  - intros m I. apply goodb_ok, G3, I.
  - apply goodb_ok. exact G4.
  - rewrite N1. unfold d_read. rewrite N2. unfold d_files. unfold files_of in N3. rewrite N3, N4, N5, !strs_refl. reflexivity.
Qed.

(** ** The samples *)
Lemma upd_settled s : settled (w_upd s) 8.
Proof.
  intros h f k L. unfold w_upd. repeat match goal with |- context [let '(_, _) := ?x in _] => destruct x end. cbn [o_updated]. apply orb_true_iff. right. apply Nat.leb_le. exact L.
Qed.
Lemma goals_new n : forall i s l s', w_goals n i s = (l, s') -> length l = n /\ map g_id l = seq i n /\ Forall (fun g => g_changed g = false) l.
Proof.
  induction n as [| n IH]; intros i s l s' H; cbn [w_goals] in H; [injection H as <- <-; auto|]. destruct (w_goal i s) as [g s1] eqn:G. destruct (w_goals n (S i) s1) as [l1 s2] eqn:E. injection H as <- <-. destruct (IH _ _ _ _ E) as (A & B & C).
  unfold w_goal in G. destruct (several _ _ _ s) as [es s3]. destruct (chance 30 s3) as [d s4]. injection G as <- <-. cbn [length map seq g_id]. rewrite A, B. repeat split; auto.
Qed.
Lemma chains_follow l : chains_hold l = true.
Proof.
  apply forallb_forall. intros s _. unfold one_chain. destruct (roll 4 s) as [k s1], (w_goals (S k) 0 s1) as [gs s2] eqn:G, (chance 60 s2) as [rb s3], (chance 50 s3) as [kg s4], (w_modes s4) as [u s5]. destruct (goals_new _ _ _ _ _ G) as (A & B & C).
  apply (C68_check_chain _ _ _ _ 8); [split; [rewrite B; apply seq_NoDup|exact C]|apply upd_settled|lia].
Qed.
Lemma makefiles_goals l : forall s ms s', w_makefiles l s = (ms, s') -> map m_goal ms = l.
Proof.
  induction l as [| g l IH]; intros s ms s' H; cbn [w_makefiles] in H; [injection H as <- <-; reflexivity|]. destruct (chance 20 s) as [a s1], (chance 40 s1) as [b s2], (chance 50 s2) as [c s3], (w_makefiles l s3) as [r s4] eqn:E. injection H as <- <-. cbn [map m_goal]. f_equal. eapply IH; eauto.
Qed.
Lemma kept_sub l : sub (map m_goal (kept l)) (map m_goal l).
Proof. induction l as [| m l IH]; [apply sub_nil|]. unfold kept in *. cbn [filter]. destruct (negb (m_loops m)); cbn [map]; [apply sub_take|apply sub_skip]; exact IH. Qed.
Lemma nexts_follow l : nexts_hold l = true.
Proof.
  apply forallb_forall. intros s _. unfold one_next. destruct (roll 3 s) as [k s1], (w_goals (S k) 0 s1) as [gs s2] eqn:G, (w_makefiles gs s2) as [ms s3] eqn:M, (chance 50 s3) as [kg s4], (w_modes s4) as [u s5]. destruct (goals_new _ _ _ _ _ G) as (A & B & C). apply makefiles_goals in M.
  apply (C68_check_next _ _ _ 8); [|apply upd_settled|rewrite <- M, map_length; lia]. pose proof (kept_sub ms) as K. rewrite M in K. split.
  - eapply sub_nodup; [apply sub_map; exact K|]. rewrite B. apply seq_NoDup.
  - apply Forall_forall. intros g I. rewrite Forall_forall in C. apply C. eapply sub_in; eauto.
Qed.
Lemma words_follow l : words_hold l = true.
Proof.
  apply forallb_forall. intros s _. unfold one_words. destruct (several 1 8 (pick [] w_words) s) as [argv s1]. destruct (d_read argv) as [d|]; [|reflexivity]. destruct (draw _ _ s1) as [names s2]. rewrite C68_check_words, C68_check_stdin. reflexivity.
Qed.
Lemma subset_sub {A} p : forall (l : list A) s, sub (fst (subset p l s)) l.
Proof. induction l as [| a l IH]; intros s; cbn [subset]; [apply sub_nil|]. destruct (chance p s) as [b s1]. specialize (IH s1). destruct (subset p l s1) as [r s2]. cbn [fst] in *. destruct b; [apply sub_take|apply sub_skip]; exact IH. Qed.
Lemma once_env e : sub e w_env -> once e.
Proof.
  intros S a w b -> G x I. assert (N : NoDup (a ++ w :: b)). { eapply sub_nodup; [exact S|]. unfold w_env. repeat constructor; cbn; intuition discriminate. }
  assert (U : forall y, In y w_env -> gives "MAKE_RESTARTS" y -> y = s2l "MAKE_RESTARTS=3").
  { intros y J (v & E). unfold w_env in J. cbn [map In] in J. repeat (destruct J as [<- | J]; [try discriminate E; reflexivity|]). destruct J. }
  assert (W : w = s2l "MAKE_RESTARTS=3") by (apply U; [eapply sub_in; [exact S|apply in_or_app; right; left; reflexivity]|exact G]). intros GX.
  assert (X : x = s2l "MAKE_RESTARTS=3") by (apply U; [eapply sub_in; [exact S|apply in_app_iff in I; apply in_or_app; destruct I; [left; auto|right; right; auto]]|exact GX]).
  apply NoDup_remove_2 in N. apply N. congruence.
Qed.
Lemma roll_bound n s : (0 < n)%N -> fst (roll n s) < N.to_nat n.
Proof. intros P. unfold roll. cbn [fst]. pose proof (N.mod_lt (N.shiftr (next s) 16) n ltac:(lia)). lia. Qed.
Lemma envs_follow l : envs_hold l = true.
Proof.
  apply forallb_forall. intros s _. unfold one_env. pose proof (subset_sub 60 w_env s) as S. destruct (subset 60 w_env s) as [e s1]. cbn [fst] in S. destruct (chance 50 s1) as [t s2]. pose proof (roll_bound 1000 s2 ltac:(lia)) as B. destruct (roll 1000 s2) as [r s3], (roll 30 s3) as [lv s4]. cbn [fst] in B.
  rewrite (C68_restarts _ t (Z.of_nat r) e (once_env e S)); [rewrite Z.eqb_refl, eqb_reflx; reflexivity|]. assert (Z.of_nat r < 1000)%Z by lia. change (2 ^ 32)%Z with 4294967296%Z. lia.
Qed.
Print Assumptions C68_check_chain.
Print Assumptions C68_check_next.
Print Assumptions C68_check_words.
Print Assumptions C68_check_stdin.
