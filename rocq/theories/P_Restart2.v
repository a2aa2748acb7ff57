From Coq Require Import Lia.
From Verif Require Import Base M_Flags M_Restart S_Restart.
Open Scope list_scope.
Open Scope nat_scope.

Lemma result_unique rb h : forall s s', result rb h s -> result rb h s' -> s = s'.
Proof.
  assert (SF : forall h e s s', says rb h e s -> says rb h e s' -> s = s').
  { intros h0 e s s' A B. destruct A as [A1 A2 | A1 A2 A3 A4 A5], B as [B1 B2 | B1 B2 B3 B4 B5]; congruence. }
  induction h as [| e h IH]; intros s s' A B.
  - inversion A. inversion B. reflexivity.
  - inversion A as [| ? ? ? A1 A2 | ? ? a ? A1 A2 A3 | ? ? ? A1 A2 A3]; inversion B as [| ? ? ? B1 B2 | ? ? b ? B1 B2 B3 | ? ? ? B1 B2 B3]; subst; pose proof (IH _ _ A1 B1) as E; subst; auto;
      try (destruct A2, B2; congruence); try (eapply SF; eauto); try (destruct (A3 _ B3)); try (destruct (B3 _ A3)).
Qed.
Lemma result_success rb h : result rb h u_success -> exists h1 e h2, h = h1 ++ e :: h2 /\ says rb h2 e u_success.
Proof.
  induction h as [| e h IH]; intros R; inversion R as [| ? ? ? A1 A2 | ? ? a ? A1 A2 A3 | ? ? ? A1 A2 A3]; subst.
  - destruct A2; discriminate.
  - exists [], e, h. auto.
  - destruct (IH A1) as (h1 & e' & h2 & -> & S). exists (e :: h1), e', h2. auto.
Qed.

Section Chain.
  Variable rb kg : bool.
  Variable user : modes.
  Variable upd : list event -> nat -> modes -> obs.
  Notation entries_loop := (entries_loop rb kg user upd).
  Notation pass := (pass rb kg user upd).
  Notation chain := (chain rb kg user upd).

  Definition right_modes (e : event) : Prop := e_modes e = if rb then (if e_cmd e then user else mkmodes false false false) else user.
  Definition fair (changed : bool) (g : goal) (h : list event) : Prop := changed = true <-> worked g h.
  Lemma worked_cons g e h : worked g (e :: h) <-> (g_id (e_goal e) = g_id g /\ o_started (e_obs e) = true) \/ worked g h.
  Proof.
    unfold worked. split.
    - intros (x & [<- | I] & A); [left; exact A|right; eauto].
    - intros [A | (x & I & A)]; [exists e; cbn; auto|exists x; cbn; auto].
  Qed.

  Lemma entries_spec g : forall l status h changed any status' h' changed' stop any',
    entries_loop g l status h changed any = (status', h', changed', stop, any') -> result rb h status -> fair changed g h -> Forall right_modes h ->
    result rb h' status' /\ fair changed' g h' /\ Forall right_modes h' /\ (exists k, h' = k ++ h /\ Forall (fun e => e_goal e = g) k /\ (l <> [] -> k <> [])) /\
    (any' = false -> any = false /\ (stop = false -> forall f cmd, In (f, cmd) l -> exists e, In e h' /\ e_goal e = g /\ e_file e = f /\ o_updated (e_obs e) = true)) /\
    (stop = true -> exists e, In e h' /\ e_goal e = g /\ stops rb kg e).
  Proof.
    induction l as [| [f cmd] l IH]; intros status h changed any status' h' changed' stop any' H R F M; cbn [M_Restart.entries_loop] in H.
    { injection H as <- <- <- <- <-. split; [exact R|]. split; [exact F|]. split; [exact M|]. split; [exists []; split; [reflexivity|]; split; [constructor|congruence]|]. split; [|discriminate]. intros ->. split; [reflexivity|]. intros _ f cmd []. }
    set (k := modes_for rb user cmd) in *. set (o := upd h f k) in *. set (e := mkevent g f cmd k o) in *.
    assert (RM : right_modes e) by reflexivity.
    assert (F' : fair (changed || o_started o) g (e :: h)). { unfold fair. rewrite worked_cons, orb_true_iff. unfold fair in F. rewrite F. cbn [e e_goal e_obs]. intuition. }
    match type of H with (let '(_, _) := ?x in _) = _ => destruct x as [st1 stop1] eqn:E end.
    assert (Q : result rb (e :: h) st1 /\ (stop1 = true -> stops rb kg e)).
    { clear H IH. destruct (below_question status) eqn:BQ.
      - assert (LOW : status = u_success \/ status = u_none) by (destruct status; auto; discriminate).
        destruct (o_fail o || o_updated o) eqn:FU; cbn [andb] in E.
        + assert (FU' : o_fail (e_obs e) = true \/ o_updated (e_obs e) = true) by (apply orb_true_iff; exact FU).
          destruct (o_status o) eqn:OS.
          * destruct (o_updated o && (changed || o_started o) && o_newtime o) eqn:C.
            -- injection E as <- <-. apply andb_true_iff in C. destruct C as [C C3]. apply andb_true_iff in C. destruct C as [C1 C2]. split.
               ++ destruct (negb rb || (negb (k_print k) && negb (k_question k))) eqn:PQ.
                  ** apply res_says with (s := status); auto. apply says_done; auto; [apply F'; exact C2|]. intros RB. rewrite RB in PQ. cbn [negb orb] in PQ. apply andb_true_iff in PQ. destruct PQ as [P Q]. apply negb_true_iff in P. apply negb_true_iff in Q. auto.
                  ** apply res_silent; auto. intros s' SY. inversion SY as [X1 X2 | X1 X2 X3 X4 X5]; [apply X2; exact OS|]. apply orb_false_iff in PQ. destruct PQ as [P Q]. apply negb_false_iff in P. destruct (X5 P) as [Y1 Y2]. cbn [e e_modes] in Y1, Y2. rewrite Y1, Y2 in Q. discriminate.
               ++ intros RD. apply andb_true_iff in RD. destruct RD as [R1 R2]. split; [exact FU'|]. left. auto.
            -- injection E as <- <-. split; [|discriminate]. apply res_silent; auto. intros s' SY. inversion SY as [X1 X2 | X1 X2 X3 X4 X5]; [apply X2; exact OS|]. apply F' in X4. cbn [e e_obs] in X1, X3. rewrite X1, X3, X4 in C. discriminate.
          * injection E as <- <-. split; [rewrite <- OS; apply res_says with (s := status); auto; apply (says_bad rb h e); auto; cbn [e e_obs]; congruence|].
            intros ST. apply andb_true_iff in ST. destruct ST as [ST S3]. apply andb_true_iff in ST. destruct ST as [S1 S2]. apply negb_true_iff in S2. apply negb_true_iff in S3. split; [exact FU'|]. right. cbn [e e_obs e_modes]. repeat split; auto; congruence.
          * injection E as <- <-. split; [rewrite <- OS; apply res_says with (s := status); auto; apply (says_bad rb h e); auto; cbn [e e_obs]; congruence|].
            intros ST. apply andb_true_iff in ST. destruct ST as [ST S3]. apply andb_true_iff in ST. destruct ST as [S1 S2]. apply negb_true_iff in S2. apply negb_true_iff in S3. split; [exact FU'|]. right. cbn [e e_obs e_modes]. repeat split; auto; congruence.
          * injection E as <- <-. split; [rewrite <- OS; apply res_says with (s := status); auto; apply (says_bad rb h e); auto; cbn [e e_obs]; congruence|].
            intros ST. apply andb_true_iff in ST. destruct ST as [ST S3]. apply andb_true_iff in ST. destruct ST as [S1 S2]. apply negb_true_iff in S2. apply negb_true_iff in S3. split; [exact FU'|]. right. cbn [e e_obs e_modes]. repeat split; auto; congruence.
        + injection E as <- <-. split; [|discriminate]. apply orb_false_iff in FU. destruct FU as [U1 U2]. apply res_silent; auto. intros s' SY. inversion SY as [[X1|X1] X2 | X1 X2 X3 X4 X5]; cbn [e e_obs] in X1; congruence.
      - rewrite andb_false_r in E. injection E as <- <-. split; [|discriminate]. apply res_fixed; auto. destruct status; auto; discriminate. }
    destruct Q as [Q1 Q2]. destruct stop1.
    - injection H as <- <- <- <- <-. split; [exact Q1|]. split; [exact F'|]. split; [constructor; auto|]. split; [exists [e]; split; [reflexivity|]; split; [constructor; [reflexivity|constructor]|discriminate]|]. split.
      + intros A. apply orb_false_iff in A. destruct A as [A1 A2]. split; [exact A1|discriminate].
      + intros _. exists e. cbn [In]. auto.
    - apply IH in H; [|exact Q1|exact F'|constructor; auto]. destruct H as (H1 & H2 & H3 & (q & -> & H4 & _) & H5 & H6). split; [exact H1|]. split; [exact H2|]. split; [exact H3|]. split.
      { exists (q ++ [e]). split; [rewrite <- app_assoc; reflexivity|]. split; [apply Forall_app; split; [exact H4|constructor; [reflexivity|constructor]]|]. intros _ X. destruct q; discriminate. }
      split; [|exact H6]. intros A. destruct (H5 A) as [A1 A2]. apply orb_false_iff in A1. destruct A1 as [A1 A3]. split; [exact A1|]. intros ST f' cmd' [X | I]; [|apply (A2 ST f' cmd' I)]. injection X as <- <-.
      exists e. split; [apply in_or_app; right; left; reflexivity|]. split; [reflexivity|]. split; [reflexivity|]. apply negb_false_iff. exact A3.
  Qed.

  Lemma worked_other g h k : Forall (fun e => g_id (e_goal e) <> g_id g) k -> (worked g (k ++ h) <-> worked g h).
  Proof.
    intros F. induction F as [| e k N F IH]; [reflexivity|]. cbn [app]. rewrite worked_cons, IH. split; [intros [[A _]|A]; [congruence|auto]|auto].
  Qed.
  Lemma done_more h k g : done rb kg h g -> done rb kg (k ++ h) g.
  Proof.
    intros [A | (e & I & A)]; [left|right; exists e; split; auto; apply in_or_app; auto]. intros f cmd I. destruct (A f cmd I) as (e & J & B). exists e. split; auto. apply in_or_app. auto.
  Qed.
  Definition same (g g' : goal) : Prop := g_id g = g_id g' /\ g_entries g = g_entries g' /\ g_dontcare g = g_dontcare g'.
  Definition visited (h : list event) (g : goal) : Prop := g_entries g <> [] -> exists e, In e h /\ g_id (e_goal e) = g_id g.
  Definition ids (l : list goal) : list nat := map g_id l.

  Lemma pass_spec : forall l kept status h l' status' h', pass kept l status h = (l', status', h') ->
    result rb h status -> NoDup (ids (rev kept ++ l)) -> (forall g, In g (rev kept ++ l) -> fair (g_changed g) g h) -> Forall right_modes h ->
    result rb h' status' /\ NoDup (ids l') /\ (forall g, In g l' -> fair (g_changed g) g h') /\ Forall right_modes h' /\ (exists k, h' = k ++ h) /\
    (forall g, In g (rev kept ++ l) -> (exists g', In g' l' /\ same g g') \/ (done rb kg h' g /\ visited h' g)).
  Proof.
    induction l as [| g l IH]; intros kept status h l' status' h' H R ND F M; cbn [M_Restart.pass] in H.
    { injection H as <- <- <-. rewrite app_nil_r in *. split; [exact R|]. split; [exact ND|]. split; [exact F|]. split; [exact M|]. split; [exists []; reflexivity|]. intros g I. left. exists g. split; [exact I|]. repeat split. }
    destruct (entries_loop g (g_entries g) status h (g_changed g) false) as [[[[st1 h1] ch1] stop] any] eqn:E.
    assert (FG : fair (g_changed g) g h) by (apply F; apply in_or_app; right; left; reflexivity).
    apply entries_spec in E; auto. destruct E as (E1 & E2 & E3 & (k & -> & E4 & E4') & E5 & E6).
    assert (VG : visited (k ++ h) g). { intros NE. destruct k as [| e k]; [destruct (E4' NE eq_refl)|]. inversion E4; subst. exists e. split; [left; reflexivity|reflexivity]. }
    assert (OTHER : forall x, In x (rev kept ++ l) -> g_id x <> g_id g).
    { intros x I EQ. unfold ids in ND. rewrite map_app in ND. cbn [map] in ND. apply NoDup_remove_2 in ND. apply ND. rewrite <- EQ, <- map_app. apply in_map. exact I. }
    assert (ND' : NoDup (ids (rev kept ++ l))). { unfold ids in *. rewrite map_app in *. cbn [map] in ND. apply NoDup_remove_1 in ND. exact ND. }
    assert (F' : forall x, In x (rev kept ++ l) -> fair (g_changed x) x (k ++ h)).
    { intros x I. unfold fair. rewrite worked_other; [apply F; rewrite in_app_iff in *; cbn; tauto|]. eapply Forall_impl; [|exact E4]. intros e ->. apply not_eq_sym, OTHER, I. }
    destruct stop.
    - injection H as <- <- <-. split; [exact E1|]. split; [exact ND'|]. split; [exact F'|]. split; [exact E3|]. split; [exists k; reflexivity|]. intros x I. rewrite in_app_iff in I. cbn in I. destruct I as [I | [<- | I]].
      + left. exists x. split; [apply in_or_app; auto|repeat split].
      + right. split; [|exact VG]. right. destruct (E6 eq_refl) as (e & J & A & B). exists e. split; [exact J|]. split; [congruence|exact B].
      + left. exists x. split; [apply in_or_app; auto|repeat split].
    - destruct any.
      + cbn [negb] in H. apply IH in H; auto.
        * destruct H as (H1 & H2 & H3 & H4 & (k' & ->) & H5). split; [exact H1|]. split; [exact H2|]. split; [exact H3|]. split; [exact H4|]. split; [exists (k' ++ k); rewrite app_assoc; reflexivity|].
          cbn [rev] in H5. intros x I. rewrite in_app_iff in I. cbn in I.
          assert (X : exists y, In y ((rev kept ++ [mkgoal (g_id g) (g_entries g) (g_dontcare g) ch1]) ++ l) /\ same x y).
          { destruct I as [I | [<- | I]].
            - exists x. split; [rewrite !in_app_iff; auto|repeat split].
            - eexists. split; [rewrite !in_app_iff; left; right; left; reflexivity|]. repeat split.
            - exists x. split; [rewrite !in_app_iff; auto|repeat split]. }
          destruct X as (y & Y & (S1 & S2 & S3)). destruct (H5 y Y) as [(g' & G & (T1 & T2 & T3)) | (DN & V)]; [left; exists g'; split; [exact G|]; split; [congruence|split; congruence]|right]. unfold done, visited in *. rewrite S1, S2. auto.
        * cbn [rev]. rewrite <- app_assoc. cbn [app]. unfold ids in *. rewrite map_app in *. cbn [map g_id] in *. exact ND.
        * cbn [rev]. intros x I. rewrite !in_app_iff in I. cbn in I. destruct I as [[I | [<- | []]] | I]; [apply F'; rewrite in_app_iff; auto| |apply F'; rewrite in_app_iff; auto]. exact E2.
      + cbn [negb] in H. apply IH in H; auto. destruct H as (H1 & H2 & H3 & H4 & (k' & ->) & H5). split; [exact H1|]. split; [exact H2|]. split; [exact H3|]. split; [exact H4|]. split; [exists (k' ++ k); rewrite app_assoc; reflexivity|].
        intros x I. rewrite in_app_iff in I. cbn in I. destruct I as [I | [<- | I]]; [apply H5; rewrite in_app_iff; auto| |apply H5; rewrite in_app_iff; auto]. right. split.
        * apply done_more. left. intros f cmd J. destruct (E5 eq_refl) as [_ A]. destruct (A eq_refl f cmd J) as (e & P1 & P2 & P3). exists e. split; [exact P1|]. split; [congruence|exact P3].
        * intros NE. destruct (VG NE) as (e & J & EQ). exists e. split; [apply in_or_app; auto|exact EQ].
  Qed.
  Lemma chain_spec n : forall l status h status' h', chain n l status h = Some (status', h') ->
    result rb h status -> NoDup (ids l) -> (forall g, In g l -> fair (g_changed g) g h) -> Forall right_modes h ->
    result rb h' status' /\ Forall right_modes h' /\ (exists k, h' = k ++ h) /\ (forall g, In g l -> done rb kg h' g /\ visited h' g).
  Proof.
    induction n as [| n IH]; intros l status h status' h' H R ND F M; (destruct l as [| g l]; cbn [M_Restart.chain] in H; [injection H as <- <-; split; [exact R|]; split; [exact M|]; split; [exists []; reflexivity|]; intros g []|]); [discriminate|].
    destruct (pass [] (g :: l) status h) as [[l1 st1] h1] eqn:P. apply pass_spec in P; auto. destruct P as (P1 & P2 & P3 & P4 & (k & ->) & P5). apply IH in H; auto. destruct H as (H1 & H2 & (k' & ->) & H3).
    split; [exact H1|]. split; [exact H2|]. split; [exists (k' ++ k); rewrite app_assoc; reflexivity|]. intros x I. destruct (P5 x I) as [(g' & G & (S1 & S2 & S3)) | (DN & V)].
    - destruct (H3 g' G) as [DN V]. unfold done, visited in *. rewrite S1, S2. auto.
    - split; [apply done_more; exact DN|]. intros NE. destruct (V NE) as (e & J & EQ). exists e. split; [apply in_or_app; auto|exact EQ].
  Qed.
End Chain.
